(** Proofs for C52, C53, C62. *)
From Verif Require Import PyBase CSum NpFFT FFTProofs NumPy NpMath NpMathProofs GridModel GridSpec GridProofs LaserSpec GridObs
  EnergyModel EnergyProofs AngularProofs LaserModel OpticsModel LaserOps LaserInv LaserInitProofs LaserStepProofs
  PropagateProofs HistoryProofs OpticsProofs OpticsProofs2 SolverSpec SolverProofs PropLaws GSModel GSSpec.
Open Scope R_scope.

(** ** The heap *)
Lemma nth_error_set_nth_eq {A} (l : list A) i v : (i < length l)%nat -> nth_error (set_nth l i v) i = Some v.
Proof. revert i; induction l as [|x l IH]; intros [|i] H; cbn in *; try lia; [reflexivity|]. apply IH. lia. Qed.
Lemma nth_error_set_nth_neq {A} (l : list A) i j v : i <> j -> nth_error (set_nth l i v) j = nth_error l j.
Proof. revert i j; induction l as [|x l IH]; intros [|i] [|j] H; cbn; try reflexivity; try lia. apply IH. lia. Qed.
Lemma set_nth_length {A} (l : list A) i v : length (set_nth l i v) = length l.
Proof. revert i; induction l as [|x l IH]; intros [|i]; cbn; try reflexivity. rewrite IH. reflexivity. Qed.
(** Objects below [n] are left alone, and the heap does not shrink. *)
Definition frame (n : nat) (h h' : heap) : Prop := (length h <= length h')%nat /\ forall r, (r < n)%nat -> nth_error h' r = nth_error h r.
Lemma frame_refl n h : frame n h h. Proof. split; [lia|reflexivity]. Qed.
Lemma frame_trans n h h' h'' : frame n h h' -> frame n h' h'' -> frame n h h''.
Proof. intros [L1 F1] [L2 F2]. split; [lia|]. intros r Hr. rewrite F2, F1 by exact Hr. reflexivity. Qed.
Lemma frame_call {A} n r (f : laser -> laser * res A) h : (n <= r)%nat -> frame n h (fst (h_call r f h)).
Proof.
  intros H. unfold h_call. destruct (nth_error h r); [|apply frame_refl]. cbn [fst]. split; [rewrite set_nth_length; lia|].
  intros q Hq. apply nth_error_set_nth_neq. lia.
Qed.
Lemma frame_lift {A} n (m : res A) h : frame n h (fst (hlift m h)). Proof. apply frame_refl. Qed.
Lemma frame_bind {A B} n (m : hm A) (f : A -> hm B) h : frame n h (fst (m h)) -> (forall a h', frame n h' (fst (f a h'))) -> frame n h (fst (hbind m f h)).
Proof. intros H1 H2. unfold hbind. destruct (snd (m h)) as [a|e]; [|exact H1]. eapply frame_trans; [exact H1|apply H2]. Qed.
Lemma body_frame n S r1 r2 dz a1 a2 p h : (n <= r1)%nat -> (n <= r2)%nat -> frame n h (fst (gs_body S r1 r2 dz a1 a2 p h)).
Proof.
  intros H1 H2. unfold gs_body, h_set_t, h_propagate, h_get_t.
  repeat first [apply frame_lift | apply frame_call; assumption | apply frame_refl | (apply frame_bind; [|intros ? ?])].
Qed.
Lemma loop_frame n S r1 r2 dz a1 a2 c br : (n <= r1)%nat -> (n <= r2)%nat -> forall fuel cond p last h h' q,
  gs_loop fuel S r1 r2 dz a1 a2 c br cond p last h = Some (h', q) -> frame n h h'.
Proof.
  intros H1 H2. induction fuel as [|fuel IH]; intros cond p last h h' q; cbn [gs_loop]; [discriminate|].
  destruct (br cond).
  - pose proof (body_frame n S r1 r2 dz a1 a2 p h H1 H2) as F. cbn zeta. destruct (snd (gs_body S r1 r2 dz a1 a2 p h)) as [[[p1 p2] e]|e].
    + intros E. eapply frame_trans; [exact F|]. eapply IH, E.
    + intros E. injection E as <- <-. exact F.
  - intros E. injection E as <- <-. apply frame_refl.
Qed.
Lemma frame_copy n r h : (n <= length h)%nat -> frame n h (fst (h_deepcopy r h)).
Proof.
  intros H. unfold h_deepcopy. destruct (nth_error h r); [|apply frame_refl]. cbn [fst]. split; [rewrite app_length; cbn; lia|].
  intros q Hq. rewrite nth_error_app1 by lia. reflexivity.
Qed.
Lemma copy_ok r h q : snd (h_deepcopy r h) = Ok q -> q = length h /\ (length h < length (fst (h_deepcopy r h)))%nat.
Proof. unfold h_deepcopy. destruct (nth_error h r); cbn; [|discriminate]. intros E. injection E as <-. rewrite app_length. cbn. lia. Qed.
Lemma prepare_frame p1 p2 h : frame (length h) h (fst (gs_prepare p1 p2 h)) /\
  forall r1 r2 a1 a2, snd (gs_prepare p1 p2 h) = Ok (r1, r2, a1, a2) -> (length h <= r1)%nat /\ (length h <= r2)%nat.
Proof.
  unfold gs_prepare, hbind, h_get_t. cbn zeta. pose proof (frame_copy (length h) p1 h (le_n _)) as F1.
  pose proof (copy_ok p1 h) as C1. destruct (h_deepcopy p1 h) as [h1 [r1|e1]]; cbn [fst snd] in *; [|split; [exact F1|discriminate]].
  destruct (C1 r1 eq_refl) as (E1 & G1).
  pose proof (frame_copy (length h) p2 h1 ltac:(lia)) as F2. pose proof (copy_ok p2 h1) as C2.
  destruct (h_deepcopy p2 h1) as [h2 [r2|e2]]; cbn [fst snd] in *; [|split; [eapply frame_trans; eassumption|discriminate]].
  destruct (C2 r2 eq_refl) as (E2 & G2). pose proof (frame_trans _ _ _ _ F1 F2) as F.
  pose proof (frame_call (length h) r1 (fun L => (set_grid L (fst (get_temporal_field (l_grid L))), snd (get_temporal_field (l_grid L)))) h2 ltac:(lia)) as F3.
  destruct (h_call r1 _ h2) as [h3 [f1|e3]]; cbn [fst snd] in *; [|split; [eapply frame_trans; eassumption|discriminate]].
  pose proof (frame_call (length h) r2 (fun L => (set_grid L (fst (get_temporal_field (l_grid L))), snd (get_temporal_field (l_grid L)))) h3 ltac:(lia)) as F4.
  destruct (h_call r2 _ h3) as [h4 [f2|e4]]; cbn [fst snd hret] in *.
  - split; [eapply frame_trans; [exact F|]; eapply frame_trans; eassumption|]. intros ? ? ? ? E. injection E as <- <- _ _. lia.
  - split; [eapply frame_trans; [exact F|]; eapply frame_trans; eassumption|discriminate].
Qed.
Lemma c52_untouched fuel S h p1 p2 dz c mi ae h' q : gerchberg_saxton fuel S h p1 p2 dz c mi ae = Some (h', q) ->
  forall r, (r < length h)%nat -> nth_error h' r = nth_error h r.
Proof.
  unfold gerchberg_saxton. destruct (prepare_frame p1 p2 h) as (F & G). cbn zeta.
  destruct (snd (gs_prepare p1 p2 h)) as [[[[r1 r2] a1] a2]|e].
  - destruct (G _ _ _ _ eq_refl) as (G1 & G2). destruct (gs_breakout _ _ _ _) as [br|].
    + intros E r Hr. pose proof (loop_frame (length h) S r1 r2 dz a1 a2 c br G1 G2 _ _ _ _ _ _ _ E) as F2.
      apply (proj2 (frame_trans _ _ _ _ F F2) r Hr).
    + intros E r Hr. injection E as <- <-. apply (proj2 F r Hr).
  - intros E r Hr. injection E as <- <-. apply (proj2 F r Hr).
Qed.

(** ** Carrying a field with a laser *)
(** What propagate does to the temporal field. *)
Definition Tr (S : solvers) (P : prop_attr) (om : list R) (w d : R) (a : ndarray) : ndarray :=
  np_fft_last (apply_phase om w d (stepped S P (np_ifft_last a) d)).
Definition TL (S : solvers) (L : laser) (d : R) (a : ndarray) : ndarray := Tr S (used_prop L backend_NP) (l_omega L) (p_omega0 (l_prof L)) d a.
Definition evolved (L L' : laser) : Prop := l_dim L' = l_dim L /\ l_omega L' = l_omega L /\ l_prof L' = l_prof L /\ used_prop L' backend_NP = used_prop L backend_NP.
Lemma evolved_refl L : evolved L L. Proof. repeat split; reflexivity. Qed.
Lemma evolved_trans L L' L'' : evolved L L' -> evolved L' L'' -> evolved L L''.
Proof. intros (A & B & C & D) (A' & B' & C' & D'). repeat split; congruence. Qed.
Lemma TL_evolved S L L' d a : evolved L L' -> TL S L' d a = TL S L d a.
Proof. intros (A & B & C & D). unfold TL. rewrite B, C, D. reflexivity. Qed.
Lemma Inv_grid L n0 n1 nt g : Inv L n0 n1 nt -> same_meta (l_grid L) g -> CohG g -> (exists a, tread g = Ok a) ->
  Inv (set_grid L g) n0 n1 nt /\ evolved L (set_grid L g).
Proof.
  intros [H1 H2 H3 H4 H5 H6] M G Rd. split.
  - constructor; cbn [l_dim l_grid l_omega l_prop set_grid]; try assumption.
    + eapply GShape_meta; eassumption.
    + destruct H6 as [-> | (b & ->)]; [left; reflexivity|right]. exists b. rewrite fresh_prop_meta by exact M. reflexivity.
  - unfold evolved. cbn [l_dim l_omega l_prof set_grid]. repeat split. unfold used_prop. cbn [l_prop set_grid]. destruct (l_prop L); [reflexivity|]. apply fresh_prop_meta, M.
Qed.
Lemma carry S L n0 n1 nt d a : Inv L n0 n1 nt -> shp a = [n0;n1;nt] -> dty a = Complex128 ->
  exists g0 L', set_temporal_field (l_grid L) a = (g0, Ok tt) /\ propagate S (set_grid L g0) d None None backend_NP = (L', Ok tt) /\
    tread (l_grid L') = Ok (TL S L d a) /\ Inv L' n0 n1 nt /\ evolved L L'.
Proof.
  intros HI Hs Hd. pose proof (i_coh _ _ _ _ HI) as HG. pose proof (gs_shape _ _ _ _ _ (i_shape _ _ _ _ HI)) as Hsh.
  destruct (set_t_ok (l_grid L) a (proj1 HG) ltac:(congruence) Hd) as (O & Rt_ & Rs).
  pose proof (set_t_meta (l_grid L) a) as M. pose proof (set_t_Coh (l_grid L) a HG) as G.
  destruct (set_temporal_field (l_grid L) a) as [g0 u]. cbn [fst snd] in *. subst u.
  destruct (Inv_grid L n0 n1 nt g0 HI M G (ex_intro _ a Rt_)) as (HI0 & Ev).
  destruct (propagate_simple S (set_grid L g0) n0 n1 nt d backend_NP _ HI0 Rs) as (b' & L' & g1 & U & E & HI' & EL & M1 & G1 & F & SS & TT).
  exists g0, L'. split; [reflexivity|]. split; [exact E|]. split.
  - rewrite TT. rewrite <- U. f_equal. change (TL S (set_grid L g0) d a = TL S L d a). apply TL_evolved, Ev.
  - split; [exact HI'|]. apply (evolved_trans L (set_grid L g0) L' Ev). rewrite EL. unfold evolved. cbn [l_dim l_omega l_prof set_grid set_prop]. repeat split.
    unfold used_prop at 1. cbn [l_prop set_grid set_prop]. symmetry. exact U.
Qed.
Lemma carried_iff S L n0 n1 nt d a f : Inv L n0 n1 nt -> shp a = [n0;n1;nt] -> dty a = Complex128 -> (carried S L d a f <-> f = TL S L d a).
Proof.
  intros HI Hs Hd. destruct (carry S L n0 n1 nt d a HI Hs Hd) as (g0 & L' & E1 & E2 & E3 & _). split.
  - intros (g & L'' & F1 & F2 & F3). rewrite E1 in F1. injection F1 as <-. rewrite E2 in F2. injection F2 as <-. unfold tread in E3. rewrite E3 in F3. injection F3 as <-. reflexivity.
  - intros ->. exists g0, L'. auto.
Qed.
Lemma TL_shape S L d a : shp (TL S L d a) = shp a /\ dty (TL S L d a) = Complex128.
Proof. split; reflexivity. Qed.

(** ** One pass of the loop *)
Lemma binop_same f d a b n0 n1 nt : shp a = [n0;n1;nt] -> shp b = [n0;n1;nt] -> np_binop f d a b = Ok (mkArr [n0;n1;nt] d (fun i j k => f (at3 a i j k) (at3 b i j k))).
Proof.
  intros Ha Hb. unfold np_binop. rewrite Ha, Hb. cbn [bshape]. unfold bdim. rewrite !Nat.eqb_refl. unfold bget, dim0, dim1, dim2. rewrite Ha, Hb. cbn [nth]. unfold bidx. rewrite !Nat.eqb_refl. reflexivity.
Qed.
Lemma hbind_ok {A B} (m : hm A) (f : A -> hm B) h h1 a : m h = (h1, Ok a) -> hbind m f h = f a h1.
Proof. intros E. unfold hbind. rewrite E. reflexivity. Qed.
Lemma call_ok {A} r (f : laser -> laser * res A) h L L' a : nth_error h r = Some L -> f L = (L', Ok a) -> h_call r f h = (set_nth h r L', Ok a).
Proof. intros E1 E2. unfold h_call. rewrite E1, E2. reflexivity. Qed.
Lemma some_lt {A} (l : list A) i x : nth_error l i = Some x -> (i < length l)%nat.
Proof. intros H. apply nth_error_Some. congruence. Qed.
(** set, propagate, get on the object at r *)
Lemma leg S r d a h L n0 n1 nt : nth_error h r = Some L -> Inv L n0 n1 nt -> shp a = [n0;n1;nt] -> dty a = Complex128 ->
  exists h' L', (forall B (K : ndarray -> hm B), (dh u1 <- h_set_t r a; dh u2 <- h_propagate S r d; dh f <- h_get_t r; K f) h = K (TL S L d a) h') /\
    nth_error h' r = Some L' /\ (forall q, q <> r -> nth_error h' q = nth_error h q) /\ Inv L' n0 n1 nt /\ evolved L L'.
Proof.
  intros Hr HI Hs Hd. destruct (carry S L n0 n1 nt d a HI Hs Hd) as (g0 & L1 & E1 & E2 & E3 & HI1 & Ev).
  pose proof (some_lt _ _ _ Hr) as Lt.
  set (h1 := set_nth h r (set_grid L g0)). set (h2 := set_nth h1 r L1). set (L2 := set_grid L1 (fst (get_temporal_field (l_grid L1)))). set (h3 := set_nth h2 r L2).
  assert (N1 : nth_error h1 r = Some (set_grid L g0)) by (apply nth_error_set_nth_eq; exact Lt).
  assert (Lt1 : (r < length h1)%nat) by (unfold h1; rewrite set_nth_length; exact Lt).
  assert (N2 : nth_error h2 r = Some L1) by (apply nth_error_set_nth_eq; exact Lt1).
  assert (Lt2 : (r < length h2)%nat) by (unfold h2; rewrite set_nth_length; exact Lt1).
  exists h3, L2. split.
  { intros B K. rewrite (hbind_ok _ _ h h1 tt).
    2:{ apply (call_ok r _ h L (set_grid L g0) tt Hr). cbv beta. rewrite E1. reflexivity. }
    rewrite (hbind_ok _ _ h1 h2 tt).
    2:{ apply (call_ok r _ h1 (set_grid L g0) L1 tt N1). exact E2. }
    rewrite (hbind_ok _ _ h2 h3 (TL S L d a)); [reflexivity|].
    apply (call_ok r _ h2 L1 L2 _ N2). cbv beta zeta. rewrite get_t_eq, E3. reflexivity. }
  split; [apply nth_error_set_nth_eq; exact Lt2|]. split.
  { intros q Hq. unfold h3, h2, h1. rewrite !nth_error_set_nth_neq by congruence. reflexivity. }
  destruct (Inv_grid L1 n0 n1 nt (fst (get_temporal_field (l_grid L1))) HI1) as (HI2 & Ev2).
  - apply get_t_meta.
  - apply get_t_Coh, (i_coh _ _ _ _ HI1).
  - exists (TL S L d a). rewrite tread_get_t. exact E3.
  - split; [exact HI2|]. eapply evolved_trans; eassumption.
Qed.
Definition ampl (s : list nat) (A : nat -> nat -> nat -> R) : ndarray := mkArr s Float64 (fun i j k => RtoC (A i j k)).
Lemma holds_eq a s F : holds a s F -> a = ampl s F.
Proof.
  intros (H1 & H2 & H3). destruct a as [s' d f]. cbn in *. subst. unfold ampl. f_equal.
  apply FunctionalExtensionality.functional_extensionality; intros i. apply FunctionalExtensionality.functional_extensionality; intros j.
  apply FunctionalExtensionality.functional_extensionality; intros k. apply H3.
Qed.
Lemma phase_imposed n0 n1 nt A p : np_binop Cmult Complex128 (ampl [n0;n1;nt] A) (np_expi (ampl [n0;n1;nt] p)) = Ok (polar [n0;n1;nt] A p).
Proof. rewrite (binop_same _ _ _ _ n0 n1 nt) by reflexivity. reflexivity. Qed.
Definition round1 (S : solvers) (L1 : laser) (dz : R) (s : list nat) (A1 p1 : nat -> nat -> nat -> R) : ndarray := TL S L1 dz (polar s A1 p1).
Definition round2 (S : solvers) (L1 L2 : laser) (dz : R) (s : list nat) (A1 A2 p1 : nat -> nat -> nat -> R) : ndarray :=
  TL S L2 (- dz) (polar s A2 (argument (round1 S L1 dz s A1 p1))).
Lemma body_ok S r1 r2 dz h L1 L2 M1 M2 n0 n1 nt A1 A2 p1 : r1 <> r2 -> nth_error h r1 = Some M1 -> nth_error h r2 = Some M2 ->
  Inv M1 n0 n1 nt -> Inv M2 n0 n1 nt -> evolved L1 M1 -> evolved L2 M2 ->
  exists h' M1' M2',
    gs_body S r1 r2 dz (ampl [n0;n1;nt] A1) (ampl [n0;n1;nt] A2) (ampl [n0;n1;nt] p1) h =
      (h', Ok (ampl [n0;n1;nt] (argument (round2 S L1 L2 dz [n0;n1;nt] A1 A2 p1)), ampl [n0;n1;nt] (argument (round1 S L1 dz [n0;n1;nt] A1 p1)),
               total [n0;n1;nt] (fun i j k => modulus (round2 S L1 L2 dz [n0;n1;nt] A1 A2 p1) i j k - A1 i j k))) /\
    nth_error h' r1 = Some M1' /\ nth_error h' r2 = Some M2' /\ Inv M1' n0 n1 nt /\ Inv M2' n0 n1 nt /\ evolved L1 M1' /\ evolved L2 M2'.
Proof.
  intros Hne N1 N2 I1 I2 V1 V2. set (s := [n0;n1;nt]).
  destruct (leg S r1 dz (polar s A1 p1) h M1 n0 n1 nt N1 I1 eq_refl eq_refl) as (h1 & M1' & K1 & Q1 & O1 & I1' & V1').
  assert (N2' : nth_error h1 r2 = Some M2) by (rewrite O1 by congruence; exact N2).
  destruct (leg S r2 (- dz) (polar s A2 (argument (round1 S L1 dz s A1 p1))) h1 M2 n0 n1 nt N2' I2 eq_refl eq_refl) as (h2 & M2' & K2 & Q2 & O2 & I2' & V2').
  exists h2, M1', M2'. split.
  - unfold gs_body. rewrite (hbind_ok _ _ h h (polar s A1 p1)) by (unfold hlift, s; rewrite (phase_imposed n0 n1 nt A1 p1); reflexivity).
    rewrite K1. rewrite (TL_evolved S L1 M1 dz _ V1). fold (round1 S L1 dz s A1 p1).
    change (np_angle (round1 S L1 dz s A1 p1)) with (ampl s (argument (round1 S L1 dz s A1 p1))).
    rewrite (hbind_ok _ _ h1 h1 (polar s A2 (argument (round1 S L1 dz s A1 p1)))) by (unfold hlift, s; rewrite (phase_imposed n0 n1 nt A2); reflexivity).
    rewrite K2. rewrite (TL_evolved S L2 M2 (- dz) _ V2). fold (round2 S L1 L2 dz s A1 A2 p1). set (f2 := round2 S L1 L2 dz s A1 A2 p1).
    erewrite (hbind_ok (hlift _)) by (unfold hlift; rewrite (binop_same _ _ _ _ n0 n1 nt) by reflexivity; reflexivity).
    unfold hret. do 2 f_equal. f_equal. unfold np_sum, total, dim0, dim1, dim2. cbn [shp nth at3 np_abs ampl]. apply rsum3_ext. intros i j k _ _ _.
    unfold modulus. rewrite Cmod_R, Rabs_pos_eq by apply Cmod_ge_0. unfold Cminus, Cplus, Copp, RtoC, Re. cbn [fst snd]. ring.
  - split; [rewrite O2 by congruence; exact Q1|]. split; [exact Q2|]. split; [exact I1'|]. split; [exact I2'|]. split; eapply evolved_trans; eassumption.
Qed.

(** ** The loop *)
Lemma reachable_data S L a : reachable S L -> snd (get_temporal_field (l_grid L)) = Ok a -> exists n0 n1 nt, Inv L n0 n1 nt /\ shp a = [n0;n1;nt] /\ dty a = Complex128.
Proof.
  intros HR Ha. destruct (reachable_Inv S L HR) as (n0 & n1 & nt & HI). exists n0, n1, nt. split; [exact HI|].
  destruct (tread_shape _ _ (proj1 (i_coh _ _ _ _ HI)) Ha) as (E & D). rewrite (gs_shape _ _ _ _ _ (i_shape _ _ _ _ HI)) in E. auto.
Qed.
Section Loop.
Variables (S0 : solvers) (L1 L2 : laser) (dz : R) (n0 n1 nt : nat) (A1 A2 : nat -> nat -> nat -> R) (c : gs_condition) (br : R -> bool) (r1 r2 : nat).
Hypothesis Hne : r1 <> r2.
Let s := [n0;n1;nt].
Fixpoint ph (n : nat) : nat -> nat -> nat -> R := match n with O => fun _ _ _ => 0 | S n => argument (round2 S0 L1 L2 dz s A1 A2 (ph n)) end.
Definition back (n : nat) : ndarray := round2 S0 L1 L2 dz s A1 A2 (ph n).
Definition errn (n : nat) : R := total s (fun i j k => modulus (back n) i j k - A1 i j k).
Definition lastn (n : nat) : option (ndarray * R) := match n with O => None | S n => Some (ampl s (argument (round1 S0 L1 dz s A1 (ph n))), errn n) end.
Definition outn (n : nat) : res (ndarray * ndarray * R) := match lastn n with Some (p2, e) => Ok (ampl s (ph n), p2, e) | None => Err UnboundLocalError end.
Definition cv (n : nat) : R := match c with MaxIterations => INR n | _ => match n with O => gs_cond0 c | S m => errn m end end.
Lemma next_cv n : gs_next c (cv n) (errn n) = cv (S n).
Proof. unfold gs_next, cv. destruct c; try reflexivity. rewrite S_INR. reflexivity. Qed.
Definition Ready (h : heap) : Prop := exists M1 M2, nth_error h r1 = Some M1 /\ nth_error h r2 = Some M2 /\ Inv M1 n0 n1 nt /\ Inv M2 n0 n1 nt /\ evolved L1 M1 /\ evolved L2 M2.
Lemma body_n n h : Ready h -> exists h', gs_body S0 r1 r2 dz (ampl s A1) (ampl s A2) (ampl s (ph n)) h =
   (h', Ok (ampl s (ph (S n)), ampl s (argument (round1 S0 L1 dz s A1 (ph n))), errn n)) /\ Ready h'.
Proof.
  intros (M1 & M2 & N1 & N2 & I1 & I2 & V1 & V2).
  destruct (body_ok S0 r1 r2 dz h L1 L2 M1 M2 n0 n1 nt A1 A2 (ph n) Hne N1 N2 I1 I2 V1 V2) as (h' & M1' & M2' & E & Q).
  exists h'. split; [exact E|]. exists M1', M2'. tauto.
Qed.
Lemma loop_stop n : forall d k fuel h, n = (k + d)%nat -> (d < fuel)%nat -> Ready h ->
  (forall m, (k <= m < n)%nat -> br (cv m) = true) -> br (cv n) = false ->
  exists h', gs_loop fuel S0 r1 r2 dz (ampl s A1) (ampl s A2) c br (cv k) (ampl s (ph k)) (lastn k) h = Some (h', outn n).
Proof.
  induction d as [|d IH]; intros k fuel h En Hf HR Ht Hs; (destruct fuel as [|fuel]; [lia|]); cbn [gs_loop].
  - replace k with n by lia. rewrite Hs. exists h. reflexivity.
  - rewrite (Ht k) by lia. destruct (body_n k h HR) as (h' & E & HR'). rewrite E. cbn [fst snd]. rewrite next_cv.
    apply (IH (S k) fuel h'); try lia; try assumption. intros m Hm. apply Ht. lia.
Qed.
Lemma loop_none : forall fuel k h, Ready h -> (forall m, (k <= m)%nat -> br (cv m) = true) ->
  gs_loop fuel S0 r1 r2 dz (ampl s A1) (ampl s A2) c br (cv k) (ampl s (ph k)) (lastn k) h = None.
Proof.
  induction fuel as [|fuel IH]; intros k h HR Ht; cbn [gs_loop]; [reflexivity|].
  rewrite (Ht k) by lia. destruct (body_n k h HR) as (h' & E & HR'). rewrite E. cbn [fst snd]. rewrite next_cv. apply (IH (S k) h'); [exact HR'|]. intros m Hm. apply Ht. lia.
Qed.
Lemma loop_some : forall fuel k h h' q, Ready h -> gs_loop fuel S0 r1 r2 dz (ampl s A1) (ampl s A2) c br (cv k) (ampl s (ph k)) (lastn k) h = Some (h', q) ->
  exists n, (k <= n)%nat /\ q = outn n /\ br (cv n) = false /\ (forall m, (k <= m < n)%nat -> br (cv m) = true).
Proof.
  induction fuel as [|fuel IH]; intros k h h' q HR; cbn [gs_loop]; [discriminate|].
  destruct (br (cv k)) eqn:B.
  - destruct (body_n k h HR) as (h1 & E & HR'). rewrite E. cbn [fst snd]. rewrite next_cv. intros Q.
    destruct (IH (S k) h1 h' q HR' Q) as (n & G1 & G2 & G3 & G4). exists n. conj; try assumption; [lia|]. intros m Hm. destruct (Nat.eq_dec m k) as [->|]; [exact B|apply G4; lia].
  - intros Q. injection Q as <- <-. exists k. conj; [lia|reflexivity|exact B|]. intros m Hm. lia.
Qed.
Lemma rounds_ph (H1 : Inv L1 n0 n1 nt) (H2 : Inv L2 n0 n1 nt) n : rounds S0 L1 L2 dz s A1 A2 (S n) (ph (S n)) (argument (round1 S0 L1 dz s A1 (ph n))) (back n).
Proof.
  induction n as [|n IH].
  - apply (first_round S0 L1 L2 dz s A1 A2 (round1 S0 L1 dz s A1 (ph 0)) (back 0)).
    + apply (carried_iff S0 L1 n0 n1 nt); try reflexivity. exact H1.
    + apply (carried_iff S0 L2 n0 n1 nt); try reflexivity. exact H2.
  - apply (next_round S0 L1 L2 dz s A1 A2 (S n) (ph (S n)) (argument (round1 S0 L1 dz s A1 (ph n))) (back n) (round1 S0 L1 dz s A1 (ph (S n))) (back (S n)) IH).
    + apply (carried_iff S0 L1 n0 n1 nt); try reflexivity. exact H1.
    + apply (carried_iff S0 L2 n0 n1 nt); try reflexivity. exact H2.
Qed.
Lemma rounds_unique (H1 : Inv L1 n0 n1 nt) (H2 : Inv L2 n0 n1 nt) n p1 p2 f : rounds S0 L1 L2 dz s A1 A2 n p1 p2 f ->
  exists m, n = S m /\ p1 = ph (S m) /\ p2 = argument (round1 S0 L1 dz s A1 (ph m)) /\ f = back m.
Proof.
  induction 1 as [f1 f2 C1 C2|n p1 p2 f f1 f2 _ (m & -> & -> & _ & _) C1 C2].
  - apply (carried_iff S0 L1 n0 n1 nt) in C1; try reflexivity; [|exact H1]. apply (carried_iff S0 L2 n0 n1 nt) in C2; try reflexivity; [|exact H2].
    subst. exists 0%nat. conj; reflexivity.
  - apply (carried_iff S0 L1 n0 n1 nt) in C1; try reflexivity; [|exact H1]. apply (carried_iff S0 L2 n0 n1 nt) in C2; try reflexivity; [|exact H2].
    subst. exists (S m). conj; reflexivity.
Qed.
End Loop.
Lemma prepare_ok h p1 p2 L1 L2 a1 a2 n0 n1 nt : nth_error h p1 = Some L1 -> nth_error h p2 = Some L2 -> Inv L1 n0 n1 nt -> Inv L2 n0 n1 nt ->
  snd (get_temporal_field (l_grid L1)) = Ok a1 -> snd (get_temporal_field (l_grid L2)) = Ok a2 ->
  exists h' r1 r2, gs_prepare p1 p2 h = (h', Ok (r1, r2, ampl [n0;n1;nt] (modulus a1), ampl [n0;n1;nt] (modulus a2))) /\ r1 <> r2 /\ Ready L1 L2 n0 n1 nt r1 r2 h'.
Proof.
  intros E1 E2 I1 I2 T1 T2.
  assert (Sh : forall L a, Inv L n0 n1 nt -> snd (get_temporal_field (l_grid L)) = Ok a -> np_abs a = ampl [n0;n1;nt] (modulus a)).
  { intros L a HI Ha. destruct (tread_shape _ _ (proj1 (i_coh _ _ _ _ HI)) Ha) as (E & D). rewrite (gs_shape _ _ _ _ _ (i_shape _ _ _ _ HI)) in E. unfold np_abs. rewrite E. reflexivity. }
  pose proof (some_lt _ _ _ E1) as Lt1. pose proof (some_lt _ _ _ E2) as Lt2.
  set (N1 := set_grid L1 (fst (get_temporal_field (l_grid L1)))). set (N2 := set_grid L2 (fst (get_temporal_field (l_grid L2)))).
  set (h2 := (h ++ [L1]) ++ [L2]). set (r1 := length h). set (r2 := length (h ++ [L1])).
  assert (Q1 : nth_error h2 r1 = Some L1). { unfold h2, r1. rewrite nth_error_app1 by (rewrite app_length; cbn; lia). rewrite nth_error_app2 by lia. rewrite Nat.sub_diag. reflexivity. }
  assert (Q2 : nth_error h2 r2 = Some L2). { unfold h2, r2. rewrite nth_error_app2 by lia. rewrite Nat.sub_diag. reflexivity. }
  assert (Hne : r1 <> r2) by (unfold r1, r2; rewrite app_length; cbn; lia).
  set (h3 := set_nth h2 r1 N1). set (h4 := set_nth h3 r2 N2).
  assert (Q3 : nth_error h3 r2 = Some L2) by (unfold h3; rewrite nth_error_set_nth_neq by exact Hne; exact Q2).
  exists h4, r1, r2. split; [|split; [exact Hne|]].
  - unfold gs_prepare. rewrite (hbind_ok _ _ h (h ++ [L1]) r1) by (unfold h_deepcopy; rewrite E1; reflexivity).
    rewrite (hbind_ok _ _ (h ++ [L1]) h2 r2) by (unfold h_deepcopy; rewrite nth_error_app1 by exact Lt2; rewrite E2; reflexivity).
    rewrite (hbind_ok _ _ h2 h3 a1). 2:{ apply (call_ok r1 _ h2 L1 N1 _ Q1). cbv beta zeta. rewrite T1. reflexivity. }
    rewrite (hbind_ok _ _ h3 h4 a2). 2:{ apply (call_ok r2 _ h3 L2 N2 _ Q3). cbv beta zeta. rewrite T2. reflexivity. }
    unfold hret. rewrite (Sh L1 a1 I1 T1), (Sh L2 a2 I2 T2). reflexivity.
  - assert (K : forall L, Inv L n0 n1 nt -> Inv (set_grid L (fst (get_temporal_field (l_grid L)))) n0 n1 nt /\ evolved L (set_grid L (fst (get_temporal_field (l_grid L))))).
    { intros L HI. apply Inv_grid; [exact HI|apply get_t_meta|apply get_t_Coh, (i_coh _ _ _ _ HI)|]. destruct (i_read _ _ _ _ HI) as (a & Ha). exists a. rewrite tread_get_t. exact Ha. }
    destruct (K L1 I1) as (K1 & K1'). destruct (K L2 I2) as (K2 & K2'). exists N1, N2. conj; try assumption.
    + unfold h4. rewrite nth_error_set_nth_neq by congruence. apply nth_error_set_nth_eq. eapply some_lt, Q1.
    + apply nth_error_set_nth_eq. eapply some_lt, Q3.
Qed.
Lemma gs_start fuel S h p1 p2 L1 L2 a1 a2 n0 n1 nt dz c mi ae br : nth_error h p1 = Some L1 -> nth_error h p2 = Some L2 -> Inv L1 n0 n1 nt -> Inv L2 n0 n1 nt ->
  snd (get_temporal_field (l_grid L1)) = Ok a1 -> snd (get_temporal_field (l_grid L2)) = Ok a2 ->
  gs_breakout c mi ae (total [n0;n1;nt] (modulus a1)) = Some br ->
  exists h' r1 r2, r1 <> r2 /\ Ready L1 L2 n0 n1 nt r1 r2 h' /\
   gerchberg_saxton fuel S h p1 p2 dz c mi ae = gs_loop fuel S r1 r2 dz (ampl [n0;n1;nt] (modulus a1)) (ampl [n0;n1;nt] (modulus a2)) c br
     (cv S L1 L2 dz n0 n1 nt (modulus a1) (modulus a2) c 0) (ampl [n0;n1;nt] (ph S L1 L2 dz n0 n1 nt (modulus a1) (modulus a2) 0))
     (lastn S L1 L2 dz n0 n1 nt (modulus a1) (modulus a2) 0) h'.
Proof.
  intros E1 E2 I1 I2 T1 T2 Hb. destruct (prepare_ok h p1 p2 L1 L2 a1 a2 n0 n1 nt E1 E2 I1 I2 T1 T2) as (h' & r1 & r2 & E & Hne & HR).
  exists h', r1, r2. split; [exact Hne|]. split; [exact HR|]. unfold gerchberg_saxton. rewrite E. cbn [fst snd].
  change (np_sum (ampl [n0;n1;nt] (modulus a1))) with (total [n0;n1;nt] (modulus a1)). rewrite Hb. unfold cv. destruct c; reflexivity.
Qed.
(** ** C52 *)
Lemma same_Inv S L1 L2 a1 a2 : reachable S L1 -> reachable S L2 -> snd (get_temporal_field (l_grid L1)) = Ok a1 -> snd (get_temporal_field (l_grid L2)) = Ok a2 -> shp a1 = shp a2 ->
  exists n0 n1 nt, shp a1 = [n0;n1;nt] /\ Inv L1 n0 n1 nt /\ Inv L2 n0 n1 nt.
Proof.
  intros R1 R2 T1 T2 E. destruct (reachable_data S L1 a1 R1 T1) as (n0 & n1 & nt & I1 & S1 & _). destruct (reachable_data S L2 a2 R2 T2) as (m0 & m1 & mt & I2 & S2 & _).
  assert (EE : [m0;m1;mt] = [n0;n1;nt]) by congruence. injection EE as -> -> ->. exists n0, n1, nt. auto.
Qed.
Lemma c52_iterations S h p1 p2 L1 L2 a1 a2 dz n ae fuel : nth_error h p1 = Some L1 -> nth_error h p2 = Some L2 -> reachable S L1 -> reachable S L2 ->
  snd (get_temporal_field (l_grid L1)) = Ok a1 -> snd (get_temporal_field (l_grid L2)) = Ok a2 -> shp a1 = shp a2 ->
  (1 <= n)%nat -> (n < fuel)%nat ->
  exists h' phi1 phi2 q1 q2 f,
    gerchberg_saxton fuel S h p1 p2 dz MaxIterations (Z.of_nat n) ae =
      Some (h', Ok (phi1, phi2, total (shp a1) (fun i j k => modulus f i j k - modulus a1 i j k))) /\
    rounds S L1 L2 dz (shp a1) (modulus a1) (modulus a2) n q1 q2 f /\ holds phi1 (shp a1) q1 /\ holds phi2 (shp a1) q2.
Proof.
  intros E1 E2 R1 R2 T1 T2 Es Hn Hf. destruct (same_Inv S L1 L2 a1 a2 R1 R2 T1 T2 Es) as (n0 & n1 & nt & Sh & I1 & I2).
  destruct (gs_start fuel S h p1 p2 L1 L2 a1 a2 n0 n1 nt dz MaxIterations (Z.of_nat n) ae _ E1 E2 I1 I2 T1 T2 eq_refl) as (h1 & r1 & r2 & Hne & HR & E).
  destruct (loop_stop S L1 L2 dz n0 n1 nt (modulus a1) (modulus a2) MaxIterations (fun cond => Rltb cond (IZR (Z.of_nat n))) r1 r2 Hne n n 0 fuel h1 eq_refl Hf HR) as (h' & E').
  - intros m Hm. cbn [cv]. apply Rltb_true. rewrite <- INR_IZR_INZ. apply lt_INR. lia.
  - cbn [cv]. apply Rltb_false. rewrite <- INR_IZR_INZ. lra.
  - destruct n as [|n]; [lia|]. exists h'. eexists. eexists. exists (ph S L1 L2 dz n0 n1 nt (modulus a1) (modulus a2) (Datatypes.S n)). eexists. exists (back S L1 L2 dz n0 n1 nt (modulus a1) (modulus a2) n).
    rewrite E, E', Sh. split; [reflexivity|]. split; [apply rounds_ph; assumption|]. split; (split; [reflexivity|split; [reflexivity|intros; reflexivity]]).
Qed.
Lemma c52_no_pass S h p1 p2 L1 L2 a1 a2 dz mi ae fuel : nth_error h p1 = Some L1 -> nth_error h p2 = Some L2 -> reachable S L1 -> reachable S L2 ->
  snd (get_temporal_field (l_grid L1)) = Ok a1 -> snd (get_temporal_field (l_grid L2)) = Ok a2 -> shp a1 = shp a2 ->
  (mi <= 0)%Z -> (0 < fuel)%nat -> exists h', gerchberg_saxton fuel S h p1 p2 dz MaxIterations mi ae = Some (h', Err UnboundLocalError).
Proof.
  intros E1 E2 R1 R2 T1 T2 Es Hn Hf. destruct (same_Inv S L1 L2 a1 a2 R1 R2 T1 T2 Es) as (n0 & n1 & nt & Sh & I1 & I2).
  destruct (gs_start fuel S h p1 p2 L1 L2 a1 a2 n0 n1 nt dz MaxIterations mi ae _ E1 E2 I1 I2 T1 T2 eq_refl) as (h1 & r1 & r2 & Hne & HR & E).
  destruct (loop_stop S L1 L2 dz n0 n1 nt (modulus a1) (modulus a2) MaxIterations (fun cond => Rltb cond (IZR mi)) r1 r2 Hne 0 0 0 fuel h1 eq_refl Hf HR) as (h' & E').
  - intros m Hm. lia.
  - cbn [cv]. apply Rltb_false. apply IZR_le in Hn. simpl INR. lra.
  - exists h'. rewrite E, E'. reflexivity.
Qed.
Lemma c52_unknown S h p1 p2 L1 L2 a1 a2 dz mi ae fuel : nth_error h p1 = Some L1 -> nth_error h p2 = Some L2 -> reachable S L1 -> reachable S L2 ->
  snd (get_temporal_field (l_grid L1)) = Ok a1 -> snd (get_temporal_field (l_grid L2)) = Ok a2 -> shp a1 = shp a2 ->
  exists h', gerchberg_saxton fuel S h p1 p2 dz OtherCondition mi ae = Some (h', Err UnboundLocalError).
Proof.
  intros E1 E2 R1 R2 T1 T2 Es. destruct (same_Inv S L1 L2 a1 a2 R1 R2 T1 T2 Es) as (n0 & n1 & nt & Sh & I1 & I2).
  destruct (prepare_ok h p1 p2 L1 L2 a1 a2 n0 n1 nt E1 E2 I1 I2 T1 T2) as (h' & r1 & r2 & E & _). unfold gerchberg_saxton. rewrite E. exists h'. reflexivity.
Qed.
