(** Error reduction (C62), consistency (C52) and the stopping rule (C53) of gerchberg_saxton_algo. *)
From Verif Require Import PyBase CSum NpFFT FFTProofs NumPy NpMath NpMathProofs GridModel GridSpec GridProofs LaserSpec GridObs
  EnergyModel EnergyProofs AngularProofs LaserModel OpticsModel LaserOps LaserInv LaserInitProofs LaserStepProofs
  PropagateProofs HistoryProofs OpticsProofs OpticsProofs2 SolverSpec SolverProofs PropLaws GSModel GSSpec GSProofs.
Open Scope R_scope.

Definition asub (a b : ndarray) : ndarray := mkArr (shp a) Complex128 (fun i j k => Cminus (at3 a i j k) (at3 b i j k)).
Lemma fft1_minus N x y k : fft1 N (fun n => Cminus (x n) (y n)) k = Cminus (fft1 N x k) (fft1 N y k).
Proof.
  transitivity (fft1 N (fun n => Cplus (x n) (Cmult (Copp (RtoC 1)) (y n))) k); [apply fft1_ext; intros; ring|]. rewrite fft1_plus, fft1_scal. ring.
Qed.
Lemma ifft1_minus N x y k : ifft1 N (fun n => Cminus (x n) (y n)) k = Cminus (ifft1 N x k) (ifft1 N y k).
Proof.
  transitivity (ifft1 N (fun n => Cplus (x n) (Cmult (Copp (RtoC 1)) (y n))) k); [apply ifft1_ext; intros; ring|]. rewrite ifft1_plus, ifft1_scal. ring.
Qed.
Section Field.
Variables (S0 : solvers) (L : laser) (n0 n1 nt : nat).
Hypothesis HI : Inv L n0 n1 nt.
Hypothesis PF : per_frequency S0.
Let s := [n0;n1;nt].
Let om := l_omega L.
Let w0 := p_omega0 (l_prof L).
Definition inrange (i j k : nat) : Prop := (i < n0 /\ j < n1 /\ k < nt)%nat.
Lemma sizes : (0 < n0 /\ 0 < n1 /\ 0 < nt)%nat.
Proof. pose proof (gs_pos _ _ _ _ _ (i_shape _ _ _ _ HI)). lia. Qed.
Lemma stepped_ext b x y d : (forall i j k, inrange i j k -> at3 x i j k = at3 y i j k) ->
  forall i j k, inrange i j k -> at3 (stepped S0 (fresh_prop L b) x d) i j k = at3 (stepped S0 (fresh_prop L b) y d) i j k.
Proof.
  intros E i j k (Hi & Hj & Hk). destruct (i_dim _ _ _ _ HI) as [Hd|Hd].
  - destruct (fresh_rt L n0 n1 nt b HI Hd) as (ps & -> & Hps). destruct (Hps i Hi) as (p & Ep & Hn & Lk & Lr & _).
    unfold stepped, step_mode; cbn [at3]. rewrite Ep. apply (pf_rt_ext S0 PF); try lia. intros. apply E. unfold inrange; lia.
  - destruct (fresh_xyt L n0 n1 nt b HI Hd) as (p & -> & Lk & Lx & Ly). unfold stepped; cbn [at3]. apply (pf_xy_ext S0 PF); try lia. intros. apply E. unfold inrange; lia.
Qed.
Lemma stepped_sub b x y z d : superposes S0 -> (forall i j k, inrange i j k -> at3 z i j k = Cminus (at3 x i j k) (at3 y i j k)) ->
  forall i j k, inrange i j k -> at3 (stepped S0 (fresh_prop L b) z d) i j k = Cminus (at3 (stepped S0 (fresh_prop L b) x d) i j k) (at3 (stepped S0 (fresh_prop L b) y d) i j k).
Proof.
  intros (Q1 & Q2) E i j k (Hi & Hj & Hk). destruct (i_dim _ _ _ _ HI) as [Hd|Hd].
  - destruct (fresh_rt L n0 n1 nt b HI Hd) as (ps & -> & Hps). destruct (Hps i Hi) as (p & Ep & Hn & Lk & Lr & _).
    unfold stepped, step_mode; cbn [at3]. rewrite Ep. rewrite <- Q1 by lia. apply (pf_rt_ext S0 PF); try lia. intros. apply E. unfold inrange; lia.
  - destruct (fresh_xyt L n0 n1 nt b HI Hd) as (p & -> & Lk & Lx & Ly). unfold stepped; cbn [at3]. rewrite <- Q2 by lia. apply (pf_xy_ext S0 PF); try lia. intros. apply E. unfold inrange; lia.
Qed.
Lemma stepped_norm b x d : unitary S0 -> 
  rsum3 n0 n1 nt (fun i j k => area L j * Cnorm2 (at3 (stepped S0 (fresh_prop L b) x d) i j k)) = rsum3 n0 n1 nt (fun i j k => area L j * Cnorm2 (at3 x i j k)).
Proof.
  intros (Q1 & Q2). unfold rsum3, area. destruct (i_dim _ _ _ _ HI) as [Hd|Hd]; rewrite Hd.
  - destruct (fresh_rt L n0 n1 nt b HI Hd) as (ps & -> & Hps). apply rsum_ext; intros i Hi. destruct (Hps i Hi) as (p & Ep & Hn & Lk & Lr & Hax).
    rewrite rsum_swap, (rsum_swap n1 nt). apply rsum_ext; intros k Hk. unfold stepped, step_mode; cbn [at3]. rewrite Ep.
    pose proof (Q1 p (fun kk jj => at3 x i jj kk) d k Hn ltac:(lia)) as Q. rewrite Lr, Hax in Q. exact Q.
  - destruct (fresh_xyt L n0 n1 nt b HI Hd) as (p & -> & Lk & Lx & Ly). unfold stepped; cbn [at3].
    assert (Hsw : forall f : nat -> nat -> nat -> R, rsum n0 (fun i => rsum n1 (fun j => rsum nt (fun k => 1 * f i j k))) = rsum nt (fun k => rsum n0 (fun i => rsum n1 (fun j => f i j k)))).
    { intros f. rewrite (rsum_swap nt n0). apply rsum_ext; intros i _. rewrite (rsum_swap nt n1). apply rsum_ext; intros j _. apply rsum_ext; intros k _. ring. }
    rewrite !Hsw. apply rsum_ext; intros k Hk. pose proof (Q2 p (fun kk ii jj => at3 x ii jj kk) d k ltac:(lia)) as Q. rewrite Lx, Ly in Q. exact Q.
Qed.
Lemma TL_fresh d a : exists b, TL S0 L d a = Tr S0 (fresh_prop L b) om w0 d a.
Proof. destruct (used_fresh L n0 n1 nt backend_NP HI) as (b & E). exists b. unfold TL. rewrite E. reflexivity. Qed.
Lemma TL_fresh2 : exists b, forall d a, TL S0 L d a = Tr S0 (fresh_prop L b) om w0 d a.
Proof. destruct (used_fresh L n0 n1 nt backend_NP HI) as (b & E). exists b. intros. unfold TL. rewrite E. reflexivity. Qed.
Lemma Tr_at P d a i j k : shp a = s -> at3 (Tr S0 P om w0 d a) i j k =
  fft1 nt (fun q => Cmult (at3 (stepped S0 P (np_ifft_last a) d) i j q) (time_phase om w0 d q)) k.
Proof. intros E. unfold Tr, np_fft_last. cbn [at3 apply_phase]. unfold dim2. cbn [shp apply_phase stepped np_ifft_last]. rewrite E. reflexivity. Qed.
Lemma Tr_sub b d x y z : superposes S0 -> shp x = s -> shp y = s -> shp z = s -> (forall i j k, inrange i j k -> at3 z i j k = Cminus (at3 x i j k) (at3 y i j k)) ->
  forall i j k, inrange i j k -> at3 (Tr S0 (fresh_prop L b) om w0 d z) i j k = Cminus (at3 (Tr S0 (fresh_prop L b) om w0 d x) i j k) (at3 (Tr S0 (fresh_prop L b) om w0 d y) i j k).
Proof.
  intros HS Sx Sy Sz E i j k (Hi & Hj & Hk). rewrite !Tr_at by assumption. rewrite <- fft1_minus. apply fft1_ext. intros q Hq.
  rewrite (stepped_sub b (np_ifft_last x) (np_ifft_last y) (np_ifft_last z) d HS); [ring| |unfold inrange; lia].
  intros i' j' k' (Hi' & Hj' & Hk'). cbn [at3 np_ifft_last]. unfold dim2. rewrite Sx, Sy, Sz. cbn [nth s]. rewrite <- ifft1_minus. apply ifft1_ext. intros q' Hq'. apply E. unfold inrange; lia.
Qed.
Lemma Tr_norm b d x : unitary S0 -> shp x = s ->
  rsum3 n0 n1 nt (fun i j k => area L j * Cnorm2 (at3 (Tr S0 (fresh_prop L b) om w0 d x) i j k)) = rsum3 n0 n1 nt (fun i j k => area L j * Cnorm2 (at3 x i j k)).
Proof.
  intros HU Sx. pose proof sizes as (P0 & P1 & P2). pose proof (INR_pos nt P2) as Pn.
  assert (A : rsum3 n0 n1 nt (fun i j k => area L j * Cnorm2 (at3 (Tr S0 (fresh_prop L b) om w0 d x) i j k)) =
              INR nt * rsum3 n0 n1 nt (fun i j k => area L j * Cnorm2 (at3 (stepped S0 (fresh_prop L b) (np_ifft_last x) d) i j k))).
  { rewrite <- rsum3_scal. unfold rsum3. apply rsum_ext; intros i Hi. apply rsum_ext; intros j Hj.
    rewrite (rsum_ext nt (fun k => INR nt * _) (fun k => (INR nt * area L j) * Cnorm2 (at3 (stepped S0 (fresh_prop L b) (np_ifft_last x) d) i j k))) by (intros; ring).
    rewrite !rsum_scal_l. rewrite (rsum_ext nt _ (fun k => Cnorm2 (fft1 nt (fun q => Cmult (at3 (stepped S0 (fresh_prop L b) (np_ifft_last x) d) i j q) (time_phase om w0 d q)) k))) by (intros; rewrite Tr_at by assumption; reflexivity).
    rewrite parseval_fft by exact P2. rewrite (rsum_ext nt _ (fun k => Cnorm2 (at3 (stepped S0 (fresh_prop L b) (np_ifft_last x) d) i j k))).
    - ring.
    - intros k _. rewrite Cnorm2_mult. unfold time_phase. rewrite Cnorm2_cis. ring. }
  rewrite A, stepped_norm by exact HU. rewrite <- rsum3_scal. unfold rsum3. apply rsum_ext; intros i Hi. apply rsum_ext; intros j Hj.
  rewrite (rsum_ext nt (fun k => INR nt * _) (fun k => (INR nt * area L j) * Cnorm2 (ifft1 nt (fun q => at3 x i j q) k))).
  2:{ intros k _. cbn [at3 np_ifft_last]. unfold dim2. rewrite Sx. cbn [nth s]. ring. }
  rewrite !rsum_scal_l. rewrite (parseval_ifft nt (fun q => at3 x i j q)) by exact P2. ring.
Qed.
Lemma Tr_back b d x : additive S0 -> zero_step S0 -> shp x = s -> forall i j k, inrange i j k ->
  at3 (Tr S0 (fresh_prop L b) om w0 (- d) (Tr S0 (fresh_prop L b) om w0 d x)) i j k = at3 x i j k.
Proof.
  intros HA HZ Sx i j k (Hi & Hj & Hk). rewrite Tr_at by exact Sx.
  transitivity (fft1 nt (ifft1 nt (fun q => at3 x i j q)) k); [|apply fft_ifft1; exact Hk].
  apply fft1_ext. intros q Hq.
  rewrite (stepped_ext b (np_ifft_last (Tr S0 (fresh_prop L b) om w0 d x)) (apply_phase om w0 d (stepped S0 (fresh_prop L b) (np_ifft_last x) d)) (- d)); [| |unfold inrange; lia].
  - subst om w0. rewrite (stepped_compose S0 L n0 n1 nt b (np_ifft_last x) d (- d) i j q HI PF HA) by (unfold inr; lia).
    rewrite Rplus_opp_r. rewrite (stepped_zero S0 L n0 n1 nt b (np_ifft_last x) i j q HI HZ) by (unfold inr; lia).
    transitivity (Cmult (Cmult (time_phase (l_omega L) (p_omega0 (l_prof L)) d q) (time_phase (l_omega L) (p_omega0 (l_prof L)) (- d) q)) (at3 (np_ifft_last x) i j q)); [ring|].
    rewrite time_phase_add, Rplus_opp_r, time_phase_0. cbn [at3 np_ifft_last]. unfold dim2. rewrite Sx. cbn [nth s]. ring.
  - intros i' j' k' (Hi' & Hj' & Hk'). cbn [at3 np_ifft_last]. unfold dim2. cbn [shp Tr np_fft_last apply_phase stepped np_ifft_last]. rewrite Sx. cbn [nth s].
    rewrite (ifft1_ext nt _ (fft1 nt (fun q => at3 (apply_phase om w0 d (stepped S0 (fresh_prop L b) (np_ifft_last x) d)) i' j' q))).
    + rewrite ifft_fft1 by exact Hk'. reflexivity.
    + intros n Hn. rewrite Tr_at by exact Sx. reflexivity.
Qed.
(** the same for TL *)
Lemma TL_diff_norm d x y : superposes S0 -> unitary S0 -> shp x = s -> shp y = s ->
  total s (fun i j k => area L j * Cnorm2 (Cminus (at3 (TL S0 L d x) i j k) (at3 (TL S0 L d y) i j k))) = total s (fun i j k => area L j * Cnorm2 (Cminus (at3 x i j k) (at3 y i j k))).
Proof.
  intros HS HU Sx Sy. destruct TL_fresh2 as (b & E). rewrite !E. unfold total. cbn [nth s].
  rewrite <- (rsum3_ext n0 n1 nt (fun i j k => area L j * Cnorm2 (at3 (Tr S0 (fresh_prop L b) om w0 d (asub x y)) i j k))).
  - rewrite Tr_norm by (assumption || exact Sx). reflexivity.
  - intros i j k Hi Hj Hk. rewrite (Tr_sub b d x y (asub x y)) by (assumption || exact Sx || (intros; reflexivity) || (unfold inrange; lia)). reflexivity.
Qed.
Lemma TL_back d x : additive S0 -> zero_step S0 -> shp x = s -> forall i j k, inrange i j k -> at3 (TL S0 L (- d) (TL S0 L d x)) i j k = at3 x i j k.
Proof. intros HA HZ Sx i j k H. destruct TL_fresh2 as (b & E). rewrite !E. apply Tr_back; assumption. Qed.
Lemma TL_ext d x y : shp x = s -> shp y = s -> (forall i j k, inrange i j k -> at3 x i j k = at3 y i j k) -> forall i j k, inrange i j k -> at3 (TL S0 L d x) i j k = at3 (TL S0 L d y) i j k.
Proof.
  intros Sx Sy E i j k (Hi & Hj & Hk). destruct TL_fresh2 as (b & Eb). rewrite !Eb, !Tr_at by assumption. apply fft1_ext. intros q Hq. f_equal.
  apply stepped_ext; [|unfold inrange; lia]. intros i' j' k' (Hi' & Hj' & Hk'). cbn [at3 np_ifft_last]. unfold dim2. rewrite Sx, Sy. cbn [nth s]. apply ifft1_ext. intros n Hn. apply E. unfold inrange; lia.
Qed.
Lemma TL_zero x : zero_step S0 -> shp x = s -> forall i j k, inrange i j k -> at3 (TL S0 L 0 x) i j k = at3 x i j k.
Proof.
  intros HZ Sx i j k (Hi & Hj & Hk). destruct TL_fresh2 as (b & E). rewrite E, Tr_at by exact Sx.
  transitivity (fft1 nt (ifft1 nt (fun q => at3 x i j q)) k); [|apply fft_ifft1; exact Hk].
  apply fft1_ext. intros q Hq. rewrite (stepped_zero S0 L n0 n1 nt b (np_ifft_last x) i j q HI HZ) by (unfold inr; lia). rewrite time_phase_0. cbn [at3 np_ifft_last]. unfold dim2. rewrite Sx. cbn [nth s]. ring.
Qed.
End Field.
(** ** Amplitude constraints *)
Lemma Cmod_diff_sq z w : (Cmod z - Cmod w) ^ 2 <= Cnorm2 (Cminus z w).
Proof.
  rewrite Cnorm2_Cmod. pose proof (Cmod_triangle (Cminus z w) w) as T1. pose proof (Cmod_triangle (Cminus w z) z) as T2.
  replace (Cplus (Cminus z w) w) with z in T1 by ring. replace (Cplus (Cminus w z) z) with w in T2 by ring.
  replace (Cmod (Cminus w z)) with (Cmod (Cminus z w)) in T2 by (rewrite <- Cmod_opp; f_equal; ring).
  pose proof (Cmod_ge_0 (Cminus z w)). nra.
Qed.
Lemma Cmod_polar A p : 0 <= A -> Cmod (Cmult (RtoC A) (cis p)) = A.
Proof. intros H. rewrite Cmod_mult, Cmod_R, Cmod_cis, Rabs_pos_eq by exact H. ring. Qed.
Lemma polar_dist A z : Cnorm2 (Cminus z (Cmult (RtoC A) (cis (angle z)))) = (Cmod z - A) ^ 2.
Proof.
  rewrite <- (angle_polar z) at 1. replace (Cminus (Cmult (RtoC (Cmod z)) (cis (angle z))) (Cmult (RtoC A) (cis (angle z)))) with (Cmult (RtoC (Cmod z - A)) (cis (angle z))).
  - rewrite Cnorm2_mult, Cnorm2_R, Cnorm2_cis. ring.
  - rewrite RtoC_minus. ring.
Qed.

(** ** Results as iterates *)
Lemma gs_max_result fuel S h p1 p2 L1 L2 a1 a2 n0 n1 nt dz n ae h' q : nth_error h p1 = Some L1 -> nth_error h p2 = Some L2 -> Inv L1 n0 n1 nt -> Inv L2 n0 n1 nt ->
  snd (get_temporal_field (l_grid L1)) = Ok a1 -> snd (get_temporal_field (l_grid L2)) = Ok a2 ->
  gerchberg_saxton fuel S h p1 p2 dz MaxIterations (Z.of_nat n) ae = Some (h', q) -> q = outn S L1 L2 dz n0 n1 nt (modulus a1) (modulus a2) n.
Proof.
  intros E1 E2 I1 I2 T1 T2 E.
  destruct (gs_start fuel S h p1 p2 L1 L2 a1 a2 n0 n1 nt dz MaxIterations (Z.of_nat n) ae _ E1 E2 I1 I2 T1 T2 eq_refl) as (h1 & r1 & r2 & Hne & HR & E').
  rewrite E' in E. destruct (loop_some _ _ _ _ _ _ _ _ _ _ _ _ _ Hne fuel 0%nat h1 h' q HR E) as (k & _ & -> & B & C).
  f_equal. cbn [cv] in B, C. rewrite <- INR_IZR_INZ in B, C. apply Rltb_false in B.
  assert (n <= k)%nat by (apply INR_le; lra). destruct (Nat.eq_dec n k) as [->|N]; [reflexivity|]. specialize (C n ltac:(lia)). apply Rltb_true in C. lra.
Qed.

(** ** Same kind *)
Lemma same_kind_prop L1 L2 b : same_kind L1 L2 -> (l_dim L1 = Rt \/ l_dim L1 = Xyt) -> used_prop L1 b = used_prop L2 b.
Proof.
  intros (K1 & K2 & K3 & K4 & K5 & K6 & K7 & K8 & K9 & K10 & K11) D. unfold used_prop. rewrite <- K11. destruct (l_prop L1); [reflexivity|].
  unfold fresh_prop. rewrite <- K1, <- K2, <- K5, <- K6. destruct D as [D | D]; rewrite D in *; [reflexivity|].
  destruct (K10 ltac:(discriminate)) as (K12 & K13). unfold build_xyt, vget. rewrite K4, K8, K9, K12, K13. reflexivity.
Qed.
Lemma same_kind_TL S L1 L2 n0 n1 nt d a : Inv L1 n0 n1 nt -> same_kind L1 L2 -> TL S L2 d a = TL S L1 d a.
Proof.
  intros HI K. unfold TL. rewrite <- (same_kind_prop L1 L2 backend_NP K (i_dim _ _ _ _ HI)).
  destruct K as (K1 & K2 & K3 & _). rewrite K2, K3. reflexivity.
Qed.
(** ** C62 *)
Section Reduce.
Variables (S0 : solvers) (L1 L2 : laser) (dz : R) (n0 n1 nt : nat) (A1 A2 : nat -> nat -> nat -> R).
Hypothesis I1 : Inv L1 n0 n1 nt.
Hypothesis K : same_kind L1 L2.
Hypothesis PF : per_frequency S0.
Hypothesis SU : superposes S0.
Hypothesis UN : unitary S0.
Hypothesis AD : additive S0.
Hypothesis ZE : zero_step S0.
Hypothesis P1 : forall i j k, 0 <= A1 i j k.
Hypothesis P2 : forall i j k, 0 <= A2 i j k.
Hypothesis PA : forall j, (j < n1)%nat -> 0 <= area L1 j.
Local Notation s := [n0;n1;nt].
Notation ph := (ph S0 L1 L2 dz n0 n1 nt A1 A2).
Notation back := (back S0 L1 L2 dz n0 n1 nt A1 A2).
Definition forth (n : nat) : ndarray := round1 S0 L1 dz [n0;n1;nt] A1 (ph n).
Lemma total_le F G : (forall i j k, (i < n0)%nat -> (j < n1)%nat -> (k < nt)%nat -> F i j k <= G i j k) -> total s F <= total s G.
Proof. intros H. unfold total. cbn [nth]. apply rsum3_le. intros; apply H; assumption. Qed.
Lemma total_ext F G : (forall i j k, (i < n0)%nat -> (j < n1)%nat -> (k < nt)%nat -> F i j k = G i j k) -> total s F = total s G.
Proof. intros H. unfold total. cbn [nth]. apply rsum3_ext. intros; apply H; assumption. Qed.
Lemma Cnorm2_sym z w : Cnorm2 (Cminus z w) = Cnorm2 (Cminus w z).
Proof. unfold Cnorm2, Cminus, Cplus, Copp. cbn [fst snd]. ring. Qed.
Lemma m1_le_m2 n : mismatch L1 s (back n) A1 <= mismatch L1 s (forth n) A2.
Proof.
  unfold mismatch.
  apply Rle_trans with (total s (fun i j k => area L1 j * Cnorm2 (Cminus (at3 (TL S0 L1 (- dz) (forth n)) i j k) (at3 (TL S0 L1 (- dz) (polar s A2 (argument (forth n)))) i j k)))).
  - apply total_le. intros i j k Hi Hj Hk. apply Rmult_le_compat_l; [apply PA, Hj|].
    unfold forth at 1, round1. rewrite (TL_back S0 L1 n0 n1 nt I1 PF dz (polar s A1 (ph n)) AD ZE eq_refl i j k) by (unfold inrange; lia).
    unfold GSProofs.back, round2. rewrite (same_kind_TL S0 L1 L2 n0 n1 nt (- dz) _ I1 K). fold (forth n).
    rewrite Cnorm2_sym. eapply Rle_trans; [|apply Cmod_diff_sq]. apply Req_le. cbn [at3 polar]. rewrite (Cmod_polar (A1 i j k)) by apply P1. reflexivity.
  - rewrite (TL_diff_norm S0 L1 n0 n1 nt I1 PF (- dz) (forth n) (polar s A2 (argument (forth n))) SU UN eq_refl eq_refl).
    apply Req_le, total_ext. intros i j k _ _ _. f_equal. cbn [at3 polar]. unfold argument. rewrite polar_dist. reflexivity.
Qed.
Lemma m2_le_m1 n : mismatch L1 s (forth (S n)) A2 <= mismatch L1 s (back n) A1.
Proof.
  unfold mismatch.
  apply Rle_trans with (total s (fun i j k => area L1 j * Cnorm2 (Cminus (at3 (TL S0 L1 dz (back n)) i j k) (at3 (TL S0 L1 dz (polar s A1 (argument (back n)))) i j k)))).
  - apply total_le. intros i j k Hi Hj Hk. apply Rmult_le_compat_l; [apply PA, Hj|].
    unfold GSProofs.back at 1, round2. rewrite (same_kind_TL S0 L1 L2 n0 n1 nt (- dz) _ I1 K).
    pose proof (TL_back S0 L1 n0 n1 nt I1 PF (- dz) (polar s A2 (argument (forth n))) AD ZE eq_refl i j k ltac:(unfold inrange; lia)) as TB.
    rewrite Ropp_involutive in TB. fold (forth n).  rewrite TB.
    rewrite Cnorm2_sym. eapply Rle_trans; [|apply Cmod_diff_sq]. apply Req_le. cbn [at3 polar]. rewrite (Cmod_polar (A2 i j k)) by apply P2. reflexivity.
  - rewrite (TL_diff_norm S0 L1 n0 n1 nt I1 PF dz (back n) (polar s A1 (argument (back n))) SU UN eq_refl eq_refl).
    apply Req_le, total_ext. intros i j k _ _ _. f_equal. cbn [at3 polar]. unfold argument. rewrite polar_dist. reflexivity.
Qed.
Lemma m1_mono n m : (n <= m)%nat -> mismatch L1 s (back m) A1 <= mismatch L1 s (back n) A1.
Proof. induction 1 as [|m _ IH]; [lra|]. eapply Rle_trans; [apply m1_le_m2|]. eapply Rle_trans; [apply m2_le_m1|exact IH]. Qed.
Lemma m2_mono n m : (n <= m)%nat -> mismatch L1 s (forth m) A2 <= mismatch L1 s (forth n) A2.
Proof. induction 1 as [|m _ IH]; [lra|]. eapply Rle_trans; [apply m2_le_m1|]. eapply Rle_trans; [apply m1_le_m2|exact IH]. Qed.
(** A consistent pair of amplitudes is a fixed point. *)
Hypothesis CO : forall i j k, inrange n0 n1 nt i j k -> modulus (TL S0 L1 dz (polar s A1 (fun _ _ _ => 0))) i j k = A2 i j k.
Lemma fixed n : (forall i j k, inrange n0 n1 nt i j k -> ph n i j k = 0) /\ (forall i j k, inrange n0 n1 nt i j k -> at3 (back n) i j k = RtoC (A1 i j k)).
Proof.
  assert (St : forall m, (forall i j k, inrange n0 n1 nt i j k -> ph m i j k = 0) -> forall i j k, inrange n0 n1 nt i j k -> at3 (back m) i j k = RtoC (A1 i j k)).
  { intros m Hm i j k H. unfold GSProofs.back, round2. rewrite (same_kind_TL S0 L1 L2 n0 n1 nt (- dz) _ I1 K). fold (forth m). 
    assert (F : forall i j k, inrange n0 n1 nt i j k -> at3 (forth m) i j k = at3 (TL S0 L1 dz (polar s A1 (fun _ _ _ => 0))) i j k).
    { apply (TL_ext S0 L1 n0 n1 nt I1 PF dz (polar s A1 (ph m)) (polar s A1 (fun _ _ _ => 0)) eq_refl eq_refl). intros a b c Hh. cbn [at3 polar]. rewrite (Hm a b c Hh). reflexivity. }
    rewrite (TL_ext S0 L1 n0 n1 nt I1 PF (- dz) (polar s A2 (argument (forth m))) (TL S0 L1 dz (polar s A1 (fun _ _ _ => 0))) eq_refl eq_refl); [| |exact H].
    - rewrite (TL_back S0 L1 n0 n1 nt I1 PF dz (polar s A1 (fun _ _ _ => 0)) AD ZE eq_refl i j k H). cbn [at3 polar]. rewrite cis_0. ring.
    - intros a b c Hh. cbn [at3 polar]. unfold argument. rewrite (F a b c Hh), <- (CO a b c Hh). unfold modulus. apply angle_polar. }
  assert (P : forall m, forall i j k, inrange n0 n1 nt i j k -> ph m i j k = 0).
  { induction m as [|m IH]; intros i j k H; [reflexivity|]. cbn [GSProofs.ph]. unfold argument. change (angle (at3 (back m) i j k) = 0). rewrite (St m IH i j k H).
    destruct (Rle_lt_or_eq_dec _ _ (P1 i j k)) as [Hp|Hp].
    - replace (RtoC (A1 i j k)) with (Cmult (RtoC (A1 i j k)) (cis 0)) by (rewrite cis_0; ring). apply angle_unique; [exact Hp|]. pose proof PI_RGT_0. lra.
    - rewrite <- Hp. unfold angle. rewrite Cmod_0. assert (E : Reqb 0 0 = true) by (apply Reqb_true; reflexivity). rewrite E. reflexivity. }
  split; [apply P|apply St, P].
Qed.
End Reduce.
Lemma real_ampl s F : real_part (ampl s F) = F.
Proof. unfold real_part, ampl. cbn [at3]. apply FunctionalExtensionality.functional_extensionality; intros i. apply FunctionalExtensionality.functional_extensionality; intros j. apply FunctionalExtensionality.functional_extensionality; intros k. reflexivity. Qed.
Lemma asm_superposes : superposes asm_solvers.
Proof.
  split; cbn [step_rt step_xyt asm_solvers].
  - intros. ring.
  - intros p x y d k i j _ _ _. unfold ifft2, fft2. rewrite <- ifft1_minus. apply ifft1_ext. intros u _. rewrite <- ifft1_minus. apply ifft1_ext. intros v _.
    transitivity (Cmult (cis (asm_kz p k u v * d)) (Cminus (fft1 (snd (fp_x p)) (fun i0 => fft1 (snd (fp_y p)) (fun j0 => x k i0 j0) v) u) (fft1 (snd (fp_x p)) (fun i0 => fft1 (snd (fp_y p)) (fun j0 => y k i0 j0) v) u))); [|ring].
    f_equal. rewrite <- fft1_minus. apply fft1_ext. intros a _. apply fft1_minus.
Qed.
