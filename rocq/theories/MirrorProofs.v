From Verif Require Import PyBase CSum NpFFT FFTProofs NumPy GridModel GridSpec GridProofs GridObs EnergyModel EnergyProofs LaserSpec LaserModel LaserOps LaserInv LaserStepProofs PropagateProofs HistoryProofs LaserInitProofs OpticsProofs2 LtiSpec LtiProofs LtiStep LtiMain LtiNorm RotProofs MirrorSpec.
Open Scope R_scope.

(** ** Flipped indices *)
Lemma flip_lt b n i : (i < n)%nat -> (flip b n i < n)%nat.
Proof. intros H. unfold flip. destruct b; lia. Qed.
Lemma flip_flip b n i : (i < n)%nat -> flip b n (flip b n i) = i.
Proof. intros H. unfold flip. destruct b; lia. Qed.
Lemma rsum_flip b n f : rsum n (fun i => f (flip b n i)) = rsum n f.
Proof. unfold flip. destruct b; [apply rsum_rev | reflexivity]. Qed.
Lemma rsum3_flip bx bY n0 n1 n2 f : rsum3 n0 n1 n2 (fun i j k => f (flip bx n0 i) (flip bY n1 j) k) = rsum3 n0 n1 n2 f.
Proof.
  unfold rsum3. rewrite <- (rsum_flip bx n0 (fun i => rsum n1 (fun j => rsum n2 (fun k => f i j k)))). apply rsum_ext. intros i _.
  rewrite <- (rsum_flip bY n1 (fun j => rsum n2 (fun k => f (flip bx n0 i) j k))). reflexivity.
Qed.
Lemma rmaxl_same l l' : (forall x, In x l <-> In x l') -> rmaxl l = rmaxl l'.
Proof.
  intros H. destruct l as [|a l].
  - destruct l' as [|a' l']; [reflexivity|]. destruct (proj2 (H a') (or_introl eq_refl)).
  - assert (N' : l' <> []) by (intros ->; destruct (proj1 (H a) (or_introl eq_refl))).
    apply Rle_antisym; apply rmaxl_ge; [apply H | apply H]; apply rmaxl_in; [discriminate | exact N'].
Qed.
Lemma flat3_flip bx bY n0 n1 n2 (f h : nat -> nat -> nat -> R) :
  (forall i j k, (i < n0)%nat -> (j < n1)%nat -> (k < n2)%nat -> h i j k = f (flip bx n0 i) (flip bY n1 j) k) ->
  rmaxl (flat3 n0 n1 n2 h) = rmaxl (flat3 n0 n1 n2 f).
Proof.
  intros H. apply rmaxl_same. intros x. split; intros Hx; apply (proj1 (EnergyProofs.in_flat3 _ _ _ _ _)) in Hx; destruct Hx as (i & j & k & Hi & Hj & Hk & ->); apply (proj2 (EnergyProofs.in_flat3 _ _ _ _ _)).
  - exists (flip bx n0 i), (flip bY n1 j), k. split; [apply flip_lt, Hi|]. split; [apply flip_lt, Hj|]. split; [exact Hk|]. apply H; assumption.
  - exists (flip bx n0 i), (flip bY n1 j), k. split; [apply flip_lt, Hi|]. split; [apply flip_lt, Hj|]. split; [exact Hk|].
    rewrite H by (assumption || apply flip_lt; assumption). rewrite !flip_flip by assumption. reflexivity.
Qed.

Section Mirror.
Variables bx bY : bool.
Definition mirrored (n0 n1 nt : nat) (a a' : ndarray) : Prop :=
  forall i j k, (i < n0)%nat -> (j < n1)%nat -> (k < nt)%nat -> at3 a' i j k = at3 a (flip bx n0 i) (flip bY n1 j) k.
Lemma mirror_energy g a a' n0 n1 nt : shp a = [n0; n1; nt] -> shp a' = [n0; n1; nt] -> mirrored n0 n1 nt a a' -> energy_of Xyt g a' = energy_of Xyt g a.
Proof.
  intros Sa Sa' H. unfold energy_of. unfold dim0, dim1, dim2. rewrite Sa, Sa'. cbn [nth cell_volume].
  assert (E : rsum3 n0 n1 nt (fun i j k => cell_volume_xyt g * eps0 * Cmod (at3 a' i j k) ^ 2) = rsum3 n0 n1 nt (fun i j k => cell_volume_xyt g * eps0 * Cmod (at3 a i j k) ^ 2)).
  { rewrite <- (rsum3_flip bx bY n0 n1 nt (fun i j k => cell_volume_xyt g * eps0 * Cmod (at3 a i j k) ^ 2)). apply rsum3_ext. intros i j k Hi Hj Hk. rewrite H by assumption. reflexivity. }
  rewrite E. reflexivity.
Qed.
Lemma norm_mirror v kd g g' a a' n0 n1 nt : CohG g -> CohG g' -> same_meta g g' -> g_shape g = [n0; n1; nt] ->
  tread g = Ok a -> tread g' = Ok a' -> mirrored n0 n1 nt a a' ->
  snd (normalize_grid Xyt v kd g') = snd (normalize_grid Xyt v kd g) /\
  exists b b', tread (fst (normalize_grid Xyt v kd g)) = Ok b /\ tread (fst (normalize_grid Xyt v kd g')) = Ok b' /\ mirrored n0 n1 nt b b'.
Proof.
  intros HG HG' HM Hsh Ha Ha' Hat.
  assert (Hsh' : g_shape g' = g_shape g) by (destruct HM as (_ & _ & _ & _ & _ & _ & _ & Z & _); exact Z).
  destruct (tread_shape _ _ (proj1 HG) Ha) as (Sa & Da). destruct (tread_shape _ _ (proj1 HG') Ha') as (Sa' & Da').
  rewrite Hsh' in Sa'. rewrite Hsh in Sa, Sa'.
  assert (Hsame : forall h h' (r : res unit), tread h = tread g -> tread h' = tread g' ->
     snd (h', r) = snd (h, r) /\ exists b b', tread (fst (h, r)) = Ok b /\ tread (fst (h', r)) = Ok b' /\ mirrored n0 n1 nt b b').
  { intros h h' r E E'. split; [reflexivity|]. exists a, a'. cbn [fst]. rewrite E, E'. auto. }
  assert (Hscale : forall s b b', (forall i j k, at3 b i j k = Cmult (RtoC s) (at3 a i j k)) -> (forall i j k, at3 b' i j k = Cmult (RtoC s) (at3 a' i j k)) -> mirrored n0 n1 nt b b').
  { intros s b b' E E' i j k Hi Hj Hk. rewrite E, E', Hat by assumption. reflexivity. }
  destruct v as [x|].
  2: { destruct kd; cbn [normalize_grid normalize_energy normalize_peak_field_amplitude normalize_peak_intensity]; apply Hsame; reflexivity. }
  pose proof (tread_get_t g) as HT. rewrite Ha in HT. pose proof (tread_get_t g') as HT'. rewrite Ha' in HT'.
  destruct kd; cbn [normalize_grid].
  - unfold normalize_energy. destruct (compute_energy_eq Xyt g a Ha) as (C1 & C2). destruct (compute_energy_eq Xyt g' a' Ha') as (C1' & C2'). rewrite C1, C2, C1', C2'.
    rewrite (energy_of_meta Xyt _ _ _ HM), (mirror_energy g a a' n0 n1 nt Sa Sa' Hat).
    destruct (Reqb (energy_of Xyt g a) 0) eqn:E0; [apply Hsame; apply tread_get_t|].
    destruct (rescale (fst (get_temporal_field g)) a (sqrt (x / energy_of Xyt g a)) (get_t_Wf _ (proj1 HG)) HT) as (R1 & _ & _ & R4).
    destruct (rescale (fst (get_temporal_field g')) a' (sqrt (x / energy_of Xyt g a)) (get_t_Wf _ (proj1 HG')) HT') as (R1' & _ & _ & R4').
    unfold tread in HT, HT'. rewrite HT, HT'. split; [congruence|]. eexists; eexists. split; [exact R4|]. split; [exact R4'|].
    apply (Hscale (sqrt (x / energy_of Xyt g a))); intros; reflexivity.
  - unfold normalize_peak_field_amplitude. change (snd (get_temporal_field g)) with (tread g). change (snd (get_temporal_field g')) with (tread g'). rewrite Ha, Ha'. cbn zeta.
    assert (EM : abs_max a' = abs_max a).
    { unfold abs_max, dim0, dim1, dim2. rewrite Sa, Sa'. cbn [nth]. apply (flat3_flip bx bY). intros i j k Hi Hj Hk. rewrite Hat by assumption. reflexivity. }
    rewrite EM.
    destruct (Reqb (abs_max a) 0) eqn:E0; [apply Hsame; apply tread_get_t|].
    destruct (rescale g a (x / abs_max a) (proj1 HG) Ha) as (R1 & _ & _ & R4).
    destruct (rescale g' a' (x / abs_max a) (proj1 HG') Ha') as (R1' & _ & _ & R4').
    split; [congruence|]. eexists; eexists. split; [exact R4|]. split; [exact R4'|].
    apply (Hscale (x / abs_max a)); intros; reflexivity.
  - unfold normalize_peak_intensity. change (snd (get_temporal_field g)) with (tread g). change (snd (get_temporal_field g')) with (tread g'). rewrite Ha, Ha'. cbn zeta.
    assert (EM : rmaxl (flat3 (dim0 a') (dim1 a') (dim2 a') (fun i j k => Cmod (Cmult (RtoC (eps0 / 2 * c_light)) (Cmult (at3 a' i j k) (at3 a' i j k))))) =
       rmaxl (flat3 (dim0 a) (dim1 a) (dim2 a) (fun i j k => Cmod (Cmult (RtoC (eps0 / 2 * c_light)) (Cmult (at3 a i j k) (at3 a i j k)))))).
    { unfold dim0, dim1, dim2. rewrite Sa, Sa'. cbn [nth]. apply (flat3_flip bx bY). intros i j k Hi Hj Hk. rewrite Hat by assumption. reflexivity. }
    rewrite EM. destruct (Reqb _ 0); [apply Hsame; apply tread_get_t|].
    assert (Hst : forall g a, CohG g -> g_shape g = [n0; n1; nt] -> tread g = Ok a -> forall z, set_temporal_field (fst (get_temporal_field g)) (np_float_scalar z) = (fst (get_temporal_field g), Err AssertionError)).
    { clear. intros g a HG Hsh Ha z. unfold set_temporal_field.
      assert (HT : tread (fst (get_temporal_field g)) = Ok a) by (rewrite tread_get_t; exact Ha).
      assert (Hs2 : shp (g_tf (fst (get_temporal_field g))) = [n0; n1; nt]).
      { pose proof (proj1 (get_t_Coh _ HG)) as HW. rewrite <- Hsh. destruct (get_t_meta g) as (_ & _ & _ & _ & _ & _ & _ & Z & _).
        rewrite <- Z. apply HW. }
      rewrite Hs2. reflexivity. }
    rewrite (Hst g a HG Hsh Ha), (Hst g' a' HG' ltac:(congruence) Ha'). apply Hsame; apply tread_get_t.
  - apply Hsame; reflexivity.
Qed.

(** ** The relation between the two lasers *)
Definition mrel (L L' : laser) (n0 n1 nt : nat) : Prop :=
  forall s s', sread (l_grid L) = Ok s -> sread (l_grid L') = Ok s' -> mirrored n0 n1 nt s s'.
Lemma mrel_t L L' n0 n1 nt a a' : Inv L n0 n1 nt -> Inv L' n0 n1 nt -> mrel L L' n0 n1 nt ->
  tread (l_grid L) = Ok a -> tread (l_grid L') = Ok a' -> mirrored n0 n1 nt a a'.
Proof.
  intros HI HI' HR Ha Ha' i j k Hi Hj Hk.
  destruct (Inv_reads _ _ _ _ HI) as (_ & s & _ & _ & Hs & _). destruct (Inv_reads _ _ _ _ HI') as (_ & s' & _ & _ & Hs' & _).
  destruct (spectral_zero_like _ _ _ _ _ _ (flip bx n0 i) (flip bY n1 j) k HI Ha Hs (flip_lt _ _ _ Hi) (flip_lt _ _ _ Hj) Hk) as (-> & _).
  destruct (spectral_zero_like _ _ _ _ _ _ i j k HI' Ha' Hs' Hi Hj Hk) as (-> & _).
  apply fft1_ext. intros q Hq. apply (HR s s' Hs Hs'); assumption.
Qed.
Lemma mrel_of_t L L' n0 n1 nt a a' : Inv L n0 n1 nt -> Inv L' n0 n1 nt ->
  tread (l_grid L) = Ok a -> tread (l_grid L') = Ok a' -> mirrored n0 n1 nt a a' -> mrel L L' n0 n1 nt.
Proof.
  intros HI HI' Ha Ha' HR s s' Hs Hs' i j k Hi Hj Hk.
  destruct (spectral_zero_like _ _ _ _ _ _ (flip bx n0 i) (flip bY n1 j) k HI Ha Hs (flip_lt _ _ _ Hi) (flip_lt _ _ _ Hj) Hk) as (_ & ->).
  destruct (spectral_zero_like _ _ _ _ _ _ i j k HI' Ha' Hs' Hi Hj Hk) as (_ & ->).
  apply ifft1_ext. intros q Hq. apply HR; assumption.
Qed.
(** Transverse axes that are their own mirror images. *)
Definition anti (L : laser) (n0 n1 : nat) : Prop :=
  (forall i, (i < n0)%nat -> axis_at (l_grid L) 0 (flip bx n0 i) = sign bx (axis_at (l_grid L) 0 i)) /\
  (forall j, (j < n1)%nat -> axis_at (l_grid L) 1 (flip bY n1 j) = sign bY (axis_at (l_grid L) 1 j)).
Lemma anti_step S L n0 n1 nt o : Inv L n0 n1 nt -> l_dim L = Xyt -> anti L n0 n1 -> anti (fst (lstep S L o)) n0 n1.
Proof.
  intros HI Hd (A1 & A2). destruct (step_plain S L n0 n1 nt o HI (or_introl Hd)) as (_ & HM & _).
  assert (E : forall q, (q < 2)%nat -> forall i, axis_at (l_grid (fst (lstep S L o))) q i = axis_at (l_grid L) q i).
  { intros q Hq i. unfold axis_at. destruct HM as (_ & _ & _ & -> & _). cbn [shift_domain with_domain g_axes]. rewrite set_last_nth; [reflexivity|].
    rewrite (gs_axes _ _ _ _ _ (i_shape _ _ _ _ HI)), Hd. simpl. lia. }
  split; intros; rewrite !E by lia; [apply A1 | apply A2]; assumption.
Qed.
Lemma Par_set L L' n0 n1 nt g g' : Par 0 L L' n0 n1 nt -> CohG g -> same_meta (l_grid L) g -> (exists a, tread g = Ok a) ->
  CohG g' -> same_meta (l_grid L') g' -> (exists a, tread g' = Ok a) -> Par 0 (set_grid L g) (set_grid L' g') n0 n1 nt.
Proof.
  intros HP C1 M1 R1 C2 M2 R2. pose proof HP as [P1 P2 P3 P4 P5 P6 P7].
  pose proof P7 as P7'. rewrite (shift_0 _ _ _ _ _ (i_shape _ _ _ _ P1)) in P7'.
  pose proof (Par_field L n0 n1 nt _ P1 C1 M1 R1) as X1. pose proof (Par_field L' n0 n1 nt _ P2 C2 M2 R2) as X2.
  constructor; try (first [apply (pa_inv' _ _ _ _ _ _ X1)|apply (pa_inv' _ _ _ _ _ _ X2)]); cbn [set_grid l_dim l_omega l_prof l_prop l_grid]; try assumption.
  pose proof (shift_0 _ _ _ _ _ (i_shape _ _ _ _ (pa_inv' _ _ _ _ _ _ X1))) as SH0. cbn [set_grid l_grid] in SH0. rewrite SH0.
  eapply same_meta_trans; [apply same_meta_sym; exact M1|]. eapply same_meta_trans; [exact P7'|exact M2].
Qed.
Lemma absorb_side n N p : (p < N)%nat -> (n <= N)%nat -> absorb_hi n N (N - 1 - p) = absorb_lo n p /\ absorb_lo n (N - 1 - p) = absorb_hi n N p.
Proof.
  intros Hp Hn. unfold absorb_hi, absorb_lo. split.
  - destruct (Nat.leb_spec (N - n) (N - 1 - p)), (Nat.ltb_spec p n); try lia; [f_equal; lia | reflexivity].
  - destruct (Nat.leb_spec (N - n) p), (Nat.ltb_spec (N - 1 - p) n); try lia; [f_equal; lia | reflexivity].
Qed.
Lemma absorb_flip nr n0 n1 i j : absorb_code Xyt nr n0 n1 = Ok tt -> (i < n0)%nat -> (j < n1)%nat ->
  absorb_fac Xyt nr n0 n1 (flip bx n0 i) (flip bY n1 j) = absorb_fac Xyt nr n0 n1 i j.
Proof.
  intros H Hi Hj. unfold absorb_fac, absorb_code in *. destruct nr as [[z|]|]; try reflexivity.
  destruct (Z.leb z 0); [discriminate|]. destruct (Nat.ltb_spec n0 (Z.to_nat z)); [discriminate|]. destruct (Nat.ltb_spec n1 (Z.to_nat z)); [discriminate|].
  unfold flip. destruct bx, bY;
    repeat match goal with
    | |- context [absorb_hi ?n ?N (?N - 1 - ?p)] => rewrite (proj1 (absorb_side n N p ltac:(assumption) ltac:(lia)))
    | |- context [absorb_lo ?n (?N - 1 - ?p)] => rewrite (proj2 (absorb_side n N p ltac:(assumption) ltac:(lia)))
    end; ring.
Qed.

Lemma mirror_step S L L' n0 n1 nt o : mirror_solver bx bY S -> l_dim L = Xyt -> Par 0 L L' n0 n1 nt -> anti L n0 n1 -> mrel L L' n0 n1 nt ->
  Par 0 (fst (lstep S L o)) (fst (lstep S L' (mirror_op bx bY o))) n0 n1 nt /\
  mrel (fst (lstep S L o)) (fst (lstep S L' (mirror_op bx bY o))) n0 n1 nt /\
  (~ is_write o -> snd (lstep S L' (mirror_op bx bY o)) = snd (lstep S L o)).
Proof.
  intros HS Hd HP HA HR. pose proof HP as [P1 P2 P3 P4 P5 P6 P7]. assert (Hd' : l_dim L' = Xyt) by congruence.
  destruct o as [dist nr ng b|e|v kd|w]; cbn [mirror_op].
  - destruct (absorb_par _ L L' n0 n1 nt nr HP) as (Q1 & Q2). rewrite Hd in Q1, Q2. rewrite Hd' in Q2.
    destruct (absorb_code Xyt nr n0 n1) as [[]|e] eqn:Ecode.
    + assert (Hform : forall K, l_dim K = Xyt -> Inv K n0 n1 nt -> exists g1 s1, lstep S K (OpPropagate dist nr ng b) =
          (set_grid (set_prop K (Some (used_prop K b))) (shift_domain g1 dist), Ok tt) /\
          sread g1 = Ok (apply_phase (l_omega K) (p_omega0 (l_prof K)) dist (stepped S (used_prop K b) s1 dist)) /\
          forall s, sread (l_grid K) = Ok s -> forall i j k, (i < n0)%nat -> (j < n1)%nat -> (k < nt)%nat ->
            at3 s1 i j k = Cmult (absorb_fac Xyt nr n0 n1 i j) (at3 s i j k)).
      { intros K HK K2. pose proof (i_coh _ _ _ _ K2) as HG.
        destruct (proj1 (tread_sread_iff _ (proj1 HG)) (i_read _ _ _ _ K2)) as (s & Hs).
        destruct (absorb_form Xyt nr _ n0 n1 nt s HG (gs_shape _ _ _ _ _ (i_shape _ _ _ _ K2)) Hs) as (C1 & C2).
        rewrite Ecode in C1, C2. destruct (C2 eq_refl) as (s1 & Hs1 & Hat).
        destruct (propagate_plain S K n0 n1 nt dist nr ng b s1 K2) as (g1 & E1 & _ & _ & E4 & _).
        - left; exact HK.
        - rewrite HK; exact C1.
        - rewrite HK; exact Hs1.
        - exists g1, s1. split; [exact E1|]. split; [exact E4|]. intros s0 Hs0. rewrite Hs in Hs0. injection Hs0 as <-. exact Hat. }
      destruct (Hform L Hd P1) as (gL & sL & EL & Hsp & Hat). destruct (Hform L' Hd' P2) as (gL' & sL' & EL' & Hsp' & Hat').
      assert (Hout : snd (lstep S L' (OpPropagate dist nr ng b)) = snd (lstep S L (OpPropagate dist nr ng b))) by (rewrite EL, EL'; reflexivity).
      split; [|split; [|intros _; exact Hout]].
      * apply Par_plain; try assumption; [left; exact Hd | intros _; exact Hout|]. rewrite EL, EL'. cbn [fst l_prop set_grid set_prop].
        rewrite (Par_used _ _ _ _ _ _ b HP). reflexivity.
      * intros s s' Hs Hs' i j k Hi Hj Hk. rewrite EL in Hs. rewrite EL' in Hs'. cbn [fst l_grid set_grid] in Hs, Hs'.
        rewrite sread_shift, Hsp in Hs. rewrite sread_shift, Hsp' in Hs'. injection Hs as <-. injection Hs' as <-. cbn [apply_phase at3].
        rewrite P4, P5. f_equal. rewrite (Par_used _ _ _ _ _ _ b HP).
        destruct (used_is_fresh L n0 n1 nt b P1) as (b' & Hb'). rewrite Hb'. unfold stepped, fresh_prop. rewrite Hd. cbn [at3].
        pose proof (i_shape _ _ _ _ P1) as GS. set (pp := build_xyt (l_grid L) (l_omega L) b').
        assert (Ex : snd (fp_x pp) = n0) by (unfold pp; cbn; rewrite (gs_shape _ _ _ _ _ GS); reflexivity).
        assert (Ey : snd (fp_y pp) = n1) by (unfold pp; cbn; rewrite (gs_shape _ _ _ _ _ GS); reflexivity).
        assert (Ek : length (fp_k pp) = nt) by (unfold pp; cbn; rewrite map_length; apply (i_omega _ _ _ _ P1)).
        rewrite <- Ex at 1. rewrite <- Ey at 1. apply HS; rewrite ?Ex, ?Ey, ?Ek; try assumption.
        intros kk ii jj Hkk Hii Hjj.
        destruct (Inv_reads _ _ _ _ P1) as (_ & s0 & _ & _ & Hs0 & _). destruct (Inv_reads _ _ _ _ P2) as (_ & s0' & _ & _ & Hs0' & _).
        rewrite (Hat s0 Hs0) by (assumption || apply flip_lt; assumption). rewrite (Hat' s0' Hs0') by assumption.
        rewrite absorb_flip by assumption. rewrite (HR s0 s0' Hs0 Hs0') by assumption. reflexivity.
    + rewrite <- Hd in Q1. rewrite <- Hd' in Q2.
      destruct (propagate_absorb_fail S L dist nr ng b e (i_coh _ _ _ _ P1) Q1) as (g & Eg & _ & _ & _ & Hsg).
      destruct (propagate_absorb_fail S L' dist nr ng b e (i_coh _ _ _ _ P2) Q2) as (g' & Eg' & _ & _ & _ & Hsg').
      assert (Hout : snd (lstep S L' (OpPropagate dist nr ng b)) = snd (lstep S L (OpPropagate dist nr ng b))) by (cbn [lstep]; rewrite Eg, Eg'; reflexivity).
      split; [|split; [|intros _; exact Hout]].
      * apply Par_plain; try assumption; [left; exact Hd | intros _; exact Hout|]. cbn [lstep]. rewrite Eg, Eg'. cbn [fst l_prop set_grid]. exact P6.
      * intros s s' Hs Hs'. cbn [lstep] in Hs, Hs'. rewrite Eg in Hs. rewrite Eg' in Hs'. cbn [fst l_grid set_grid] in Hs, Hs'.
        rewrite Hsg in Hs. rewrite Hsg' in Hs'. apply HR; assumption.
  - pose proof (i_coh _ _ _ _ P1) as HG. destruct (i_read _ _ _ _ P1) as (a & Ha). destruct (tread_sread_ok _ _ (proj1 HG) Ha) as (s & Hs).
    pose proof (i_coh _ _ _ _ P2) as HG'. destruct (i_read _ _ _ _ P2) as (a' & Ha'). destruct (tread_sread_ok _ _ (proj1 HG') Ha') as (s' & Hs').
    destruct (apply_optics_spec L e a s HG Ha Hs) as (g1 & s1 & E1 & E2 & E3 & E4 & E5 & _ & _ & E8).
    destruct (apply_optics_spec L' (mirror_optic bx bY e) a' s' HG' Ha' Hs') as (g1' & s1' & E1' & E2' & E3' & E4' & E5' & _ & _ & E8').
    cbn [lstep]. rewrite E1, E1'. cbn [fst snd]. split; [|split; [|reflexivity]].
    + apply Par_set; eauto.
    + intros t t' Ht Ht' i j k Hi Hj Hk. cbn [l_grid set_grid] in Ht, Ht'. rewrite E4 in Ht. rewrite E4' in Ht'. injection Ht as <-. injection Ht' as <-.
      rewrite E8, E8', (HR s s' Hs Hs') by assumption. f_equal. unfold optic_factor. rewrite Hd, Hd', P4, P5. unfold mirror_optic.
      destruct HA as (A1 & A2). rewrite A1, A2 by assumption. unfold axis_at.
      rewrite (Par_axis _ L L' n0 n1 nt 0 HP), (Par_axis _ L L' n0 n1 nt 1 HP) by (rewrite Hd; simpl; lia). reflexivity.
  - cbn [lstep]. unfold normalize. rewrite Hd, Hd'.
    destruct (Inv_reads _ _ _ _ P1) as (a & _ & Ha & _). destruct (Inv_reads _ _ _ _ P2) as (a' & _ & Ha' & _).
    pose proof P7 as P7'. rewrite (shift_0 _ _ _ _ _ (i_shape _ _ _ _ P1)) in P7'.
    destruct (norm_mirror v kd (l_grid L) (l_grid L') a a' n0 n1 nt (i_coh _ _ _ _ P1) (i_coh _ _ _ _ P2) P7'
      (gs_shape _ _ _ _ _ (i_shape _ _ _ _ P1)) Ha Ha' (mrel_t L L' n0 n1 nt a a' P1 P2 HR Ha Ha')) as (E & c & c' & B1 & B2 & B3).
    destruct (normalize_grid_steps Xyt v kd (l_grid L) (i_coh _ _ _ _ P1)) as (N1 & N2 & _).
    destruct (normalize_grid_steps Xyt v kd (l_grid L') (i_coh _ _ _ _ P2)) as (N1' & N2' & _).
    cbn [fst snd].
    assert (X : Par 0 (set_grid L (fst (normalize_grid Xyt v kd (l_grid L)))) (set_grid L' (fst (normalize_grid Xyt v kd (l_grid L')))) n0 n1 nt) by (apply Par_set; eauto).
    split; [exact X|]. split; [|intros _; exact E].
    apply (mrel_of_t _ _ n0 n1 nt c c'); [apply (pa_inv _ _ _ _ _ _ X) | apply (pa_inv' _ _ _ _ _ _ X) | exact B1 | exact B2 | exact B3].
  - destruct (step_write S L n0 n1 nt w P1 0 L' HP) as (W1 & W2 & _). split; [exact W1|]. split; [|exact W2].
    assert (Hform : forall K, sread (l_grid (fst (lstep S K (OpWrite w)))) = sread (l_grid K)).
    { intros K. cbn [lstep]. unfold write_to_file. rewrite get_t_eq; cbn [fst snd].
      destruct (tread (l_grid K)) as [a|e]; [destruct (w _ _ _) as [u|e]|]; cbn [fst snd l_prop l_grid set_grid]; apply sread_get_t. }
    intros s s' Hs Hs'. rewrite Hform in Hs, Hs'. apply HR; assumption.
Qed.

Lemma mirror_run S h : mirror_solver bx bY S -> forall L L' n0 n1 nt, l_dim L = Xyt -> Par 0 L L' n0 n1 nt -> anti L n0 n1 -> mrel L L' n0 n1 nt ->
  Par 0 (lrun S L h) (lrun S L' (map (mirror_op bx bY) h)) n0 n1 nt /\ mrel (lrun S L h) (lrun S L' (map (mirror_op bx bY) h)) n0 n1 nt /\
  outcomes S L' (map (mirror_op bx bY) h) = outcomes S L h.
Proof.
  intros HS. induction h as [|o h IH]; intros L L' n0 n1 nt Hd HP HA HR; [cbn; auto|].
  destruct (mirror_step S L L' n0 n1 nt o HS Hd HP HA HR) as (Z1 & Z2 & Z3).
  destruct (step_plain S L n0 n1 nt o (pa_inv _ _ _ _ _ _ HP) (or_introl Hd)) as (_ & _ & Hd1 & _).
  cbn [lrun outcomes map]. destruct (IH (fst (lstep S L o)) (fst (lstep S L' (mirror_op bx bY o))) n0 n1 nt) as (Y1 & Y2 & Y3); try assumption.
  - congruence.
  - apply (anti_step S L n0 n1 nt o (pa_inv _ _ _ _ _ _ HP) Hd HA).
  - split; [exact Y1|]. split; [exact Y2|]. rewrite Y3. destruct o; cbn [mirror_op] in *; try reflexivity; rewrite Z3 by (intros X; exact X); reflexivity.
Qed.

(** ** From construction *)
Lemma coord_flip b lo hi n i : (b = true -> lo = - hi) -> (2 <= n)%nat -> (i < n)%nat -> coord lo hi n (flip b n i) = sign b (coord lo hi n i).
Proof.
  intros Hc Hn Hi. unfold flip, sign. destruct b; [|reflexivity]. rewrite (Hc eq_refl). unfold coord, LaserSpec.spacing.
  rewrite minus_INR, minus_INR by lia. apply le_INR in Hn. change (INR 2) with (1 + 1) in Hn. change (INR 1) with 1. field. lra.
Qed.
Theorem c103 S lo hi np p p' nm nte L L' h : mirror_solver bx bY S ->
  (bx = true -> nth 0 lo 0 = - nth 0 hi 0) -> (bY = true -> nth 1 lo 0 = - nth 1 hi 0) ->
  p_omega0 p' = p_omega0 p -> p_energy p' = p_energy p ->
  (forall x y t, p_eval p' x y t = p_eval p (sign bx x) (sign bY y) t) ->
  laser_init Xyt lo hi np p nm nte = Ok L -> laser_init Xyt lo hi np p' nm nte = Ok L' ->
  let K := lrun S L h in let K' := lrun S L' (map (mirror_op bx bY) h) in
  outcomes S L' (map (mirror_op bx bY) h) = outcomes S L h /\ g_axes (l_grid K') = g_axes (l_grid K) /\
  snd (compute_laser_energy Xyt (l_grid K')) = snd (compute_laser_energy Xyt (l_grid K)) /\
  exists n0 n1 nt f f', snd (get_temporal_field (l_grid K)) = Ok f /\ shp f = [n0; n1; nt] /\
    snd (get_temporal_field (l_grid K')) = Ok f' /\ shp f' = [n0; n1; nt] /\
    forall i j k, (i < n0)%nat -> (j < n1)%nat -> (k < nt)%nat -> at3 f' i j k = at3 f (flip bx n0 i) (flip bY n1 j) k.
Proof.
  intros HS Cx Cy Hw HE Hev H H' K K'.
  destruct (laser_init_Inv _ _ _ _ _ _ _ _ H) as (g & n0 & n1 & nt & Hg & A2 & A3 & _ & _ & _ & _ & _ & A9 & HI).
  destruct (grid_init_axes _ _ _ _ _ _ _ Hg) as (_ & _ & Hlen & _ & Hax).
  assert (Hdim : length lo = ndims_of Xyt /\ length hi = ndims_of Xyt).
  { assert (Hex : exists g, grid_init Xyt lo hi np (Some nm) true = Ok g) by eauto. apply grid_init_ok_iff in Hex. tauto. }
  assert (Hsz : forall q, (q < ndims_of Xyt)%nat -> exists n, nth_error np q = Some n /\ (2 <= n)%nat).
  { assert (Hex : exists g, grid_init Xyt lo hi np (Some nm) true = Ok g) by eauto. apply grid_init_ok_iff in Hex. tauto. }
  assert (HP : Par 0 L L' n0 n1 nt).
  { destruct lo as [|l0 lo]; [destruct Hdim; discriminate|]. destruct hi as [|h0 hi]; [destruct Hdim; discriminate|].
    pose proof H' as H2. rewrite <- (later_0 (l0 :: lo)), <- (later_0 (h0 :: hi)) in H2 by discriminate.
    pose proof (init_par _ _ _ _ _ _ _ _ _ _ _ _ _ _ H H2 Hw HI) as HP. rewrite Rmult_0_l in HP. exact HP. }
  assert (N01 : exists N0 N1, nth_error np 0 = Some N0 /\ nth_error np 1 = Some N1 /\ N0 = n0 /\ N1 = n1).
  { destruct (Hax 0%nat ltac:(simpl; lia)) as (N0 & E0 & L0 & _). destruct (Hax 1%nat ltac:(simpl; lia)) as (N1 & E1 & L1 & _).
    destruct (gs_xyt _ _ _ _ _ A9 ltac:(discriminate)) as (G0 & G1). exists N0, N1. repeat split; try assumption; congruence. }
  destruct N01 as (N0 & N1 & E0 & E1 & -> & ->).
  assert (AX : anti L n0 n1 /\ (forall i, (i < n0)%nat -> axis_at g 0 (flip bx n0 i) = sign bx (axis_at g 0 i)) /\ (forall j, (j < n1)%nat -> axis_at g 1 (flip bY n1 j) = sign bY (axis_at g 1 j))).
  { assert (X0 : forall i, (i < n0)%nat -> axis_at g 0 (flip bx n0 i) = sign bx (axis_at g 0 i)).
    { intros i Hi. rewrite !(axis_coord _ _ _ _ _ _ _ 0 n0 _ Hg ltac:(simpl; lia) E0) by (assumption || apply flip_lt; assumption).
      apply coord_flip; try assumption. destruct (Hsz 0%nat ltac:(simpl; lia)) as (nn & Enn & Hnn). rewrite E0 in Enn. injection Enn as <-. exact Hnn. }
    assert (X1 : forall j, (j < n1)%nat -> axis_at g 1 (flip bY n1 j) = sign bY (axis_at g 1 j)).
    { intros j Hj. rewrite !(axis_coord _ _ _ _ _ _ _ 1 n1 _ Hg ltac:(simpl; lia) E1) by (assumption || apply flip_lt; assumption).
      apply coord_flip; try assumption. destruct (Hsz 1%nat ltac:(simpl; lia)) as (nn & Enn & Hnn). rewrite E1 in Enn. injection Enn as <-. exact Hnn. }
    assert (EA : forall q i, axis_at (l_grid L) q i = axis_at g q i) by (intros q i; destruct A2 as (_ & _ & _ & Z & _); unfold axis_at; rewrite Z; reflexivity).
    split; [|split; assumption]. split; intros; rewrite !EA; [apply X0 | apply X1]; assumption. }
  destruct AX as (HA & X0 & X1).
  assert (HR : mrel L L' n0 n1 nt).
  { destruct (init_field_full _ _ _ _ _ _ _ _ H) as (g1 & b & G1 & G2 & G3 & G4). rewrite Hg in G1. injection G1 as <-.
    destruct (init_field_full _ _ _ _ _ _ _ _ H') as (g2 & b' & G1' & G2' & G3' & G4'). rewrite Hg in G1'. injection G1' as <-.
    assert (Hat : mirrored n0 n1 nt (init_arr Xyt g p nm nte) (init_arr Xyt g p' nm nte)).
    { intros i j k Hi Hj Hk. rewrite !init_arr_lin. cbn [init_lin]. rewrite Hev, X0, X1 by assumption. reflexivity. }
    apply (mrel_of_t _ _ n0 n1 nt b b' HI (pa_inv' _ _ _ _ _ _ HP) G2 G2').
    intros i j k Hi Hj Hk. rewrite G4, G4', Hat, HE by assumption. pose proof (gs_shape _ _ _ _ _ A9) as Hsh.
    rewrite (mirror_energy g (init_arr Xyt g p nm nte) (init_arr Xyt g p' nm nte) n0 n1 nt ltac:(congruence) ltac:(congruence) Hat). reflexivity. }
  destruct (mirror_run S h HS L L' n0 n1 nt A3 HP HA HR) as (Q1 & Q2 & Q3). fold K K' in Q1, Q2.
  split; [exact Q3|]. split; [exact (Par0_axes _ _ _ _ _ Q1)|].
  destruct (Inv_reads _ _ _ _ (pa_inv _ _ _ _ _ _ Q1)) as (f & s & F1 & F2 & _).
  destruct (Inv_reads _ _ _ _ (pa_inv' _ _ _ _ _ _ Q1)) as (f' & s' & F1' & F2' & _).
  pose proof (mrel_t _ _ n0 n1 nt f f' (pa_inv _ _ _ _ _ _ Q1) (pa_inv' _ _ _ _ _ _ Q1) Q2 F1 F1') as Hf.
  split.
  - destruct (compute_energy_eq Xyt _ f F1) as (-> & _). destruct (compute_energy_eq Xyt _ f' F1') as (-> & _). f_equal.
    pose proof (pa_meta _ _ _ _ _ _ Q1) as HM. rewrite (shift_0 _ _ _ _ _ (i_shape _ _ _ _ (pa_inv _ _ _ _ _ _ Q1))) in HM.
    rewrite (energy_of_meta Xyt _ _ _ HM). apply (mirror_energy _ f f' n0 n1 nt F2 F2' Hf).
  - exists n0, n1, nt, f, f'. conj; assumption.
Qed.
End Mirror.
