From Verif Require Import PyBase CSum NpFFT FFTProofs NumPy GridModel GridSpec GridProofs GridObs EnergyModel EnergyProofs LaserSpec LaserModel LaserOps LaserInv LaserStepProofs PropagateProofs HistoryProofs LaserInitProofs OpticsProofs2 LtiSpec LtiProofs LtiStep LtiMain LtiNorm.
Open Scope R_scope.

(** * Fields that differ by unit factors, one per first index *)
Definition phases (c : nat -> C) : Prop := forall i, Cmod (c i) = 1.
Lemma phase_norm2 c i z : phases c -> Cnorm2 (Cmult (c i) z) = Cnorm2 z.
Proof. intros H. rewrite Cnorm2_mult, <- (Cmod_sq (c i)), H. ring. Qed.
Lemma phase_mod c i z : phases c -> Cmod (Cmult (c i) z) = Cmod z.
Proof. intros H. rewrite Cmod_mult, H. ring. Qed.

Lemma flat3_ext {A} n0 n1 n2 (f h : nat -> nat -> nat -> A) :
  (forall i j k, (i < n0)%nat -> (j < n1)%nat -> (k < n2)%nat -> f i j k = h i j k) -> flat3 n0 n1 n2 f = flat3 n0 n1 n2 h.
Proof.
  intros H. unfold flat3.
  assert (FE : forall (X Y : Type) (u v : X -> list Y) l, (forall x, In x l -> u x = v x) -> flat_map u l = flat_map v l).
  { intros X Y u v l E. induction l as [|x l IH]; [reflexivity|]. cbn [flat_map]. rewrite E by (left; reflexivity). f_equal. apply IH. intros y Hy. apply E. right; exact Hy. }
  apply FE. intros i Hi. apply in_seq in Hi. apply FE. intros j Hj. apply in_seq in Hj. apply map_ext_in. intros k Hk. apply in_seq in Hk. apply H; lia.
Qed.

Section Norm.
  Variables (c : nat -> C) (a a' : ndarray) (n0 n1 nt : nat).
  Hypothesis Hc : phases c.
  Hypothesis Sa : shp a = [n0; n1; nt].
  Hypothesis Sa' : shp a' = [n0; n1; nt].
  Hypothesis Hat : forall i j k, (i < n0)%nat -> (j < n1)%nat -> (k < nt)%nat -> at3 a' i j k = Cmult (c i) (at3 a i j k).
  Lemma phase_energy d g : energy_of d g a' = energy_of d g a.
  Proof.
    rewrite !energy_of_eq. unfold dim0, dim1, dim2. rewrite Sa, Sa'. cbn [nth]. f_equal. apply rsum3_ext. intros i j k Hi Hj Hk.
    rewrite Hat by assumption. rewrite phase_norm2 by exact Hc. reflexivity.
  Qed.
  Lemma phase_abs_max : abs_max a' = abs_max a.
  Proof.
    unfold abs_max, dim0, dim1, dim2. rewrite Sa, Sa'. cbn [nth]. f_equal. apply flat3_ext. intros i j k Hi Hj Hk.
    rewrite Hat by assumption. apply phase_mod, Hc.
  Qed.
End Norm.

Lemma norm_phase d v kd g g' a a' c n0 n1 nt : phases c -> CohG g -> CohG g' -> same_meta g g' -> g_shape g = [n0; n1; nt] ->
  tread g = Ok a -> tread g' = Ok a' ->
  (forall i j k, (i < n0)%nat -> (j < n1)%nat -> (k < nt)%nat -> at3 a' i j k = Cmult (c i) (at3 a i j k)) ->
  snd (normalize_grid d v kd g') = snd (normalize_grid d v kd g) /\
  exists b b', tread (fst (normalize_grid d v kd g)) = Ok b /\ tread (fst (normalize_grid d v kd g')) = Ok b' /\
    forall i j k, (i < n0)%nat -> (j < n1)%nat -> (k < nt)%nat -> at3 b' i j k = Cmult (c i) (at3 b i j k).
Proof.
  intros Hc HG HG' HM Hsh Ha Ha' Hat.
  assert (Hsh' : g_shape g' = g_shape g) by (destruct HM as (_ & _ & _ & _ & _ & _ & _ & Z & _); exact Z).
  destruct (tread_shape _ _ (proj1 HG) Ha) as (Sa & Da). destruct (tread_shape _ _ (proj1 HG') Ha') as (Sa' & Da').
  rewrite Hsh' in Sa'. rewrite Hsh in Sa, Sa'.
  assert (Hsame : forall h h' (r : res unit), tread h = tread g -> tread h' = tread g' ->
     snd (h', r) = snd (h, r) /\ exists b b', tread (fst (h, r)) = Ok b /\ tread (fst (h', r)) = Ok b' /\
     forall i j k, (i < n0)%nat -> (j < n1)%nat -> (k < nt)%nat -> at3 b' i j k = Cmult (c i) (at3 b i j k)).
  { intros h h' r E E'. split; [reflexivity|]. exists a, a'. cbn [fst]. rewrite E, E'. auto. }
  assert (Hscale : forall s b b', (forall i j k, at3 b i j k = Cmult (RtoC s) (at3 a i j k)) -> (forall i j k, at3 b' i j k = Cmult (RtoC s) (at3 a' i j k)) ->
     forall i j k, (i < n0)%nat -> (j < n1)%nat -> (k < nt)%nat -> at3 b' i j k = Cmult (c i) (at3 b i j k)).
  { intros s b b' E E' i j k Hi Hj Hk. rewrite E, E', Hat by assumption. ring. }
  destruct v as [x|].
  2: { destruct kd; cbn [normalize_grid normalize_energy normalize_peak_field_amplitude normalize_peak_intensity]; apply Hsame; reflexivity. }
  pose proof (tread_get_t g) as HT. rewrite Ha in HT. pose proof (tread_get_t g') as HT'. rewrite Ha' in HT'.
  destruct kd; cbn [normalize_grid].
  - unfold normalize_energy. destruct (compute_energy_eq d g a Ha) as (C1 & C2). destruct (compute_energy_eq d g' a' Ha') as (C1' & C2'). rewrite C1, C2, C1', C2'.
    rewrite (energy_of_meta d _ _ _ HM), (phase_energy c a a' n0 n1 nt Hc Sa Sa' Hat d g).
    destruct (Reqb (energy_of d g a) 0) eqn:E0; [apply Hsame; apply tread_get_t|].
    destruct (rescale (fst (get_temporal_field g)) a (sqrt (x / energy_of d g a)) (get_t_Wf _ (proj1 HG)) HT) as (R1 & _ & _ & R4).
    destruct (rescale (fst (get_temporal_field g')) a' (sqrt (x / energy_of d g a)) (get_t_Wf _ (proj1 HG')) HT') as (R1' & _ & _ & R4').
    unfold tread in HT, HT'. rewrite HT, HT'. split; [congruence|]. eexists; eexists. split; [exact R4|]. split; [exact R4'|].
    apply (Hscale (sqrt (x / energy_of d g a))); intros; reflexivity.
  - unfold normalize_peak_field_amplitude. change (snd (get_temporal_field g)) with (tread g). change (snd (get_temporal_field g')) with (tread g'). rewrite Ha, Ha'. cbn zeta.
    rewrite (phase_abs_max c a a' n0 n1 nt Hc Sa Sa' Hat).
    destruct (Reqb (abs_max a) 0) eqn:E0; [apply Hsame; apply tread_get_t|].
    destruct (rescale g a (x / abs_max a) (proj1 HG) Ha) as (R1 & _ & _ & R4).
    destruct (rescale g' a' (x / abs_max a) (proj1 HG') Ha') as (R1' & _ & _ & R4').
    split; [congruence|]. eexists; eexists. split; [exact R4|]. split; [exact R4'|].
    apply (Hscale (x / abs_max a)); intros; reflexivity.
  - unfold normalize_peak_intensity. change (snd (get_temporal_field g)) with (tread g). change (snd (get_temporal_field g')) with (tread g'). rewrite Ha, Ha'. cbn zeta.
    assert (EM : flat3 (dim0 a') (dim1 a') (dim2 a') (fun i j k => Cmod (Cmult (RtoC (eps0 / 2 * c_light)) (Cmult (at3 a' i j k) (at3 a' i j k)))) =
       flat3 (dim0 a) (dim1 a) (dim2 a) (fun i j k => Cmod (Cmult (RtoC (eps0 / 2 * c_light)) (Cmult (at3 a i j k) (at3 a i j k))))).
    { unfold dim0, dim1, dim2. rewrite Sa, Sa'. cbn [nth]. apply flat3_ext. intros i j k Hi Hj Hk. rewrite Hat by assumption.
      rewrite !Cmod_mult, (Hc i). ring. }
    rewrite EM. destruct (Reqb _ 0); [apply Hsame; apply tread_get_t|].
    assert (Hst : forall g a, CohG g -> g_shape g = [n0; n1; nt] -> tread g = Ok a -> forall z, set_temporal_field (fst (get_temporal_field g)) (np_float_scalar z) = (fst (get_temporal_field g), Err AssertionError)).
    { clear. intros g a HG Hsh Ha z. unfold set_temporal_field.
      assert (HT : tread (fst (get_temporal_field g)) = Ok a) by (rewrite tread_get_t; exact Ha).
      assert (Hs2 : shp (g_tf (fst (get_temporal_field g))) = [n0; n1; nt]).
      { pose proof (proj1 (get_t_Coh _ HG)) as HW. rewrite <- Hsh. destruct (get_t_meta g) as (_ & _ & _ & _ & _ & _ & _ & Z & _).
        rewrite <- Z. apply HW. }
      rewrite Hs2. reflexivity. }
    rewrite (Hst g a HG Hsh Ha), (Hst g' a' HG' ltac:(congruence) Ha'). apply Hsame; apply tread_get_t.
  - apply Hsame; reflexivity.
Qed.

Definition phase_rel (c : nat -> C) (L L' : laser) (n0 n1 nt : nat) : Prop :=
  forall s s', sread (l_grid L) = Ok s -> sread (l_grid L') = Ok s' ->
    forall i j k, (i < n0)%nat -> (j < n1)%nat -> (k < nt)%nat -> at3 s' i j k = Cmult (c i) (at3 s i j k).
Lemma phase_rel_t c L L' n0 n1 nt a a' : Inv L n0 n1 nt -> Inv L' n0 n1 nt -> phase_rel c L L' n0 n1 nt ->
  tread (l_grid L) = Ok a -> tread (l_grid L') = Ok a' ->
  forall i j k, (i < n0)%nat -> (j < n1)%nat -> (k < nt)%nat -> at3 a' i j k = Cmult (c i) (at3 a i j k).
Proof.
  intros HI HI' HR Ha Ha' i j k Hi Hj Hk.
  destruct (Inv_reads _ _ _ _ HI) as (_ & s & _ & _ & Hs & _). destruct (Inv_reads _ _ _ _ HI') as (_ & s' & _ & _ & Hs' & _).
  destruct (spectral_zero_like _ _ _ _ _ _ i j k HI Ha Hs Hi Hj Hk) as (-> & _).
  destruct (spectral_zero_like _ _ _ _ _ _ i j k HI' Ha' Hs' Hi Hj Hk) as (-> & _).
  rewrite <- fft1_scal. apply fft1_ext. intros q Hq. apply (HR s s' Hs Hs'); assumption.
Qed.
Lemma phase_rel_of_t c L L' n0 n1 nt a a' : Inv L n0 n1 nt -> Inv L' n0 n1 nt ->
  tread (l_grid L) = Ok a -> tread (l_grid L') = Ok a' ->
  (forall i j k, (i < n0)%nat -> (j < n1)%nat -> (k < nt)%nat -> at3 a' i j k = Cmult (c i) (at3 a i j k)) -> phase_rel c L L' n0 n1 nt.
Proof.
  intros HI HI' Ha Ha' HR s s' Hs Hs' i j k Hi Hj Hk.
  destruct (spectral_zero_like _ _ _ _ _ _ i j k HI Ha Hs Hi Hj Hk) as (_ & ->).
  destruct (spectral_zero_like _ _ _ _ _ _ i j k HI' Ha' Hs' Hi Hj Hk) as (_ & ->).
  rewrite <- ifft1_scal. apply ifft1_ext. intros q Hq. apply HR; assumption.
Qed.

Lemma phase_run S h c : linear_solver S -> phases c -> Forall user_op h -> forall L L' n0 n1 nt, Par 0 L L' n0 n1 nt ->
  (l_dim L = Rt \/ forall i, c i = c 0%nat) -> phase_rel c L L' n0 n1 nt -> clean S L h ->
  exists m0 m1, Par 0 (lrun S L h) (lrun S L' h) m0 m1 nt /\ phase_rel c (lrun S L h) (lrun S L' h) m0 m1 nt /\
    outcomes S L' h = outcomes S L h.
Proof.
  intros HS Hc Hu. induction Hu as [|o h Ho Hu IH]; intros L L' n0 n1 nt HP Hd HR Hcl.
  - exists n0, n1. cbn. auto.
  - cbn [clean] in Hcl. destruct Hcl as (C1 & C2). cbn [lrun outcomes].
    assert (Hd1 : l_dim (fst (lstep S L o)) = l_dim L).
    { destruct (run_clean_inv S L n0 n1 nt [o] (pa_inv _ _ _ _ _ _ HP)) as (a0 & a1 & _ & _ & Y & _);
        [constructor; [exact Ho|constructor]|split; [exact C1|exact I]|exact Y]. }
    assert (Hstep : exists m0 m1, Par 0 (fst (lstep S L o)) (fst (lstep S L' o)) m0 m1 nt /\
       phase_rel c (fst (lstep S L o)) (fst (lstep S L' o)) m0 m1 nt /\ (~ is_write o -> snd (lstep S L' o) = snd (lstep S L o))).
    { pose proof HP as [P1 P2 P3 P4 P5 P6 P7].
      assert (Hlin : linear_op o -> exists m0 m1, Par 0 (fst (lstep S L o)) (fst (lstep S L' o)) m0 m1 nt /\
         phase_rel c (fst (lstep S L o)) (fst (lstep S L' o)) m0 m1 nt /\ (~ is_write o -> snd (lstep S L' o) = snd (lstep S L o))).
      { intros Hl. destruct (lti_step S L n0 n1 nt o HS P1 Hl C1) as (m0 & m1 & T & HT & HK).
        destruct (HK 0 L (Par_refl _ _ _ _ P1)) as (_ & _ & K3). destruct (HK 0 L' HP) as (Q1 & Q2 & Q3).
        exists m0, m1. split; [exact Q1|]. split; [|exact Q2].
        destruct (Inv_reads _ _ _ _ P1) as (_ & s0 & _ & _ & Hs0 & _).
        destruct (Inv_reads _ _ _ _ P2) as (_ & s0' & _ & _ & Hs0' & _).
        intros s s' Hs Hs' i j q Hi Hj Hq. rewrite (K3 s0 s Hs0 Hs) by assumption. rewrite (Q3 s0' s' Hs0' Hs') by assumption.
        unfold kapply. rewrite <- csum_scal_l. apply csum_ext. intros i' Hi'. rewrite <- csum_scal_l. apply csum_ext. intros j' Hj'.
        rewrite (HR s0 s0' Hs0 Hs0') by assumption.
        destruct Hd as [Hd|Hd].
        - destruct (Nat.eq_dec i i') as [->|Hne]; [ring|]. rewrite (HT Hd i j i' j' q Hne). ring.
        - rewrite (Hd i), (Hd i'). ring. }
      destruct o as [dist nr ng b|e|v kd|w]; try (apply Hlin; exact Ho).
      clear Hlin. exists n0, n1. cbn [lstep]. unfold normalize. rewrite P3.
      destruct (Inv_reads _ _ _ _ P1) as (a & _ & Ha & _). destruct (Inv_reads _ _ _ _ P2) as (a' & _ & Ha' & _).
      pose proof P7 as P7'. rewrite (shift_0 _ _ _ _ _ (i_shape _ _ _ _ P1)) in P7'.
      destruct (norm_phase (l_dim L) v kd (l_grid L) (l_grid L') a a' c n0 n1 nt Hc (i_coh _ _ _ _ P1) (i_coh _ _ _ _ P2) P7'
        (gs_shape _ _ _ _ _ (i_shape _ _ _ _ P1)) Ha Ha' (phase_rel_t c L L' n0 n1 nt a a' P1 P2 HR Ha Ha')) as (E & b & b' & B1 & B2 & B3).
      destruct (normalize_grid_steps (l_dim L) v kd (l_grid L) (i_coh _ _ _ _ P1)) as (N1 & N2 & _).
      destruct (normalize_grid_steps (l_dim L) v kd (l_grid L') (i_coh _ _ _ _ P2)) as (N1' & N2' & _).
      pose proof (Par_field L n0 n1 nt _ P1 N1 N2 (ex_intro _ b B1)) as X1.
      pose proof (Par_field L' n0 n1 nt _ P2 N1' N2' (ex_intro _ b' B2)) as X2.
      cbn [fst snd]. split; [|split; [|intros _; exact E]].
      - constructor; try (first [apply (pa_inv' _ _ _ _ _ _ X1)|apply (pa_inv' _ _ _ _ _ _ X2)]); cbn [set_grid l_dim l_omega l_prof l_prop l_grid]; try assumption.
        pose proof (shift_0 _ _ _ _ _ (i_shape _ _ _ _ (pa_inv' _ _ _ _ _ _ X1))) as SH0. cbn [set_grid l_grid] in SH0. rewrite SH0.
        eapply same_meta_trans; [apply same_meta_sym; exact N2|]. eapply same_meta_trans; [exact P7'|exact N2'].
      - apply (phase_rel_of_t c _ _ n0 n1 nt b b'); [apply (pa_inv' _ _ _ _ _ _ X1)|apply (pa_inv' _ _ _ _ _ _ X2)|exact B1|exact B2|exact B3]. }
    destruct Hstep as (m0 & m1 & Z1 & Z2 & Z3).
    destruct (IH _ _ m0 m1 nt Z1) as (q0 & q1 & Y1 & Y2 & Y3); try assumption; [rewrite Hd1; exact Hd|].
    exists q0, q1. split; [exact Y1|]. split; [exact Y2|]. rewrite Y3.
    destruct o; try reflexivity; rewrite Z3 by (intros X; exact X); reflexivity.
Qed.

(** ** From construction *)
Lemma init_phase d lo hi np p p' nm nte L L' c g n0 n1 nt : phases c ->
  laser_init d lo hi np p nm nte = Ok L -> laser_init d lo hi np p' nm nte = Ok L' ->
  p_omega0 p' = p_omega0 p -> p_energy p' = p_energy p -> Inv L n0 n1 nt ->
  grid_init d lo hi np (Some nm) true = Ok g ->
  (forall i j k, (i < n0)%nat -> (j < n1)%nat -> (k < nt)%nat ->
     at3 (init_arr d g p' nm nte) i j k = Cmult (c i) (at3 (init_arr d g p nm nte) i j k)) ->
  Par 0 L L' n0 n1 nt /\ phase_rel c L L' n0 n1 nt.
Proof.
  intros Hc H H' Hw HE HI Hg Hat.
  assert (Hdim : length lo = ndims_of d /\ length hi = ndims_of d).
  { assert (Hex : exists g, grid_init d lo hi np (Some nm) true = Ok g) by eauto. apply grid_init_ok_iff in Hex. tauto. }
  assert (Hne : lo <> [] /\ hi <> []).
  { destruct (ndims_S d) as (n & Hn). rewrite Hn in Hdim. destruct Hdim as (X & Y). split; intros Z; rewrite Z in *; discriminate. }
  destruct Hne as (N1 & N2).
  assert (HP : Par 0 L L' n0 n1 nt).
  { pose proof H' as H2. rewrite <- (later_0 lo N1), <- (later_0 hi N2) in H2.
    pose proof (init_par _ _ _ _ _ _ _ _ _ _ _ _ _ _ H H2 Hw HI) as HP. rewrite Rmult_0_l in HP. exact HP. }
  split; [exact HP|].
  destruct (init_field_full _ _ _ _ _ _ _ _ H) as (g1 & b & G1 & G2 & G3 & G4). rewrite Hg in G1. injection G1 as <-.
  destruct (init_field_full _ _ _ _ _ _ _ _ H') as (g2 & b' & G1' & G2' & G3' & G4'). rewrite Hg in G1'. injection G1' as <-.
  pose proof (pa_inv' _ _ _ _ _ _ HP) as HI'.
  destruct (laser_init_Inv _ _ _ _ _ _ _ _ H) as (g2 & a0 & a1 & at' & A1 & A2 & _ & _ & _ & _ & _ & _ & A9 & A10).
  rewrite Hg in A1. injection A1 as <-.
  assert (Hsh : g_shape g = [n0; n1; nt]).
  { destruct A2 as (_ & _ & _ & _ & _ & _ & _ & Z & _). rewrite <- Z. apply (gs_shape _ _ _ _ _ (i_shape _ _ _ _ HI)). }
  apply (phase_rel_of_t c _ _ n0 n1 nt b b' HI HI' G2 G2').
  intros i j k Hi Hj Hk. rewrite G4, G4', Hat, HE by assumption.
  rewrite (phase_energy c (init_arr d g p nm nte) (init_arr d g p' nm nte) n0 n1 nt Hc ltac:(congruence) ltac:(congruence) Hat). ring.
Qed.

(** What the relation means for the observables. *)
Lemma phase_observe S d lo hi np p p' nm nte L L' c h g : linear_solver S -> phases c -> (d = Rt \/ forall i, c i = c 0%nat) ->
  laser_init d lo hi np p nm nte = Ok L -> laser_init d lo hi np p' nm nte = Ok L' ->
  p_omega0 p' = p_omega0 p -> p_energy p' = p_energy p ->
  grid_init d lo hi np (Some nm) true = Ok g ->
  (forall n0 n1 nt, g_shape g = [n0; n1; nt] -> forall i j k, (i < n0)%nat -> (j < n1)%nat -> (k < nt)%nat ->
     at3 (init_arr d g p' nm nte) i j k = Cmult (c i) (at3 (init_arr d g p nm nte) i j k)) ->
  Forall user_op h -> clean S L h ->
  outcomes S L' h = outcomes S L h /\ g_axes (l_grid (lrun S L' h)) = g_axes (l_grid (lrun S L h)) /\
  snd (compute_laser_energy d (l_grid (lrun S L' h))) = snd (compute_laser_energy d (l_grid (lrun S L h))) /\
  exists m0 m1 nt f f',
    snd (get_temporal_field (l_grid (lrun S L h))) = Ok f /\ shp f = [m0; m1; nt] /\
    snd (get_temporal_field (l_grid (lrun S L' h))) = Ok f' /\ shp f' = [m0; m1; nt] /\
    forall i j k, (i < m0)%nat -> (j < m1)%nat -> (k < nt)%nat -> at3 f' i j k = Cmult (c i) (at3 f i j k).
Proof.
  intros HS Hc Hd H H' Hw HE Hg Hat Hu Hcl.
  destruct (laser_init_Inv _ _ _ _ _ _ _ _ H) as (g2 & n0 & n1 & nt & A1 & A2 & A3 & _ & _ & _ & _ & _ & A9 & A10).
  rewrite Hg in A1. injection A1 as <-.
  destruct (init_phase d lo hi np p p' nm nte L L' c g n0 n1 nt Hc H H' Hw HE A10 Hg (Hat _ _ _ (gs_shape _ _ _ _ _ A9))) as (HP & HR).
  destruct (phase_run S h c HS Hc Hu L L' n0 n1 nt HP ltac:(rewrite A3; exact Hd) HR Hcl) as (m0 & m1 & Q1 & Q2 & Q3).
  split; [exact Q3|]. split; [exact (Par0_axes _ _ _ _ _ Q1)|].
  destruct (Inv_reads _ _ _ _ (pa_inv _ _ _ _ _ _ Q1)) as (f & s & F1 & F2 & _).
  destruct (Inv_reads _ _ _ _ (pa_inv' _ _ _ _ _ _ Q1)) as (f' & s' & F1' & F2' & _).
  pose proof (phase_rel_t c _ _ m0 m1 nt f f' (pa_inv _ _ _ _ _ _ Q1) (pa_inv' _ _ _ _ _ _ Q1) Q2 F1 F1') as Hf.
  split.
  - destruct (compute_energy_eq d _ f F1) as (-> & _). destruct (compute_energy_eq d _ f' F1') as (-> & _). f_equal.
    pose proof (pa_meta _ _ _ _ _ _ Q1) as HM. rewrite (shift_0 _ _ _ _ _ (i_shape _ _ _ _ (pa_inv _ _ _ _ _ _ Q1))) in HM.
    rewrite (energy_of_meta d _ _ _ HM). apply (phase_energy c f f' m0 m1 nt Hc F2 F2' Hf).
  - exists m0, m1, nt, f, f'. conj; try assumption.
Qed.

(** ** A global phase *)
Theorem c98_phase S d lo hi np p p' nm nte L L' phi h : linear_solver S ->
  p_omega0 p' = p_omega0 p -> p_energy p' = p_energy p ->
  (forall x y t, p_eval p' x y t = Cmult (cis phi) (p_eval p x y t)) ->
  laser_init d lo hi np p nm nte = Ok L -> laser_init d lo hi np p' nm nte = Ok L' ->
  Forall user_op h -> clean S L h ->
  outcomes S L' h = outcomes S L h /\ g_axes (l_grid (lrun S L' h)) = g_axes (l_grid (lrun S L h)) /\
  snd (compute_laser_energy d (l_grid (lrun S L' h))) = snd (compute_laser_energy d (l_grid (lrun S L h))) /\
  exists m0 m1 nt f f',
    snd (get_temporal_field (l_grid (lrun S L h))) = Ok f /\ shp f = [m0; m1; nt] /\
    snd (get_temporal_field (l_grid (lrun S L' h))) = Ok f' /\ shp f' = [m0; m1; nt] /\
    forall i j k, (i < m0)%nat -> (j < m1)%nat -> (k < nt)%nat -> at3 f' i j k = Cmult (cis phi) (at3 f i j k).
Proof.
  intros HS Hw HE Hev H H' Hu Hcl.
  destruct (laser_init_Inv _ _ _ _ _ _ _ _ H) as (g & n0 & n1 & nt & A1 & _).
  apply (phase_observe S d lo hi np p p' nm nte L L' (fun _ => cis phi) h g); try assumption.
  - intros i. apply Cmod_cis.
  - right; reflexivity.
  - intros q0 q1 qt _ i j k _ _ _. rewrite !init_arr_lin.
    rewrite (init_lin_comb d g nm nte (cis phi) (RtoC 0) (p_eval p') (p_eval p) (p_eval p)); [ring|].
    intros x y t. rewrite Hev. ring.
Qed.

(** ** A rotation about the axis *)
Definition slot_mode (M i : nat) : Z := if Nat.ltb i M then Z.of_nat i else (Z.of_nat i - (2 * Z.of_nat M - 1))%Z.
Lemma slot_mode_ok M i : (i < 2 * M - 1)%nat -> (- Z.of_nat M < slot_mode M i < Z.of_nat M)%Z /\ mode_slot M (slot_mode M i) = i.
Proof.
  intros H. unfold slot_mode, mode_slot. destruct (Nat.ltb_spec i M); match goal with |- context [Z.leb 0 ?m] => destruct (Z.leb_spec 0 m) end; lia.
Qed.
Lemma mode_slot_mode M m : (- Z.of_nat M < m < Z.of_nat M)%Z -> slot_mode M (mode_slot M m) = m.
Proof.
  intros H. unfold slot_mode, mode_slot. destruct (Z.leb_spec 0 m); match goal with |- context [Nat.ltb ?m ?n] => destruct (Nat.ltb_spec m n) end; lia.
Qed.
Lemma recon_rotate M E theta alpha : recon M E (theta + alpha) = recon M (fun m => Cmult (cis (- (IZR m * alpha))) (E m)) theta.
Proof.
  unfold recon. apply csum_ext. intros q _. cbv zeta. set (m := (Z.of_nat q - (Z.of_nat M - 1))%Z).
  replace (- (IZR m * (theta + alpha))) with (- (IZR m * alpha) + - (IZR m * theta)) by ring. rewrite cis_plus. ring.
Qed.

Theorem c98_rotation S (M : nat) lo hi np p p' nte L L' (A : Z -> R -> R -> C) alpha h : linear_solver S ->
  p_omega0 p' = p_omega0 p -> p_energy p' = p_energy p ->
  0 <= nth 0 lo 0 -> nth 0 lo 0 < nth 0 hi 0 -> nth 1 lo 0 < nth 1 hi 0 ->
  (forall r t theta, p_eval p (r * cos theta) (r * sin theta) t = recon M (fun m => A m r t) theta) ->
  (forall r t theta, p_eval p' (r * cos theta) (r * sin theta) t = p_eval p (r * cos (theta + alpha)) (r * sin (theta + alpha)) t) ->
  (2 * Z.of_nat M - 1 <= match nte with None => 2 * Z.of_nat M - 1 | Some n => n end)%Z ->
  laser_init Rt lo hi np p (Z.of_nat M) nte = Ok L -> laser_init Rt lo hi np p' (Z.of_nat M) nte = Ok L' ->
  Forall user_op h -> clean S L h ->
  outcomes S L' h = outcomes S L h /\ g_axes (l_grid (lrun S L' h)) = g_axes (l_grid (lrun S L h)) /\
  snd (compute_laser_energy Rt (l_grid (lrun S L' h))) = snd (compute_laser_energy Rt (l_grid (lrun S L h))) /\
  exists m0 m1 nt f f',
    snd (get_temporal_field (l_grid (lrun S L h))) = Ok f /\ shp f = [m0; m1; nt] /\
    snd (get_temporal_field (l_grid (lrun S L' h))) = Ok f' /\ shp f' = [m0; m1; nt] /\
    (forall i j k, (i < m0)%nat -> (j < m1)%nat -> (k < nt)%nat -> Cmod (at3 f' i j k) = Cmod (at3 f i j k)) /\
    (m0 = (2 * M - 1)%nat -> forall j k theta, (j < m1)%nat -> (k < nt)%nat ->
       recon M (comp M f' j k) theta = recon M (comp M f j k) (theta + alpha)).
Proof.
  intros HS Hw HE B0 B1 B2 Hb Hr Hn H H' Hu Hcl.
  destruct (laser_init_Inv _ _ _ _ _ _ _ _ H) as (g & n0 & n1 & nt & A1 & _ & _ & _ & _ & _ & _ & _ & A9 & _).
  set (c := fun i => cis (- (IZR (slot_mode M i) * alpha))).
  assert (Hc : phases c) by (intros i; apply Cmod_cis).
  destruct (phase_observe S Rt lo hi np p p' (Z.of_nat M) nte L L' c h g) as (Z1 & Z2 & Z3 & m0 & m1 & mt & f & f' & F1 & F2 & F3 & F4 & F5); try assumption.
  - left; reflexivity.
  - intros q0 q1 qt Hsh i j k Hi Hj Hk. rewrite (gs_shape _ _ _ _ _ A9) in Hsh. injection Hsh as -> -> ->.
    destruct (grid_init_GShape_rt _ _ _ _ _ _ A1) as (n1'' & nt'' & N1 & N2 & HM & GS'). rewrite Nat2Z.id in GS'.
    assert (Q : [(2 * M - 1)%nat; n1''; nt''] = [q0; q1; qt]).
    { rewrite <- (gs_shape _ _ _ _ _ GS'), <- (gs_shape _ _ _ _ _ A9). reflexivity. }
    assert (Q0 : q0 = (2 * M - 1)%nat) by congruence. assert (Q1 : n1'' = q1) by congruence. assert (Q2 : nt'' = qt) by congruence. subst q0 n1'' nt''.
    rewrite laser_init_split in H, H'.
    destruct (laser_init Rt lo hi np (no_energy p) (Z.of_nat M) nte) as [K|] eqn:E0; [|discriminate].
    destruct (laser_init Rt lo hi np (no_energy p') (Z.of_nat M) nte) as [K'|] eqn:E0'; [|discriminate].
    assert (HM1 : (1 <= M)%nat) by lia.
    destruct (rt_modes lo hi np q1 qt (no_energy p) M nte K (M - 1) A E0 N1 N2 B0 B1 B2) as (a & s & G1 & G2 & _ & G4 & G5); [exact I| |lia|].
    { replace (Datatypes.S (M - 1)) with M by lia. exact Hb. }
    destruct (rt_modes lo hi np q1 qt (no_energy p') M nte K' (M - 1) (fun m r t => Cmult (cis (- (IZR m * alpha))) (A m r t)) E0' N1 N2 B0 B1 B2) as (a' & s' & G1' & G2' & _ & G4' & G5'); [exact I| |lia|].
    { replace (Datatypes.S (M - 1)) with M by lia. intros r t theta. cbn [no_energy p_eval]. rewrite Hr, Hb. apply recon_rotate. }
    cbn [no_energy p_energy energy_factor] in G5, G5'. subst s s'.
    destruct (init_field _ _ _ _ _ _ _ _ E0 eq_refl) as (g2 & X1 & X2). rewrite A1 in X1. injection X1 as <-. rewrite init_arr_no_energy in X2.
    destruct (init_field _ _ _ _ _ _ _ _ E0' eq_refl) as (g2 & X1' & X2'). rewrite A1 in X1'. injection X1' as <-. rewrite init_arr_no_energy in X2'.
    change (snd (get_temporal_field (l_grid K))) with (tread (l_grid K)) in G1. assert (Ea : a = init_arr Rt g p (Z.of_nat M) nte) by congruence. subst a.
    change (snd (get_temporal_field (l_grid K'))) with (tread (l_grid K')) in G1'. assert (Ea' : a' = init_arr Rt g p' (Z.of_nat M) nte) by congruence. subst a'.
    destruct (slot_mode_ok M i Hi) as (HmI & HmS).
    specialize (G4 (slot_mode M i) j k HmI Hj Hk). specialize (G4' (slot_mode M i) j k HmI Hj Hk). rewrite HmS in G4, G4'.
    rewrite G4, G4'. unfold c. destruct (Z.leb_spec (Z.abs (slot_mode M i)) (Z.of_nat (M - 1))); [ring|lia].
  - split; [exact Z1|]. split; [exact Z2|]. split; [exact Z3|]. exists m0, m1, mt, f, f'. conj; try assumption.
    + intros i j k Hi Hj Hk. rewrite F5 by assumption. apply phase_mod, Hc.
    + intros Em j k theta Hj Hk. rewrite recon_rotate. apply recon_ext. intros m Hm. unfold comp.
      assert (Hi : (mode_slot M m < m0)%nat) by (rewrite Em; unfold mode_slot; destruct (Z.leb_spec 0 m); lia).
      rewrite F5 by assumption. unfold c. rewrite mode_slot_mode by exact Hm. reflexivity.
Qed.
