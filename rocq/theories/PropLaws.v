(** C20-C25: composition, cache, energy, failure, resampling, absorbing layer. *)
From Verif Require Import PyBase CSum NpFFT FFTProofs NumPy GridModel GridSpec GridProofs LaserSpec GridObs
  EnergyModel EnergyProofs AngularProofs LaserModel OpticsModel LaserOps LaserInv LaserInitProofs LaserStepProofs
  PropagateProofs HistoryProofs OpticsProofs OpticsProofs2 SolverSpec.
Open Scope R_scope.

(** The propagator used by an (Inv) laser. *)
Lemma used_fresh L n0 n1 nt b : Inv L n0 n1 nt -> exists b', used_prop L b = fresh_prop L b'.
Proof.
  intros HI. unfold used_prop. destruct (i_prop _ _ _ _ HI) as [-> | (b' & ->)]; eauto.
Qed.

Lemma fresh_rt L n0 n1 nt b : Inv L n0 n1 nt -> l_dim L = Rt ->
  exists ps, fresh_prop L b = PropRt ps /\ forall i, (i < n0)%nat -> exists p, nth_error ps i = Some p /\
    rp_rnew p = None /\ length (rp_k p) = nt /\ length (rp_r p) = n1 /\ rp_r p = nth 0 (g_axes (l_grid L)) [].
Proof.
  intros HI Hd. unfold fresh_prop. rewrite Hd. eexists. split; [reflexivity|].
  pose proof (i_shape _ _ _ _ HI) as HS. destruct (gs_rt _ _ _ _ _ HS Hd) as (M & HM & Hn0 & Hmod & _ & _ & Hl).
  rewrite Hmod. intros i Hi. unfold build_rt.
  assert (Hlen : length (azimuthal_modes (Z.of_nat M)) = n0) by (rewrite azimuthal_modes_length by lia; lia).
  destruct (nth_error (azimuthal_modes (Z.of_nat M)) i) as [m|] eqn:E.
  2:{ apply nth_error_None in E. lia. }
  eexists. split; [erewrite map_nth_error by exact E; reflexivity|]. cbn [rp_rnew rp_k rp_r].
  rewrite map_length. conj; try reflexivity; [apply (i_omega _ _ _ _ HI)|exact Hl].
Qed.
Lemma fresh_xyt L n0 n1 nt b : Inv L n0 n1 nt -> l_dim L = Xyt ->
  exists p, fresh_prop L b = PropXyt p /\ length (fp_k p) = nt /\ snd (fp_x p) = n0 /\ snd (fp_y p) = n1.
Proof.
  intros HI Hd. unfold fresh_prop. rewrite Hd. eexists. split; [reflexivity|].
  unfold build_xyt; cbn [fp_k fp_x fp_y snd]. rewrite map_length.
  rewrite (gs_shape _ _ _ _ _ (i_shape _ _ _ _ HI)). conj; try reflexivity. apply (i_omega _ _ _ _ HI).
Qed.

Definition inr (n0 n1 nt i j k : nat) : Prop := (i < n0)%nat /\ (j < n1)%nat /\ (k < nt)%nat.

Lemma time_phase_add om w d1 d2 k : Cmult (time_phase om w d1 k) (time_phase om w d2 k) = time_phase om w (d1 + d2) k.
Proof. unfold time_phase. rewrite <- cis_plus. f_equal. unfold Rdiv. ring. Qed.
Lemma time_phase_0 om w k : time_phase om w 0 k = RtoC 1.
Proof. unfold time_phase. rewrite <- cis_0. f_equal. unfold Rdiv. ring. Qed.

Lemma stepped_compose S L n0 n1 nt b s d1 d2 i j k : Inv L n0 n1 nt -> per_frequency S -> additive S ->
  inr n0 n1 nt i j k ->
  at3 (stepped S (fresh_prop L b) (apply_phase (l_omega L) (p_omega0 (l_prof L)) d1 (stepped S (fresh_prop L b) s d1)) d2) i j k =
  Cmult (time_phase (l_omega L) (p_omega0 (l_prof L)) d1 k) (at3 (stepped S (fresh_prop L b) s (d1 + d2)) i j k).
Proof.
  intros HI HP (Ha1 & Ha2) (Hi & Hj & Hk). destruct (i_dim _ _ _ _ HI) as [Hd|Hd].
  - destruct (fresh_rt L n0 n1 nt b HI Hd) as (ps & -> & Hps). destruct (Hps i Hi) as (p & Ep & Hn & Lk & Lr & _).
    unfold stepped, apply_phase, step_mode; cbn [at3]. rewrite Ep.
    rewrite (pf_rt_ext S HP p _ (fun kk jj => Cmult (time_phase (l_omega L) (p_omega0 (l_prof L)) d1 kk)
        (step_rt S p (fun kk0 jj0 => at3 s i jj0 kk0) d1 kk jj)))
      by (try lia; intros; ring).
    rewrite (pf_rt_hom S HP) by lia. f_equal.
    rewrite <- Ha1 by (try assumption; lia). reflexivity.
  - destruct (fresh_xyt L n0 n1 nt b HI Hd) as (p & -> & Lk & Lx & Ly).
    unfold stepped, apply_phase; cbn [at3].
    rewrite (pf_xy_ext S HP p _ (fun kk ii jj => Cmult (time_phase (l_omega L) (p_omega0 (l_prof L)) d1 kk)
        (step_xyt S p (fun kk0 ii0 jj0 => at3 s ii0 jj0 kk0) d1 kk ii jj)))
      by (try lia; intros; ring).
    rewrite (pf_xy_hom S HP) by lia. f_equal.
    rewrite <- Ha2 by lia. reflexivity.
Qed.

Lemma stepped_zero S L n0 n1 nt b s i j k : Inv L n0 n1 nt -> zero_step S -> inr n0 n1 nt i j k ->
  at3 (stepped S (fresh_prop L b) s 0) i j k = at3 s i j k.
Proof.
  intros HI (H1 & H2) (Hi & Hj & Hk). destruct (i_dim _ _ _ _ HI) as [Hd|Hd].
  - destruct (fresh_rt L n0 n1 nt b HI Hd) as (ps & -> & Hps). destruct (Hps i Hi) as (p & Ep & Hn & Lk & Lr & _).
    unfold stepped, step_mode; cbn [at3]. rewrite Ep. rewrite H1 by (try assumption; lia). reflexivity.
  - destruct (fresh_xyt L n0 n1 nt b HI Hd) as (p & -> & Lk & Lx & Ly).
    unfold stepped; cbn [at3]. rewrite H2 by lia. reflexivity.
Qed.

(** propagate without absorbing layer and resampling. *)
Lemma propagate_simple S L n0 n1 nt d b s : Inv L n0 n1 nt -> sread (l_grid L) = Ok s ->
  exists b' L' g1, used_prop L b = fresh_prop L b' /\
    propagate S L d None None b = (L', Ok tt) /\ Inv L' n0 n1 nt /\
    L' = set_grid (set_prop L (Some (fresh_prop L b'))) (shift_domain g1 d) /\
    same_meta (l_grid L) g1 /\ CohG g1 /\ fresh_prop L' b' = fresh_prop L b' /\
    sread (l_grid L') = Ok (apply_phase (l_omega L) (p_omega0 (l_prof L)) d (stepped S (fresh_prop L b') s d)) /\
    tread (l_grid L') = Ok (np_fft_last (apply_phase (l_omega L) (p_omega0 (l_prof L)) d (stepped S (fresh_prop L b') s d))).
Proof.
  intros HI Hs. destruct (used_fresh L _ _ _ b HI) as (b' & Hb). exists b'.
  destruct (propagate_plain S L n0 n1 nt d None None b s HI (or_intror eq_refl) eq_refl Hs) as (g1 & E & H2 & H3 & H4 & H5).
  rewrite Hb in *. eexists. exists g1. split; [reflexivity|]. split; [exact E|].
  destruct (step_plain S L n0 n1 nt (OpPropagate d None None b) HI (or_intror I)) as (HI' & HM & D1 & D2 & D3).
  cbn [lstep] in HI', HM, D1, D2, D3. rewrite E in HI', HM, D1, D2, D3. cbn [fst] in *.
  conj; try assumption; try reflexivity.
  - apply fresh_prop_ext; try reflexivity.
    + exists d. cbn [l_grid set_grid set_prop]. apply shift_same_meta. exact H3.
    + apply (gs_lo _ _ _ _ _ (i_shape _ _ _ _ HI)).
    + apply (gs_hi _ _ _ _ _ (i_shape _ _ _ _ HI)).
    + apply (gs_axes _ _ _ _ _ (i_shape _ _ _ _ HI)).
    + apply (i_dim _ _ _ _ HI).
  - cbn [l_grid set_grid]. rewrite sread_shift. exact H4.
  - cbn [l_grid set_grid]. rewrite tread_shift. exact H5.
Qed.

Definition same_window (g g' : grid) : Prop :=
  g_lo g' = g_lo g /\ g_hi g' = g_hi g /\ g_axes g' = g_axes g /\ g_dx g' = g_dx g /\ g_npoints g' = g_npoints g /\
  g_modes g' = g_modes g.
Lemma same_meta_window g g' : same_meta g g' -> same_window g g'.
Proof. intros (H1 & H2 & H3 & H4 & H5 & H6 & H7 & _). unfold same_window; auto 10. Qed.

Lemma shift_shift_meta g0 g1 g2 d1 d2 : same_meta g0 g1 -> same_meta (shift_domain g1 d1) g2 ->
  same_meta (shift_domain g0 (d1 + d2)) (shift_domain g2 d2).
Proof.
  intros H1 H2. rewrite <- shift_shift. apply shift_same_meta.
  eapply same_meta_trans; [apply shift_same_meta, H1|exact H2].
Qed.

Lemma c20_compose S L d1 d2 b1 b2 : reachable S L -> per_frequency S -> additive S ->
  exists L1 L12 L' s12 s' t12 t',
    propagate S L d1 None None b1 = (L1, Ok tt) /\ propagate S L1 d2 None None b2 = (L12, Ok tt) /\
    propagate S L (d1 + d2) None None b1 = (L', Ok tt) /\
    snd (get_spectral_field (l_grid L12)) = Ok s12 /\ snd (get_spectral_field (l_grid L')) = Ok s' /\ arr_eq s12 s' /\
    snd (get_temporal_field (l_grid L12)) = Ok t12 /\ snd (get_temporal_field (l_grid L')) = Ok t' /\ arr_eq t12 t' /\
    same_window (l_grid L') (l_grid L12).
Proof.
  intros HR HP HA. destruct (reachable_Inv S L HR) as (n0 & n1 & nt & HI).
  destruct (reachable_read S L HR) as (a & s & Ha & Hs & _).
  destruct (propagate_simple S L n0 n1 nt d1 b1 s HI Hs) as (b' & L1 & g1 & U1 & E1 & HI1 & EL1 & M1 & G1 & F1 & S1 & T1).
  destruct (propagate_simple S L n0 n1 nt (d1 + d2) b1 s HI Hs) as (b'' & L' & g' & U' & E' & HI' & EL' & M' & G' & F' & S' & T').
  rewrite U1 in U'.
  destruct (propagate_simple S L1 n0 n1 nt d2 b2 _ HI1 S1) as (b3 & L12 & g2 & U2 & E2 & HI2 & EL2 & M2 & G2 & F2 & S2 & T2).
  assert (U3 : fresh_prop L1 b3 = fresh_prop L b').
  { rewrite <- U2. unfold used_prop. rewrite EL1. reflexivity. }
  assert (O1 : l_omega L1 = l_omega L /\ l_prof L1 = l_prof L) by (rewrite EL1; split; reflexivity).
  destruct O1 as (O1 & O2).
  rewrite U3, O1, O2 in S2, T2. rewrite <- U' in S', T'.
  exists L1, L12, L'. eexists. eexists. eexists. eexists.
  destruct (sread_shape _ _ (proj1 (i_coh _ _ _ _ HI)) Hs) as (Hsh & Hdt).
  rewrite (gs_shape _ _ _ _ _ (i_shape _ _ _ _ HI)) in Hsh.
  assert (HE : arr_eq
     (apply_phase (l_omega L) (p_omega0 (l_prof L)) d2 (stepped S (fresh_prop L b')
        (apply_phase (l_omega L) (p_omega0 (l_prof L)) d1 (stepped S (fresh_prop L b') s d1)) d2))
     (apply_phase (l_omega L) (p_omega0 (l_prof L)) (d1 + d2) (stepped S (fresh_prop L b') s (d1 + d2)))).
  { split; [reflexivity|split; [reflexivity|]]. intros i j k (Hi & Hj & Hk).
    unfold dim0, dim1, dim2 in Hi, Hj, Hk. cbn [apply_phase stepped shp] in Hi, Hj, Hk. rewrite Hsh in Hi, Hj, Hk.
    simpl in Hi, Hj, Hk. cbn [apply_phase at3].
    rewrite (stepped_compose S L n0 n1 nt b' s d1 d2 i j k HI HP HA) by (repeat split; assumption).
    rewrite <- time_phase_add. ring. }
  conj; try eassumption.
  - apply np_fft_last_ext, HE.
  - rewrite EL', EL2. cbn [l_grid set_grid]. apply same_meta_window.
    rewrite EL1 in M2. cbn [l_grid set_grid] in M2.
    eapply same_meta_trans; [|apply shift_shift_meta with (g0 := l_grid L) (g1 := g1); [exact M1|exact M2]].
    apply shift_same_meta. clear - M'. destruct M' as (H1&H2&H3&H4&H5&H6&H7&H8&H9&H10).
    unfold same_meta; conj; symmetry; assumption.
Qed.

Lemma c20_reverse S L d b1 b2 a s : reachable S L -> per_frequency S -> additive S -> zero_step S ->
  snd (get_temporal_field (l_grid L)) = Ok a -> snd (get_spectral_field (l_grid L)) = Ok s ->
  exists L1 L2 a2 s2,
    propagate S L d None None b1 = (L1, Ok tt) /\ propagate S L1 (- d) None None b2 = (L2, Ok tt) /\
    snd (get_temporal_field (l_grid L2)) = Ok a2 /\ snd (get_spectral_field (l_grid L2)) = Ok s2 /\
    arr_eq a2 a /\ arr_eq s2 s /\ same_window (l_grid L) (l_grid L2).
Proof.
  intros HR HP HA HZ Ha Hs.
  destruct (c20_compose S L d (- d) b1 b2 HR HP HA) as (L1 & L2 & L' & s2 & s' & t2 & t' & E1 & E2 & E' & S2 & S' & HE & T2 & T' & HT & HW).
  destruct (reachable_Inv S L HR) as (n0 & n1 & nt & HI).
  rewrite Rplus_opp_r in E'.
  destruct (propagate_simple S L n0 n1 nt 0 b1 s HI Hs) as (b' & L0 & g' & U' & E0 & HI' & EL' & M' & G' & F' & SS & TT).
  rewrite E0 in E'. injection E' as E'. subst L0. 
  destruct (sread_shape _ _ (proj1 (i_coh _ _ _ _ HI)) Hs) as (Hsh & Hdt).
  rewrite (gs_shape _ _ _ _ _ (i_shape _ _ _ _ HI)) in Hsh.
  assert (HX : arr_eq s' s).
  { unfold sread in SS. rewrite S' in SS. injection SS as ->.
    split; [reflexivity|split; [reflexivity|]]. intros i j k (Hi & Hj & Hk).
    unfold dim0, dim1, dim2 in Hi, Hj, Hk. cbn [apply_phase stepped shp] in Hi, Hj, Hk. rewrite Hsh in Hi, Hj, Hk.
    simpl in Hi, Hj, Hk. cbn [apply_phase at3]. rewrite time_phase_0.
    rewrite (stepped_zero S L n0 n1 nt b' s i j k HI HZ) by (repeat split; assumption). ring. }
  exists L1, L2, t2, s2. conj; try assumption.
  - eapply arr_eq_trans; [exact HT|].
    eapply arr_eq_trans; [apply (reads_dft _ _ _ (i_coh _ _ _ _ HI') T' S')|].
    eapply arr_eq_trans; [apply np_fft_last_ext, HX|].
    apply arr_eq_sym, (reads_dft _ _ _ (i_coh _ _ _ _ HI) Ha Hs).
  - eapply arr_eq_trans; [exact HE|exact HX].
  - destruct HW as (W1&W2&W3&W4&W5&W6). rewrite EL' in *. cbn [l_grid set_grid] in *.
    pose proof (shift_same_meta _ _ 0 M') as M0. rewrite (shift_0 _ (l_grid L) _ _ _ (i_shape _ _ _ _ HI)) in M0.
    destruct M0 as (V1&V2&V3&V4&V5&V6&V7&_). unfold same_window; conj; congruence.
Qed.

(** ** C22 *)
Lemma stepped_energy S L n0 n1 nt b s d : Inv L n0 n1 nt -> unitary S -> shp s = [n0;n1;nt] ->
  rsum3 n0 n1 nt (fun i j k => cell_volume (l_dim L) (l_grid L) j * Cnorm2 (at3 (stepped S (fresh_prop L b) s d) i j k)) =
  rsum3 n0 n1 nt (fun i j k => cell_volume (l_dim L) (l_grid L) j * Cnorm2 (at3 s i j k)).
Proof.
  intros HI (H1 & H2) Hsh. unfold rsum3. destruct (i_dim _ _ _ _ HI) as [Hd|Hd].
  - destruct (fresh_rt L n0 n1 nt b HI Hd) as (ps & -> & Hps).
    apply rsum_ext; intros i Hi. destruct (Hps i Hi) as (p & Ep & Hn & Lk & Lr & Hax).
    rewrite rsum_swap, (rsum_swap n1 nt). apply rsum_ext; intros k Hk.
    unfold stepped, step_mode; cbn [at3]. rewrite Ep, Hd.
    assert (Hv : forall j, cell_volume Rt (l_grid L) j =
       2 * PI * vget (g_dx (l_grid L)) 0 * (lastR (g_dx (l_grid L)) * c_light) * nth j (rp_r p) 0).
    { intros j. unfold cell_volume. rewrite cell_volume_rt_eq, Hax. unfold vget. ring. }
    set (w := 2 * PI * vget (g_dx (l_grid L)) 0 * (lastR (g_dx (l_grid L)) * c_light)) in *.
    rewrite (rsum_ext n1 _ (fun j => w * (nth j (rp_r p) 0 * Cnorm2 (step_rt S p (fun kk jj => at3 s i jj kk) d k j)))).
    2:{ intros j _. rewrite Hv. ring. }
    rewrite rsum_scal_l, <- Lr, H1 by (assumption || lia).
    rewrite <- rsum_scal_l. apply rsum_ext; intros j _. rewrite Hv. ring.
  - destruct (fresh_xyt L n0 n1 nt b HI Hd) as (p & -> & Lk & Lx & Ly).
    unfold stepped; cbn [at3]. rewrite Hd. cbn [cell_volume].
    assert (Hsw : forall f : nat -> nat -> nat -> R,
      rsum n0 (fun i => rsum n1 (fun j => rsum nt (fun k => cell_volume_xyt (l_grid L) * f i j k))) =
      cell_volume_xyt (l_grid L) * rsum nt (fun k => rsum n0 (fun i => rsum n1 (fun j => f i j k)))).
    { intros f. rewrite rsum_swap. rewrite (rsum_swap nt n0). rewrite rsum_swap.
      rewrite <- rsum_scal_l. apply rsum_ext; intros i _. rewrite (rsum_swap nt n1). rewrite <- rsum_scal_l.
      apply rsum_ext; intros j _. rewrite rsum_scal_l. reflexivity. }
    rewrite !Hsw. f_equal. apply rsum_ext; intros k Hk.
    pose proof (H2 p (fun kk ii jj => at3 s ii jj kk) d k ltac:(lia)) as HX. rewrite Lx, Ly in HX. exact HX.
Qed.

Lemma c22 S L d b : reachable S L -> unitary S ->
  exists L' e, propagate S L d None None b = (L', Ok tt) /\
    snd (compute_laser_energy (l_dim L) (l_grid L)) = Ok e /\
    snd (compute_laser_energy (l_dim L') (l_grid L')) = Ok e.
Proof.
  intros HR HU. destruct (reachable_Inv S L HR) as (n0 & n1 & nt & HI).
  destruct (reachable_read S L HR) as (a & s & Ha & Hs & _).
  destruct (propagate_simple S L n0 n1 nt d b s HI Hs) as (b' & L' & g1 & U1 & E1 & HI1 & EL1 & M1 & G1 & F1 & S1 & T1).
  pose proof (i_coh _ _ _ _ HI) as HG.
  destruct (sread_shape _ _ (proj1 HG) Hs) as (Hsh & Hdt).
  rewrite (gs_shape _ _ _ _ _ (i_shape _ _ _ _ HI)) in Hsh.
  pose proof (gs_pos _ _ _ _ _ (i_shape _ _ _ _ HI)) as (P0 & P1 & P2).
  exists L', (energy_of (l_dim L) (l_grid L) a). split; [exact E1|].
  destruct (compute_energy_eq (l_dim L) _ _ Ha) as (E & _). split; [exact E|].
  destruct (compute_energy_eq (l_dim L') _ _ T1) as (E' & _). rewrite E'. f_equal.
  assert (Hd : l_dim L' = l_dim L) by (rewrite EL1; reflexivity).
  assert (Hv : forall j, cell_volume (l_dim L) (l_grid L') j = cell_volume (l_dim L) (l_grid L) j).
  { intros j. rewrite EL1; cbn [l_grid set_grid].
    rewrite (cell_volume_shift (l_dim L) g1 d j n0 n1 nt); [|eapply GShape_meta; [exact M1|apply (i_shape _ _ _ _ HI)]|apply (i_dim _ _ _ _ HI)].
    destruct M1 as (_ & _ & _ & V4 & V5 & _). unfold cell_volume, cell_volume_rt, cell_volume_xyt. rewrite V4, V5. reflexivity. }
  rewrite Hd. rewrite (energy_of_spectral _ _ _ _ (i_coh _ _ _ _ HI1) T1 S1).
  2:{ unfold dim2; cbn [apply_phase stepped shp]. rewrite Hsh. simpl. lia. }
  rewrite (energy_of_spectral _ _ _ _ HG Ha Hs) by (unfold dim2; rewrite Hsh; simpl; lia).
  rewrite (env_factor_true _ (proj1 (proj1 HG))), (env_factor_true _ (proj1 (proj1 (i_coh _ _ _ _ HI1)))).
  unfold dim0, dim1, dim2; cbn [apply_phase stepped shp]. rewrite Hsh. cbn [nth]. f_equal.
  rewrite <- (stepped_energy S L n0 n1 nt b' s d HI HU Hsh).
  apply rsum3_ext; intros i j k _ _ _. rewrite Hv. cbn [apply_phase at3]. rewrite Cnorm2_mult.
  unfold time_phase. rewrite Cnorm2_cis. rewrite Rmult_1_r. reflexivity.
Qed.
