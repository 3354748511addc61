(** C96: pulses made by CombinedLongitudinalTransverseProfile are products of a transverse and a longitudinal part and
    stay so under calls that act on the colours only. *)
From Verif Require Import PyBase CSum NpFFT FFTProofs NumPy GridModel GridSpec GridProofs GridObs EnergyModel EnergyProofs LaserSpec LaserModel LaserOps LaserInv LaserStepProofs HistoryProofs LaserInitProofs LaserExamples OpticsModel AnalysisModel ProfileModel AnalyticModel LtiSpec LtiMain LtiNorm SepSpec SepProofs.
Open Scope R_scope.

(** Cartesian: after any history of spectral elements, normalizations and writes, the field is one positive constant times
    T(x_i, y_j) times the longitudinal samples passed through the product of the elements; T is untouched, the trace in
    time does not depend on T. *)
Theorem C96_product_xyt :
  forall S lo hi n0 n1 nt wl pol en long trans p nm nte L h,
  combined_profile wl pol en long trans = Ok p -> energy_positive en ->
  laser_init Xyt lo hi [n0; n1; nt] p nm nte = Ok L -> window_ok Xyt lo hi -> Forall colour_op h ->
  exists a c, 0 < c /\ snd (get_temporal_field (l_grid (lrun S L h))) = Ok a /\ shp a = [n0; n1; nt] /\
    forall i j k, (i < n0)%nat -> (j < n1)%nat -> (k < nt)%nat ->
      at3 a i j k = Cmult (RtoC c) (Cmult
        (trans (coord (nth 0 lo 0) (nth 0 hi 0) n0 i) (coord (nth 1 lo 0) (nth 1 hi 0) n1 j))
        (shaped nt (spacing (nth 2 lo 0) (nth 2 hi 0) nt) (2 * PI * c_light / wl) h (trace long (nth 2 lo 0) (nth 2 hi 0) nt) k)).
Proof. exact c96_xyt. Qed.
Print Assumptions C96_product_xyt.
(** Cylindrical: the component of azimuthal mode m is that of T. *)
Theorem C96_product_rt :
  forall S lo hi np n1 nt wl pol en long trans p M nte L h (K : nat) (A : Z -> R -> C),
  combined_profile wl pol en long trans = Ok p -> energy_positive en ->
  laser_init Rt lo hi np p (Z.of_nat M) nte = Ok L -> nth_error np 0 = Some n1 -> nth_error np 1 = Some nt -> window_ok Rt lo hi ->
  (forall r theta, trans (r * cos theta) (r * sin theta) = recon (Datatypes.S K) (fun m => A m r) theta) ->
  (Z.of_nat K + Z.of_nat M <= match nte with None => 2 * Z.of_nat M - 1 | Some n => n end)%Z ->
  Forall colour_op h ->
  exists a c, 0 < c /\ snd (get_temporal_field (l_grid (lrun S L h))) = Ok a /\ shp a = [(2 * M - 1)%nat; n1; nt] /\
    forall m j k, (- Z.of_nat M < m < Z.of_nat M)%Z -> (j < n1)%nat -> (k < nt)%nat ->
      at3 a (mode_slot M m) j k = Cmult (RtoC c) (Cmult
        (if (Z.abs m <=? Z.of_nat K)%Z then A m (coord (nth 0 lo 0) (nth 0 hi 0) n1 j) else RtoC 0)
        (shaped nt (spacing (nth 1 lo 0) (nth 1 hi 0) nt) (2 * PI * c_light / wl) h (trace long (nth 1 lo 0) (nth 1 hi 0) nt) k)).
Proof. exact c96_rt. Qed.
Print Assumptions C96_product_rt.
(** Without calls the trace in time is the longitudinal profile itself. *)
Theorem C96_unshaped : forall nt dt w0 x k, (k < nt)%nat -> shaped nt dt w0 [] x k = x k.
Proof. exact shaped_nil. Qed.
Print Assumptions C96_unshaped.
(** get_duration depends on the longitudinal profile, the time axis and the spectral elements only: not on the transverse
    profile, the geometry, the transverse grid, the polarization or the energy. *)
Theorem C96_duration :
  forall S S' wl pol pol' en en' long trans trans' p p' d d' lo hi lo' hi' np np' nm nm' nte nte' nt L L' h,
  combined_profile wl pol en long trans = Ok p -> combined_profile wl pol' en' long trans' = Ok p' ->
  laser_init d lo hi np p nm nte = Ok L -> laser_init d' lo' hi' np' p' nm' nte' = Ok L' ->
  window_ok d lo hi -> window_ok d' lo' hi' ->
  nth_error np (ndims_of d - 1) = Some nt -> nth_error np' (ndims_of d' - 1) = Some nt ->
  nth (ndims_of d - 1) lo 0 = nth (ndims_of d' - 1) lo' 0 -> nth (ndims_of d - 1) hi 0 = nth (ndims_of d' - 1) hi' 0 ->
  snd (compute_laser_energy d (l_grid L)) <> Ok 0 -> snd (compute_laser_energy d' (l_grid L')) <> Ok 0 ->
  Forall colour_op h ->
  snd (get_duration d (l_grid (lrun S L h))) = snd (get_duration d' (l_grid (lrun S' L' h))).
Proof. exact c96_duration. Qed.
Print Assumptions C96_duration.
(** The amplitudes of the two parts do not matter when an energy is requested: multiplying T by u and L by v changes the
    field by the constant phase u v / |u v|. *)
Theorem C96_amplitude :
  forall wl pol pol' E long long' trans trans' p p' (u v : C) d lo hi np nm nte L L',
  combined_profile wl pol (Some E) long trans = Ok p -> combined_profile wl pol' (Some E) long' trans' = Ok p' ->
  (forall x y, trans' x y = Cmult u (trans x y)) -> (forall t, long' t = Cmult v (long t)) -> u <> RtoC 0 -> v <> RtoC 0 -> 0 <= E ->
  window_ok d lo hi ->
  laser_init d lo hi np p nm nte = Ok L -> laser_init d lo hi np p' nm nte = Ok L' -> snd (compute_laser_energy d (l_grid L)) <> Ok 0 ->
  g_axes (l_grid L') = g_axes (l_grid L) /\
  exists a a', snd (get_temporal_field (l_grid L)) = Ok a /\ snd (get_temporal_field (l_grid L')) = Ok a' /\ shp a' = shp a /\
    forall i j k, inb a i j k -> at3 a' i j k = Cmult (Cdiv (Cmult u v) (RtoC (Cmod (Cmult u v)))) (at3 a i j k).
Proof. exact c96_amplitude. Qed.
Print Assumptions C96_amplitude.

(** The hypotheses are met: a Gaussian times a chirped Gaussian with 2 J, on a Cartesian and on a cylindrical grid, and a
    history with a stretcher, a normalization and another stretcher. *)
Definition c96_long (t : R) : C := Cmult (RtoC (exp (- t ^ 2))) (cis (t ^ 2)).
Definition c96_trans (x y : R) : C := RtoC (exp (- (x ^ 2 + y ^ 2))).
Definition c96_history : list lop :=
  [OpOptics (polynomial_spectral_phase 1 2 3); OpNormalize (Some 3) KField; OpWrite (fun _ _ _ => Ok tt); OpOptics (polynomial_spectral_phase (-1) 0 2)].
Example C96_history_ok : Forall colour_op c96_history.
Proof. repeat constructor; cbn; try lra; intros x y x' y' w w0; reflexivity. Qed.
Lemma energy_nonzero_at d g a i j k : tread g = Ok a -> vol_nonneg d g (dim1 a) -> inb a i j k -> 0 < cell_volume d g j -> at3 a i j k <> RtoC 0 ->
  snd (compute_laser_energy d g) <> Ok 0.
Proof.
  intros Ha HV (Hi & Hj & Hk) Hv Hn. destruct (compute_energy_eq d g a Ha) as (-> & _). intros [= H0]. rewrite energy_of_eq in H0.
  assert (Hz : rsum3 (dim0 a) (dim1 a) (dim2 a) (fun i j k => cell_volume d g j * Cnorm2 (at3 a i j k)) = 0).
  { pose proof (env_factor_pos g). pose proof eps0_pos. apply Rmult_integral in H0. destruct H0 as [H0|H0]; [|exact H0].
    apply Rmult_integral in H0. lra. }
  pose proof (rsum3_zero _ _ _ _ (fun i j k _ Hj _ => Rmult_le_pos _ _ (HV j Hj) (Cnorm2_nonneg (at3 a i j k))) Hz i j k Hi Hj Hk) as Hc.
  apply Rmult_integral in Hc. destruct Hc as [Hc|Hc]; [lra|]. pose proof (Cnorm2_pos _ Hn). lra.
Qed.
Lemma c96_nonzero p wl pol en d lo hi np nm nte L i j k a : combined_profile wl pol en c96_long c96_trans = Ok p ->
  laser_init d lo hi np p nm nte = Ok L -> window_ok d lo hi ->
  snd (get_temporal_field (l_grid L)) = Ok a -> inb a i j k -> at3 a i j k <> RtoC 0 -> (d = Rt -> 0 < axis_at (l_grid L) 0 j) ->
  snd (compute_laser_energy d (l_grid L)) <> Ok 0.
Proof.
  intros _ H (W1 & W2) Ha Hb Hn Hr. destruct (laser_init_Inv _ _ _ _ _ _ _ _ H) as (g & n0 & n1 & nt & A1 & A2 & A3 & _ & _ & _ & _ & _ & A9 & A10).
  pose proof (laser_cells _ _ _ _ _ _ _ _ H W1 W2) as PC. rewrite A3 in PC.
  assert (Hd : d = Rt \/ d = Xyt) by (rewrite <- A3; apply (i_dim _ _ _ _ A10)).
  apply (energy_nonzero_at d (l_grid L) a i j k); try assumption; [apply pc_vol; assumption|].
  assert (Ld : length (g_dx (l_grid L)) = ndims_of d).
  { destruct (grid_init_axes _ _ _ _ _ _ _ A1) as (_ & _ & _ & Ld & _). destruct A2 as (_ & _ & _ & _ & Z & _). rewrite Z. exact Ld. }
  destruct PC as (P1 & _). pose proof c_light_pos. pose proof PI_RGT_0. destruct Hd as [-> | ->]; cbn [cell_volume ndims_of] in *.
  - specialize (Hr eq_refl). rewrite cell_volume_rt_eq. unfold axis_at in Hr. destruct (g_dx (l_grid L)) as [|x [|y [|z l]]]; try discriminate.
    inversion P1 as [|? ? X1 X2]; subst. inversion X2; subst. cbn [vget nth lastR last]. unfold lastR; cbn [last].
    apply Rmult_lt_0_compat; [|apply Rmult_lt_0_compat; assumption]. apply Rmult_lt_0_compat; [|assumption].
    apply Rmult_lt_0_compat; [lra|exact Hr].
  - unfold cell_volume_xyt. destruct (g_dx (l_grid L)) as [|x [|y [|z [|u l]]]]; try discriminate.
    inversion P1 as [|? ? X1 X2]; subst. inversion X2 as [|? ? Y1 Y2]; subst. inversion Y2; subst. unfold lastR; cbn [vget nth last].
    apply Rmult_lt_0_compat; apply Rmult_lt_0_compat; assumption.
Qed.
Lemma c96_factor_nonzero c x y t : 0 < c -> Cmult (RtoC c) (Cmult (c96_trans x y) (c96_long t)) <> RtoC 0.
Proof.
  intros Hc. unfold c96_trans, c96_long.
  assert (forall r, r <> 0 -> RtoC r <> RtoC 0) by (intros r Hr E; apply Hr; injection E; auto).
  pose proof (exp_pos (- (x ^ 2 + y ^ 2))). pose proof (exp_pos (- t ^ 2)).
  repeat apply Cmult_neq_0; try (apply H; lra). intros E. apply (f_equal Cmod) in E. rewrite Cmod_cis, Cmod_0 in E. lra.
Qed.
Example C96_nonvacuous : exists p, combined_profile 1 [RtoC 1; RtoC 0] (Some 2) c96_long c96_trans = Ok p /\
  (exists L, laser_init Xyt [-1;-2;-3] [1;2;4] [4;3;5]%nat p 1 None = Ok L /\ window_ok Xyt [-1;-2;-3] [1;2;4] /\ snd (compute_laser_energy Xyt (l_grid L)) <> Ok 0) /\
  (exists L, laser_init Rt [0;-3] [2;4] [4;5]%nat p (Z.of_nat 2) None = Ok L /\ window_ok Rt [0;-3] [2;4] /\ snd (compute_laser_energy Rt (l_grid L)) <> Ok 0) /\
  (forall r theta, c96_trans (r * cos theta) (r * sin theta) = recon 1 (fun m => RtoC (exp (- r ^ 2))) theta).
Proof.
  eexists. split; [reflexivity|].
  set (p := {| p_omega0 := _ |}).
  assert (Hp : combined_profile 1 [RtoC 1; RtoC 0] (Some 2) c96_long c96_trans = Ok p) by reflexivity.
  assert (W1 : window_ok Xyt [-1;-2;-3] [1;2;4]).
  { split; [|discriminate]. intros q Hq. cbn in Hq. destruct q as [|[|[|q]]]; [cbn; lra..|lia]. }
  assert (W2 : window_ok Rt [0;-3] [2;4]).
  { split; [|intros _; cbn; lra]. intros q Hq. cbn in Hq. destruct q as [|[|q]]; [cbn; lra..|lia]. }
  assert (HT : forall r theta, c96_trans (r * cos theta) (r * sin theta) = recon 1 (fun m => RtoC (exp (- r ^ 2))) theta).
  { intros r theta. unfold recon, c96_trans. cbn [Nat.mul Nat.sub Nat.add csum]. cbn zeta.
    replace (- (IZR (Z.of_nat 0 - (Z.of_nat 1 - 1)) * theta)) with 0 by (cbn; ring). rewrite cis_0.
    replace ((r * cos theta) ^ 2 + (r * sin theta) ^ 2) with (r ^ 2); [ring|].
    pose proof (sin2_cos2 theta) as E. unfold Rsqr in E. replace (r ^ 2) with (r ^ 2 * (sin theta * sin theta + cos theta * cos theta)) by (rewrite E; ring). ring. }
  split; [|split].
  - destruct (xyt_construct_ok [-1;-2;-3] [1;2;4] 4 3 5 p 1 None) as (L & H); try (cbn; (lia || lra)); try reflexivity.
    exists L. split; [exact H|]. split; [exact W1|].
    destruct (C96_product_xyt id_solvers _ _ _ _ _ _ _ _ _ _ _ _ _ L [] Hp ltac:(cbn; lra) H W1 (Forall_nil _)) as (a & c & Hc & Ha & Sa & Hv).
    cbn [lrun] in Ha.
    assert (Hin : inb a 0 0 0) by (unfold inb, dim0, dim1, dim2; rewrite Sa; cbn; lia).
    apply (c96_nonzero _ _ _ _ _ _ _ _ _ _ _ 0%nat 0%nat 0%nat a Hp H W1 Ha Hin); [|discriminate].
    rewrite Hv, C96_unshaped by lia. apply c96_factor_nonzero, Hc.
  - destruct (rt_construct_ok [0;-3] [2;4] [4;5]%nat 4 5 p 2 None) as (L & H); try (cbn; (lia || lra)); try reflexivity.
    exists L. split; [exact H|]. split; [exact W2|].
    destruct (C96_product_rt id_solvers _ _ _ 4 5 _ _ _ _ _ _ 2 _ L [] 0 (fun m r => RtoC (exp (- r ^ 2))) Hp ltac:(cbn; lra) H eq_refl eq_refl W2 HT ltac:(cbn; lia) (Forall_nil _)) as (a & c & Hc & Ha & Sa & Hv).
    cbn [lrun] in Ha.
    assert (Hin : inb a (mode_slot 2 0) 1 0) by (unfold inb, dim0, dim1, dim2; rewrite Sa; cbn; lia).
    apply (c96_nonzero _ _ _ _ _ _ _ _ _ _ _ (mode_slot 2 0) 1%nat 0%nat a Hp H W2 Ha Hin).
    + rewrite Hv, C96_unshaped by lia. cbn [Z.abs Z.of_nat Z.leb Z.compare].
      replace (RtoC (exp (- coord (nth 0 [0; -3] 0) (nth 0 [2; 4] 0) 4 1 ^ 2))) with (c96_trans (coord (nth 0 [0; -3] 0) (nth 0 [2; 4] 0) 4 1) 0).
      * apply c96_factor_nonzero, Hc.
      * unfold c96_trans. do 3 f_equal. ring.
    + intros _. destruct (laser_init_Inv _ _ _ _ _ _ _ _ H) as (g & n0 & n1 & nt & A1 & A2 & _). unfold axis_at.
      destruct A2 as (_ & _ & _ & Z & _). rewrite Z.
      pose proof (axis_coord _ _ _ _ _ _ _ 0 4 1 A1 ltac:(cbn; lia) eq_refl ltac:(lia)) as AC. unfold axis_at in AC. rewrite AC. unfold coord. cbn. lra.
  - exact HT.
Qed.
