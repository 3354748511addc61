(** C103: what the analysis functions return for the mirror image of a pulse. *)
From Verif Require Import PyBase CSum NpFFT FFTProofs NumPy NpMath GridModel GridSpec GridProofs GridObs EnergyModel EnergyProofs LaserSpec LaserModel LaserOps LaserInv LaserStepProofs HistoryProofs LaserInitProofs LtiSpec LtiProofs LtiStep LtiMain LtiNorm RotProofs MirrorSpec MirrorProofs AnalysisModel DataModel SpectrumModel MoveMain FrequencyProofs.
Open Scope R_scope.

(** The relation between the two lasers after a history (the first half of the proof of [c103]). *)
Lemma c103_rel bx bY S lo hi np p p' nm nte L L' h : mirror_solver bx bY S ->
  (bx = true -> nth 0 lo 0 = - nth 0 hi 0) -> (bY = true -> nth 1 lo 0 = - nth 1 hi 0) ->
  p_omega0 p' = p_omega0 p -> p_energy p' = p_energy p ->
  (forall x y t, p_eval p' x y t = p_eval p (sign bx x) (sign bY y) t) ->
  laser_init Xyt lo hi np p nm nte = Ok L -> laser_init Xyt lo hi np p' nm nte = Ok L' ->
  exists n0 n1 nt, Par 0 (lrun S L h) (lrun S L' (map (mirror_op bx bY) h)) n0 n1 nt /\
    mrel bx bY (lrun S L h) (lrun S L' (map (mirror_op bx bY) h)) n0 n1 nt.
Proof.
  intros HS Cx Cy Hw HE Hev H H'.
  destruct (laser_init_Inv _ _ _ _ _ _ _ _ H) as (g & n0 & n1 & nt & Hg & A2 & A3 & _ & _ & _ & _ & _ & A9 & HI).
  destruct (grid_init_axes _ _ _ _ _ _ _ Hg) as (_ & _ & Hlen & _ & Hax).
  assert (Hdim : length lo = ndims_of Xyt /\ length hi = ndims_of Xyt).
  { assert (Hex : exists g, grid_init Xyt lo hi np (Some nm) true = Ok g) by eauto. apply grid_init_ok_iff in Hex. tauto. }
  assert (Hsz : forall q, (q < ndims_of Xyt)%nat -> exists n, nth_error np q = Some n /\ (2 <= n)%nat).
  { assert (Hex : exists g, grid_init Xyt lo hi np (Some nm) true = Ok g) by eauto. apply grid_init_ok_iff in Hex. tauto. }
  assert (HP : Par 0 L L' n0 n1 nt).
  { destruct lo as [|l0 lo]; [destruct Hdim; discriminate|]. destruct hi as [|h0 hi]; [destruct Hdim; discriminate|].
    pose proof H' as H2. rewrite <- (later_0 (l0 :: lo)), <- (later_0 (h0 :: hi)) in H2 by discriminate.
    pose proof (init_par _ _ _ _ _ _ _ _ _ _ _ _ _ _ H H2 Hw HI) as HP. rewrite Rmult_0_l in HP. exact HP. }
  assert (N01 : exists N0 N1, nth_error np 0 = Some N0 /\ nth_error np 1 = Some N1 /\ N0 = n0 /\ N1 = n1).
  { destruct (Hax 0%nat ltac:(simpl; lia)) as (N0 & E0 & L0 & _). destruct (Hax 1%nat ltac:(simpl; lia)) as (N1 & E1 & L1 & _).
    destruct (gs_xyt _ _ _ _ _ A9 ltac:(discriminate)) as (G0 & G1). exists N0, N1. repeat split; try assumption; congruence. }
  destruct N01 as (N0 & N1 & E0 & E1 & -> & ->).
  assert (AX : anti bx bY L n0 n1 /\ (forall i, (i < n0)%nat -> axis_at g 0 (flip bx n0 i) = sign bx (axis_at g 0 i)) /\ (forall j, (j < n1)%nat -> axis_at g 1 (flip bY n1 j) = sign bY (axis_at g 1 j))).
  { assert (X0 : forall i, (i < n0)%nat -> axis_at g 0 (flip bx n0 i) = sign bx (axis_at g 0 i)).
    { intros i Hi. rewrite !(axis_coord _ _ _ _ _ _ _ 0 n0 _ Hg ltac:(simpl; lia) E0) by (assumption || apply flip_lt; assumption).
      apply coord_flip; try assumption. destruct (Hsz 0%nat ltac:(simpl; lia)) as (nn & Enn & Hnn). rewrite E0 in Enn. injection Enn as <-. exact Hnn. }
    assert (X1 : forall j, (j < n1)%nat -> axis_at g 1 (flip bY n1 j) = sign bY (axis_at g 1 j)).
    { intros j Hj. rewrite !(axis_coord _ _ _ _ _ _ _ 1 n1 _ Hg ltac:(simpl; lia) E1) by (assumption || apply flip_lt; assumption).
      apply coord_flip; try assumption. destruct (Hsz 1%nat ltac:(simpl; lia)) as (nn & Enn & Hnn). rewrite E1 in Enn. injection Enn as <-. exact Hnn. }
    assert (EA : forall q i, axis_at (l_grid L) q i = axis_at g q i) by (intros q i; destruct A2 as (_ & _ & _ & Z & _); unfold axis_at; rewrite Z; reflexivity).
    split; [|split; assumption]. split; intros; rewrite !EA; [apply X0 | apply X1]; assumption. }
  destruct AX as (HA & X0 & X1).
  assert (HR : mrel bx bY L L' n0 n1 nt).
  { destruct (init_field_full _ _ _ _ _ _ _ _ H) as (g1 & b & G1 & G2 & G3 & G4). rewrite Hg in G1. injection G1 as <-.
    destruct (init_field_full _ _ _ _ _ _ _ _ H') as (g2 & b' & G1' & G2' & G3' & G4'). rewrite Hg in G1'. injection G1' as <-.
    assert (Hat : mirrored bx bY n0 n1 nt (init_arr Xyt g p nm nte) (init_arr Xyt g p' nm nte)).
    { intros i j k Hi Hj Hk. rewrite !init_arr_lin. cbn [init_lin]. rewrite Hev, X0, X1 by assumption. reflexivity. }
    apply (mrel_of_t bx bY _ _ n0 n1 nt b b' HI (pa_inv' _ _ _ _ _ _ HP) G2 G2').
    intros i j k Hi Hj Hk. rewrite G4, G4', Hat, HE by assumption. pose proof (gs_shape _ _ _ _ _ A9) as Hsh.
    rewrite (mirror_energy bx bY g (init_arr Xyt g p nm nte) (init_arr Xyt g p' nm nte) n0 n1 nt ltac:(congruence) ltac:(congruence) Hat). reflexivity. }
  destruct (mirror_run bx bY S h HS L L' n0 n1 nt A3 HP HA HR) as (Q1 & Q2 & _). exists n0, n1, nt. split; assumption.
Qed.

Lemma rsum2_flip bx bY n0 n1 f : rsum n0 (fun i => rsum n1 (fun j => f (flip bx n0 i) (flip bY n1 j))) = rsum n0 (fun i => rsum n1 (fun j => f i j)).
Proof.
  rewrite <- (rsum_flip bx n0 (fun i => rsum n1 (fun j => f i j))). apply rsum_ext. intros i _.
  rewrite <- (rsum_flip bY n1 (fun j => f (flip bx n0 i) j)). reflexivity.
Qed.

Section Two.
Variables (bx bY : bool) (L K : laser) (n0 n1 nt : nat).
Hypothesis HP : Par 0 L K n0 n1 nt.
Hypothesis HR : mrel bx bY L K n0 n1 nt.
Let g := fst (get_temporal_field (l_grid L)).
Let h := fst (get_temporal_field (l_grid K)).
Lemma mi_reads : exists f f', tread (l_grid L) = Ok f /\ shp f = [n0; n1; nt] /\ tread (l_grid K) = Ok f' /\ shp f' = [n0; n1; nt] /\
  mirrored bx bY n0 n1 nt f f'.
Proof.
  destruct (Inv_reads _ _ _ _ (pa_inv _ _ _ _ _ _ HP)) as (f & _ & F1 & F2 & _). destruct (Inv_reads _ _ _ _ (pa_inv' _ _ _ _ _ _ HP)) as (f' & _ & F1' & F2' & _).
  exists f, f'. conj; try assumption. exact (mrel_t bx bY L K n0 n1 nt f f' (pa_inv _ _ _ _ _ _ HP) (pa_inv' _ _ _ _ _ _ HP) HR F1 F1').
Qed.
Lemma mi_meta : same_meta g h.
Proof.
  pose proof (i_shape _ _ _ _ (pa_inv _ _ _ _ _ _ HP)) as G. pose proof (pa_meta _ _ _ _ _ _ HP) as M. rewrite (shift_0 _ _ _ _ _ G) in M.
  assert (X : same_meta (l_grid L) g) by apply get_t_meta. assert (Y : same_meta (l_grid K) h) by apply get_t_meta.
  eapply same_meta_trans; [apply same_meta_sym; exact X | exact (same_meta_trans _ _ _ M Y)].
Qed.
Lemma mi_time : time_axis h = time_axis g.
Proof. destruct mi_meta as (_ & _ & _ & E & _). unfold time_axis. rewrite E. reflexivity. Qed.
Lemma mi_duration : snd (get_duration Xyt (l_grid K)) = snd (get_duration Xyt (l_grid L)).
Proof.
  destruct mi_reads as (f & f' & F1 & F2 & F1' & F2' & Hf). unfold get_duration. rewrite (with_field_snd _ _ f' F1'), (with_field_snd _ _ f F1). fold g h.
  unfold dim2. rewrite F2, F2'. cbn [nth]. rewrite mi_time.
  assert (W : forall k, (k < nt)%nat -> duration_weight Xyt h f' k = duration_weight Xyt g f k).
  { intros k Hk. unfold duration_weight, dim0, dim1. rewrite F2, F2'. cbn [nth].
    rewrite <- (rsum2_flip bx bY n0 n1 (fun i j => Cmod (at3 f i j k) ^ 2 * cell_volume Xyt g j)). apply rsum_ext. intros i Hi. apply rsum_ext. intros j Hj.
    rewrite Hf by assumption. unfold cell_volume, cell_volume_xyt. destruct mi_meta as (_ & _ & _ & _ & E & _). rewrite E. reflexivity. }
  unfold weighted_std. rewrite (average1_ext nt _ (duration_weight Xyt g f) _ _ (fun _ _ => eq_refl) W).
  destruct (average1 nt _ (duration_weight Xyt g f)) as [m|e]; [|reflexivity]. cbn [bind].
  rewrite (average1_ext nt _ (duration_weight Xyt g f) _ _ (fun _ _ => eq_refl) W). reflexivity.
Qed.
Lemma mi_spectrum range bins w :
  snd (get_spectrum Xyt (l_grid K) range bins w MSum) = snd (get_spectrum Xyt (l_grid L) range bins w MSum).
Proof.
  destruct mi_reads as (f & f' & F1 & F2 & F1' & F2' & Hf). unfold get_spectrum. rewrite (with_field_snd _ _ f' F1'), (with_field_snd _ _ f F1). fold g h.
  pose proof mi_meta as (_ & _ & _ & _ & Edx & _ & _ & Esh & Eenv & _).
  assert (Fr : forall k, spectrum_freq h k = spectrum_freq g k) by (intros k; unfold spectrum_freq; rewrite mi_time, Esh; reflexivity).
  assert (Ke : forall w0, kept_env h f' w0 = kept_env g f w0).
  { intros w0. unfold kept_env, dim2. rewrite F2, F2'. f_equal. f_equal. apply map_ext. intros k. rewrite Fr. reflexivity. }
  assert (Kr : kept_real h f' = kept_real g f).
  { unfold kept_real, dim2. rewrite F2, F2'. apply map_ext. intros k. rewrite Fr. reflexivity. }
  assert (Den : forall i j k, (i < n0)%nat -> (j < n1)%nat -> sp_density h f' i j k = sp_density g f (flip bx n0 i) (flip bY n1 j) k).
  { intros i j k Hi Hj. unfold sp_density, sp_raw. rewrite Eenv, Edx. unfold dim2. rewrite F2, F2'. cbn [nth]. cbv zeta.
    rewrite (fft1_ext nt (fun q => at3 f' i j q) (fun q => at3 f (flip bx n0 i) (flip bY n1 j) q)) by (intros q Hq; apply Hf; assumption). reflexivity. }
  assert (Val : forall kept, sp_values Xyt h f' MSum kept = sp_values Xyt g f MSum kept).
  { intros kept. unfold sp_values, dim0, dim1. rewrite F2, F2'. cbn [nth]. cbv zeta. f_equal. apply map_ext. intros k. rewrite Edx.
    assert (Vx : cell_volume_xyt h = cell_volume_xyt g) by (unfold cell_volume_xyt; rewrite Edx; reflexivity). rewrite Vx.
    rewrite <- (rsum2_flip bx bY n0 n1 (fun i j => sp_density g f i j k * cell_volume_xyt g / (lastR (g_dx g) * c_light))).
    apply rsum_ext. intros i Hi. apply rsum_ext. intros j Hj. rewrite Den by assumption. reflexivity. }
  rewrite Eenv, Kr. destruct (g_isenv g); [destruct w as [w|]; [rewrite Ke|reflexivity]|]; cbn [bind]; rewrite Val; reflexivity.
Qed.
End Two.
