(** C105: what the analysis functions return for the mirror image of an azimuthally decomposed pulse. *)
From Verif Require Import PyBase CSum NpFFT FFTProofs NumPy NpMath GridModel GridSpec GridProofs GridObs EnergyModel EnergyProofs LaserSpec LaserModel LaserOps LaserInv LaserStepProofs HistoryProofs LaserInitProofs LtiSpec LtiProofs LtiStep LtiMain LtiNorm RotProofs MirrorSpec MirrorProofs MirrorRtSpec MirrorRtProofs AnalysisModel DataModel SpectrumModel MoveMain FrequencyProofs.
Open Scope R_scope.

(** The relation between the two lasers after a history (the first half of the proof of [c105]). *)
Lemma c105_rel S lo hi np p p' nm nte L L' h : mirror_rt_solver S ->
  p_omega0 p' = p_omega0 p -> p_energy p' = p_energy p ->
  (forall x y t, p_eval p' x y t = p_eval p x (- y) t) ->
  laser_init Rt lo hi np p nm nte = Ok L -> laser_init Rt lo hi np p' nm nte = Ok L' -> Forall no_resample h ->
  exists n0 n1 nt, Par 0 (lrun S L h) (lrun S L' h) n0 n1 nt /\ srel (lrun S L h) (lrun S L' h) n0 n1 nt.
Proof.
  intros HS Hw HE Hev H H' Hh.
  destruct (laser_init_Inv _ _ _ _ _ _ _ _ H) as (g & n0 & n1 & nt & Hg & A2 & A3 & _ & _ & _ & _ & _ & A9 & HI).
  destruct (grid_init_GShape_rt _ _ _ _ _ _ Hg) as (n1'' & nt'' & _ & _ & HM & GS').
  assert (Q : [(2 * Z.to_nat nm - 1)%nat; n1''; nt''] = [n0; n1; nt]) by (rewrite <- (gs_shape _ _ _ _ _ GS'), <- (gs_shape _ _ _ _ _ A9); reflexivity).
  assert (Q0 : n0 = (2 * Z.to_nat nm - 1)%nat) by congruence. clear Q GS' n1'' nt''.
  set (M := Z.to_nat nm) in *. assert (Enm : nm = Z.of_nat M) by lia. clearbody M. subst nm.
  assert (Hn : (2 * Z.of_nat M - 1 <= match nte with None => 2 * Z.of_nat M - 1 | Some n => n end)%Z).
  { pose proof H as H0. unfold laser_init in H0. rewrite Hg in H0. cbn [bind] in H0.
    destruct (Z.ltb_spec (match nte with None => 2 * Z.of_nat M - 1 | Some n => n end) (2 * Z.of_nat M - 1)); [discriminate|lia]. }
  assert (Hdim : length lo = ndims_of Rt /\ length hi = ndims_of Rt).
  { assert (Hex : exists g, grid_init Rt lo hi np (Some (Z.of_nat M)) true = Ok g) by eauto. apply grid_init_ok_iff in Hex. tauto. }
  assert (HP : Par 0 L L' n0 n1 nt).
  { destruct lo as [|l0 lo]; [destruct Hdim; discriminate|]. destruct hi as [|h0 hi]; [destruct Hdim; discriminate|].
    pose proof H' as H2. rewrite <- (later_0 (l0 :: lo)), <- (later_0 (h0 :: hi)) in H2 by discriminate.
    pose proof (init_par _ _ _ _ _ _ _ _ _ _ _ _ _ _ H H2 Hw HI) as HP. rewrite Rmult_0_l in HP. exact HP. }
  assert (HR : srel L L' n0 n1 nt).
  { destruct (init_field_full _ _ _ _ _ _ _ _ H) as (g1 & b & G1 & G2 & G3 & G4). rewrite Hg in G1. injection G1 as <-.
    destruct (init_field_full _ _ _ _ _ _ _ _ H') as (g2 & b' & G1' & G2' & G3' & G4'). rewrite Hg in G1'. injection G1' as <-.
    pose proof (init_opp g p p' M nte n0 n1 nt Hev Hn ltac:(lia) Q0) as Hat.
    apply (srel_of_t _ _ n0 n1 nt b b' HI (pa_inv' _ _ _ _ _ _ HP) G2 G2').
    intros i j k Hi Hj Hk. rewrite G4, G4', Hat, HE by assumption. pose proof (gs_shape _ _ _ _ _ A9) as Hsh.
    rewrite (swap_energy g (init_arr Rt g p (Z.of_nat M) nte) (init_arr Rt g p' (Z.of_nat M) nte) n0 n1 nt ltac:(congruence) ltac:(congruence) Hat). reflexivity. }
  destruct (swap_run S h HS Hh L L' n0 n1 nt A3 HP HR) as (R1 & R2 & _). exists n0, n1, nt. split; assumption.
Qed.

Section Two.
Variables (L K : laser) (n0 n1 nt : nat).
Hypothesis HP : Par 0 L K n0 n1 nt.
Hypothesis HR : srel L K n0 n1 nt.
Let g := fst (get_temporal_field (l_grid L)).
Let h := fst (get_temporal_field (l_grid K)).
Lemma ro_reads : exists f f', tread (l_grid L) = Ok f /\ shp f = [n0; n1; nt] /\ tread (l_grid K) = Ok f' /\ shp f' = [n0; n1; nt] /\
  swapped n0 n1 nt f f'.
Proof.
  destruct (Inv_reads _ _ _ _ (pa_inv _ _ _ _ _ _ HP)) as (f & _ & F1 & F2 & _). destruct (Inv_reads _ _ _ _ (pa_inv' _ _ _ _ _ _ HP)) as (f' & _ & F1' & F2' & _).
  exists f, f'. conj; try assumption. exact (srel_t L K n0 n1 nt f f' (pa_inv _ _ _ _ _ _ HP) (pa_inv' _ _ _ _ _ _ HP) HR F1 F1').
Qed.
Lemma ro_meta : same_meta g h.
Proof.
  pose proof (i_shape _ _ _ _ (pa_inv _ _ _ _ _ _ HP)) as G. pose proof (pa_meta _ _ _ _ _ _ HP) as M. rewrite (shift_0 _ _ _ _ _ G) in M.
  assert (X : same_meta (l_grid L) g) by apply get_t_meta. assert (Y : same_meta (l_grid K) h) by apply get_t_meta.
  eapply same_meta_trans; [apply same_meta_sym; exact X | exact (same_meta_trans _ _ _ M Y)].
Qed.
Lemma ro_time : time_axis h = time_axis g.
Proof. destruct ro_meta as (_ & _ & _ & E & _). unfold time_axis. rewrite E. reflexivity. Qed.
Lemma ro_cell j : cell_volume_rt h j = cell_volume_rt g j.
Proof. destruct ro_meta as (_ & _ & _ & A & B & _). unfold cell_volume_rt. rewrite ?A, ?B. reflexivity. Qed.
Lemma ro_duration : snd (get_duration Rt (l_grid K)) = snd (get_duration Rt (l_grid L)).
Proof.
  destruct ro_reads as (f & f' & F1 & F2 & F1' & F2' & Hf). unfold get_duration. rewrite (with_field_snd _ _ f' F1'), (with_field_snd _ _ f F1). fold g h.
  unfold dim2. rewrite F2, F2'. cbn [nth]. rewrite ro_time.
  assert (W : forall k, (k < nt)%nat -> duration_weight Rt h f' k = duration_weight Rt g f k).
  { intros k Hk. unfold duration_weight, dim0, dim1. rewrite F2, F2'. cbn [nth].
    rewrite <- (rsum_opp n0 (fun i => rsum n1 (fun j => Cmod (at3 f i j k) ^ 2 * cell_volume Rt g j))). apply rsum_ext. intros i Hi. apply rsum_ext. intros j Hj.
    rewrite Hf by assumption. cbn [cell_volume]. rewrite ro_cell. reflexivity. }
  unfold weighted_std. rewrite (average1_ext nt _ (duration_weight Rt g f) _ _ (fun _ _ => eq_refl) W).
  destruct (average1 nt _ (duration_weight Rt g f)) as [m|e]; [|reflexivity]. cbn [bind].
  rewrite (average1_ext nt _ (duration_weight Rt g f) _ _ (fun _ _ => eq_refl) W). reflexivity.
Qed.
Lemma ro_spectrum range bins w m : m = MSum \/ m = MOnAxis ->
  snd (get_spectrum Rt (l_grid K) range bins w m) = snd (get_spectrum Rt (l_grid L) range bins w m).
Proof.
  intros Hm. destruct ro_reads as (f & f' & F1 & F2 & F1' & F2' & Hf). unfold get_spectrum. rewrite (with_field_snd _ _ f' F1'), (with_field_snd _ _ f F1). fold g h.
  pose proof (gs_pos _ _ _ _ _ (i_shape _ _ _ _ (pa_inv _ _ _ _ _ _ HP))) as (P0 & P1 & P2). pose proof ro_meta as (_ & _ & _ & _ & Edx & _ & _ & Esh & Eenv & _).
  assert (Fr : forall k, spectrum_freq h k = spectrum_freq g k) by (intros k; unfold spectrum_freq; rewrite ro_time, Esh; reflexivity).
  assert (Ke : forall w0, kept_env h f' w0 = kept_env g f w0).
  { intros w0. unfold kept_env, dim2. rewrite F2, F2'. f_equal. f_equal. apply map_ext. intros k. rewrite Fr. reflexivity. }
  assert (Kr : kept_real h f' = kept_real g f).
  { unfold kept_real, dim2. rewrite F2, F2'. apply map_ext. intros k. rewrite Fr. reflexivity. }
  assert (Den : forall i j k, (i < n0)%nat -> (j < n1)%nat -> sp_density h f' i j k = sp_density g f (opposite n0 i) j k).
  { intros i j k Hi Hj. unfold sp_density, sp_raw. rewrite Eenv, Edx. unfold dim2. rewrite F2, F2'. cbn [nth]. cbv zeta.
    rewrite (fft1_ext nt (fun q => at3 f' i j q) (fun q => at3 f (opposite n0 i) j q)) by (intros q Hq; apply Hf; assumption). reflexivity. }
  assert (Val : forall kept, sp_values Rt h f' m kept = sp_values Rt g f m kept).
  { intros kept. unfold sp_values, dim0, dim1. rewrite F2, F2'. cbn [nth]. cbv zeta.
    assert (Ops : opposite n0 0 = 0%nat) by reflexivity.
    destruct Hm as [-> | ->]; f_equal; apply map_ext; intros k.
    - rewrite Edx. apply rsum_ext. intros j Hj. rewrite Den, Ops by lia. rewrite ro_cell. reflexivity.
    - rewrite Den, Ops by lia. reflexivity. }
  rewrite Eenv, Kr. destruct (g_isenv g); [destruct w as [w|]; [rewrite Ke|reflexivity]|]; cbn [bind]; rewrite Val; reflexivity.
Qed.
End Two.
