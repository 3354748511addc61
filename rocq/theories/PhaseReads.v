(** C98: what the analysis functions return for a pulse with another carrier-envelope phase. *)
From Verif Require Import PyBase CSum NpFFT FFTProofs NumPy NpMath GridModel GridSpec GridProofs GridObs EnergyModel EnergyProofs LaserSpec LaserModel LaserOps LaserInv LaserStepProofs HistoryProofs LtiSpec LtiProofs LtiStep LtiMain LtiNorm RotProofs AnalysisModel DataModel SpectrumModel MoveMain FrequencyProofs.
Open Scope R_scope.

Section Two.
Variables (d : pydim) (L K : laser) (n0 n1 nt : nat) (u : C).
Hypothesis Hd : l_dim L = d.
Hypothesis Hu : Cmod u = 1.
Hypothesis HP : Par 0 L K n0 n1 nt.
Hypothesis HR : phase_rel (fun _ => u) L K n0 n1 nt.
Let g := fst (get_temporal_field (l_grid L)).
Let h := fst (get_temporal_field (l_grid K)).
Lemma ph_reads : exists f f', tread (l_grid L) = Ok f /\ shp f = [n0; n1; nt] /\ tread (l_grid K) = Ok f' /\ shp f' = [n0; n1; nt] /\
  (forall i j k, (i < n0)%nat -> (j < n1)%nat -> (k < nt)%nat -> at3 f' i j k = Cmult u (at3 f i j k)).
Proof.
  destruct (Inv_reads _ _ _ _ (pa_inv _ _ _ _ _ _ HP)) as (f & _ & F1 & F2 & _). destruct (Inv_reads _ _ _ _ (pa_inv' _ _ _ _ _ _ HP)) as (f' & _ & F1' & F2' & _).
  exists f, f'. conj; try assumption. exact (phase_rel_t (fun _ => u) L K n0 n1 nt f f' (pa_inv _ _ _ _ _ _ HP) (pa_inv' _ _ _ _ _ _ HP) HR F1 F1').
Qed.
Lemma ph_meta : same_meta g h /\ GShape d g n0 n1 nt.
Proof.
  pose proof (i_shape _ _ _ _ (pa_inv _ _ _ _ _ _ HP)) as G. pose proof (pa_meta _ _ _ _ _ _ HP) as M. rewrite (shift_0 _ _ _ _ _ G) in M. rewrite Hd in G.
  assert (X : same_meta (l_grid L) g) by apply get_t_meta. assert (Y : same_meta (l_grid K) h) by apply get_t_meta.
  split; [eapply same_meta_trans; [apply same_meta_sym; exact X | exact (same_meta_trans _ _ _ M Y)] | eapply GShape_meta; [exact X | exact G]].
Qed.
Lemma ph_time : time_axis h = time_axis g.
Proof. destruct ph_meta as ((_ & _ & _ & E & _) & _). unfold time_axis. rewrite E. reflexivity. Qed.
Lemma ph_cell j : cell_volume d h j = cell_volume d g j.
Proof. destruct ph_meta as ((_ & _ & _ & A & B & _) & _). unfold cell_volume, cell_volume_xyt, cell_volume_rt. rewrite ?A, ?B. destruct d; reflexivity. Qed.
Lemma ph_duration : snd (get_duration d (l_grid K)) = snd (get_duration d (l_grid L)).
Proof.
  destruct ph_reads as (f & f' & F1 & F2 & F1' & F2' & Hf). unfold get_duration. rewrite (with_field_snd _ _ f' F1'), (with_field_snd _ _ f F1). fold g h.
  unfold dim2. rewrite F2, F2'. cbn [nth]. rewrite ph_time.
  assert (W : forall k, (k < nt)%nat -> duration_weight d h f' k = duration_weight d g f k).
  { intros k Hk. unfold duration_weight, dim0, dim1. rewrite F2, F2'. cbn [nth]. apply rsum_ext. intros i Hi. apply rsum_ext. intros j Hj.
    rewrite ph_cell, Hf by assumption. rewrite Cmod_mult, Hu, Rmult_1_l. reflexivity. }
  unfold weighted_std. rewrite (average1_ext nt _ (duration_weight d g f) _ _ (fun _ _ => eq_refl) W).
  destruct (average1 nt _ (duration_weight d g f)) as [m|e]; [|reflexivity]. cbn [bind].
  rewrite (average1_ext nt _ (duration_weight d g f) _ _ (fun _ _ => eq_refl) W). reflexivity.
Qed.
Lemma ph_spectrum range bins w m : m = MSum \/ m = MOnAxis ->
  snd (get_spectrum d (l_grid K) range bins w m) = snd (get_spectrum d (l_grid L) range bins w m).
Proof.
  intros Hm. destruct ph_reads as (f & f' & F1 & F2 & F1' & F2' & Hf). unfold get_spectrum. rewrite (with_field_snd _ _ f' F1'), (with_field_snd _ _ f F1). fold g h.
  destruct ph_meta as (M & GS). pose proof M as (_ & _ & _ & _ & Edx & _ & _ & Esh & Eenv & _). pose proof (gs_pos _ _ _ _ _ GS) as (P0 & P1 & P2).
  assert (Fr : forall k, spectrum_freq h k = spectrum_freq g k) by (intros k; unfold spectrum_freq; rewrite ph_time, Esh; reflexivity).
  assert (Ke : forall w0, kept_env h f' w0 = kept_env g f w0).
  { intros w0. unfold kept_env, dim2. rewrite F2, F2'. f_equal. f_equal. apply map_ext. intros k. rewrite Fr. reflexivity. }
  assert (Kr : kept_real h f' = kept_real g f).
  { unfold kept_real, dim2. rewrite F2, F2'. apply map_ext. intros k. rewrite Fr. reflexivity. }
  assert (Den : forall i j k, (i < n0)%nat -> (j < n1)%nat -> sp_density h f' i j k = sp_density g f i j k).
  { intros i j k Hi Hj. unfold sp_density, sp_raw. rewrite Eenv, Edx. unfold dim2. rewrite F2, F2'. cbn [nth]. cbv zeta.
    rewrite (fft1_ext nt (fun q => at3 f' i j q) (fun q => Cmult u (at3 f i j q))) by (intros q Hq; apply Hf; assumption). rewrite fft1_scal.
    assert (E : forall a b x, Cmod (Cmult (Cmult a (Cmult u x)) b) = Cmod (Cmult (Cmult a x) b)) by (intros a b x; rewrite !Cmod_mult, Hu; ring).
    assert (E' : forall b x, Cmod (Cmult (Cmult u x) b) = Cmod (Cmult x b)) by (intros b x; rewrite !Cmod_mult, Hu; ring).
    destruct (g_isenv g); rewrite ?E, ?E'; reflexivity. }
  assert (Val : forall kept, sp_values d h f' m kept = sp_values d g f m kept).
  { intros kept. unfold sp_values, dim0, dim1. rewrite F2, F2'. cbn [nth]. cbv zeta.
    assert (D2 : (n0 / 2 < n0)%nat) by (apply Nat.div_lt; lia). assert (D1 : (n1 / 2 < n1)%nat) by (apply Nat.div_lt; lia).
    assert (Vx : cell_volume_xyt h = cell_volume_xyt g) by (unfold cell_volume_xyt; rewrite Edx; reflexivity).
    assert (Vr : forall j, cell_volume_rt h j = cell_volume_rt g j) by (destruct M as (_ & _ & _ & Eax & _); intros j; unfold cell_volume_rt; rewrite Edx, Eax; reflexivity).
    destruct Hm as [-> | ->]; f_equal; apply map_ext; intros k.
    - rewrite Edx. clear - Den Vx Vr P0 P1. destruct d; [|apply rsum_ext; intros i Hi|]; apply rsum_ext; intros j Hj; rewrite Den by lia; rewrite ?Vx, ?Vr; reflexivity.
    - clear - Den D1 D2 P0 P1. destruct d; apply Den; lia. }
  rewrite Eenv, Kr. destruct (g_isenv g); [destruct w as [w|]; [rewrite Ke|reflexivity]|]; cbn [bind]; rewrite Val; reflexivity.
Qed.
Lemma ph_show : match snd (show_image L), snd (show_image K) with
  | Ok (img, e), Ok (img', e') => e' = e /\ shp img' = shp img /\ forall i k q, (i < dim0 img)%nat -> (k < dim1 img)%nat -> at3 img' i k q = at3 img i k q
  | Err x, Err x' => x' = x
  | _, _ => False
  end.
Proof.
  destruct ph_reads as (f & f' & F1 & F2 & F1' & F2' & Hf). unfold show_image. cbn [snd]. rewrite (with_field_snd _ _ f' F1'), (with_field_snd _ _ f F1). fold g h.
  rewrite (pa_dim _ _ _ _ _ _ HP), Hd. destruct ph_meta as (M & GS). pose proof M as (Elo & Ehi & _ & _ & Edx & Enm & Emo & Esh & _). pose proof (gs_pos _ _ _ _ _ GS) as (P0 & P1 & P2).
  assert (D1 : (n1 / 2 < n1)%nat) by (apply Nat.div_lt; lia).
  assert (Ex : forall d', full_extent d' h = full_extent d' g) by (intros d'; unfold full_extent; rewrite Elo, Ehi; reflexivity).
  rewrite !Ex, Emo. unfold dim0, dim1, dim2. rewrite F2, F2'. cbn [nth].
  destruct d.
  - destruct (g_modes g) as [modes|]; [|reflexivity]. destruct (forallb _ modes) eqn:Ef; [|reflexivity]. cbn [shp at3 nth]. split; [reflexivity|]. split; [reflexivity|].
    intros p k q Hp Hk. f_equal. unfold show_rt_env, dim0, dim1. rewrite F2, F2'. cbn [nth]. cbv zeta.
    rewrite (csum_ext (length modes) _ (fun a => Cmult u (let m := nth a modes 0%Z in let i := match py_index n0 m with Some i => i | None => 0%nat end in
      if Nat.ltb p n1 then Cmult (RtoC (powerRZ (-1) m)) (at3 f i (n1 - 1 - p) k) else at3 f i (p - n1) k))).
    + rewrite csum_scal_l. rewrite Cmod_mult, Hu, Rmult_1_l. reflexivity.
    + intros a Ha. cbv zeta. assert (Hi : (match py_index n0 (nth a modes 0%Z) with Some i => i | None => 0%nat end < n0)%nat).
      { destruct (py_index n0 (nth a modes 0%Z)) as [i|] eqn:Ei; [exact (py_index_lt _ _ _ Ei) | lia]. }
      destruct (Nat.ltb_spec p n1); rewrite Hf by (assumption || lia); ring.
  - cbn [shp at3 nth]. split; [reflexivity|]. split; [reflexivity|]. intros p k q Hp Hk. rewrite Hf by assumption. rewrite Cmod_mult, Hu, Rmult_1_l. reflexivity.
  - cbn [shp at3 nth]. split; [reflexivity|]. split; [reflexivity|]. intros p k q Hp Hk. rewrite Hf by assumption. rewrite Cmod_mult, Hu, Rmult_1_l. reflexivity.
Qed.
End Two.
