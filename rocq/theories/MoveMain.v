From Coq Require Import FunctionalExtensionality.
From Verif Require Import PyBase CSum NpFFT FFTProofs NumPy NpMath GridModel GridSpec GridProofs GridObs EnergyModel EnergyProofs LaserSpec LaserModel LaserOps LaserInv LaserStepProofs PropagateProofs HistoryProofs LaserInitProofs OpticsProofs2 LtiSpec LtiProofs LtiStep LtiMain LtiNorm RotProofs AnalysisModel DataModel SpectrumModel MirrorSpec MirrorProofs ScaleProofs TransProofs MoveSpec MoveProofs.
Open Scope R_scope.

Lemma average1_ext n v w v' w' : (forall k, (k < n)%nat -> v' k = v k) -> (forall k, (k < n)%nat -> w' k = w k) -> average1 n v' w' = average1 n v w.
Proof.
  intros Hv Hw. unfold average1. rewrite (rsum_ext n w' w Hw). rewrite (rsum_ext n (fun k => v' k * w' k) (fun k => v k * w k)); [reflexivity|].
  intros k Hk. rewrite Hv, Hw by exact Hk. reflexivity.
Qed.
Lemma average1_shift n v w v' w' z : (forall k, (k < n)%nat -> v' k = v k + z) -> (forall k, (k < n)%nat -> w' k = w k) ->
  average1 n v' w' = mapres (fun m => m + z) (average1 n v w).
Proof.
  intros Hv Hw. unfold average1. rewrite (rsum_ext n w' w Hw). unfold Reqb. destruct (Req_EM_T (rsum n w) 0) as [E|E]; [reflexivity|]. cbn [mapres]. f_equal.
  rewrite (rsum_ext n (fun k => v' k * w' k) (fun k => v k * w k + z * w k)).
  2: { intros k Hk. rewrite Hv, Hw by exact Hk. ring. }
  rewrite rsum_plus, rsum_scal_l. field. exact E.
Qed.
Lemma std_shift n v w v' w' z : (forall k, (k < n)%nat -> v' k = v k + z) -> (forall k, (k < n)%nat -> w' k = w k) -> weighted_std n v' w' = weighted_std n v w.
Proof.
  intros Hv Hw. unfold weighted_std. rewrite (average1_shift n v w v' w' z Hv Hw). destruct (average1 n v w) as [m|e]; [|reflexivity]. cbn [mapres bind].
  rewrite (average1_ext n (fun k => (v k - m) ^ 2) w _ w'); [reflexivity | | exact Hw]. intros k Hk. rewrite Hv by exact Hk. f_equal. ring.
Qed.

Lemma py_index_lt n z q : py_index n z = Some q -> (q < n)%nat.
Proof.
  unfold py_index. destruct (Z.leb_spec 0 z).
  - destruct (Z.ltb_spec z (Z.of_nat n)); [|discriminate]. intros E. injection E as <-. lia.
  - destruct (Z.leb_spec 0 (z + Z.of_nat n)); [|discriminate]. intros E. injection E as <-. lia.
Qed.

Section Reads.
Variables a b c : R.
Notation mg := (move_grid a b c).
Section Two.
Variables (L K : laser) (n0 n1 nt : nat).
Hypothesis Hd : l_dim L = Xyt.
Hypothesis HP : Par 0 L K n0 n1 nt.
Hypothesis HR : mrel false false L K n0 n1 nt.
Let gL := fst (get_temporal_field (l_grid L)).
Let gK := fst (get_temporal_field (l_grid K)).
Lemma two_reads : exists f f', tread (l_grid L) = Ok f /\ shp f = [n0; n1; nt] /\ tread (l_grid K) = Ok f' /\ shp f' = [n0; n1; nt] /\
  (forall i j k, (i < n0)%nat -> (j < n1)%nat -> (k < nt)%nat -> at3 f' i j k = at3 f i j k).
Proof.
  destruct (Inv_reads _ _ _ _ (pa_inv _ _ _ _ _ _ HP)) as (f & _ & F1 & F2 & _). destruct (Inv_reads _ _ _ _ (pa_inv' _ _ _ _ _ _ HP)) as (f' & _ & F1' & F2' & _).
  exists f, f'. conj; try assumption. exact (mrel_t false false L K n0 n1 nt f f' (pa_inv _ _ _ _ _ _ HP) (pa_inv' _ _ _ _ _ _ HP) HR F1 F1').
Qed.
Lemma two_meta : same_meta gL gK /\ GShape Xyt gL n0 n1 nt /\ GShape Xyt gK n0 n1 nt.
Proof.
  pose proof (i_shape _ _ _ _ (pa_inv _ _ _ _ _ _ HP)) as G. pose proof (pa_meta _ _ _ _ _ _ HP) as M. rewrite (shift_0 _ _ _ _ _ G) in M. rewrite Hd in G.
  assert (X : same_meta (l_grid L) gL) by apply get_t_meta. assert (Y : same_meta (l_grid K) gK) by apply get_t_meta.
  assert (Z : same_meta (l_grid L) gK) by exact (same_meta_trans _ _ _ M Y).
  split; [eapply same_meta_trans; [apply same_meta_sym; exact X | exact Z]|]. split; [eapply GShape_meta; [exact X | exact G] | eapply GShape_meta; [exact Z | exact G]].
Qed.
Lemma two_time k : (k < nt)%nat -> vget (time_axis (mg gK)) k = vget (time_axis gL) k + c.
Proof.
  intros Hk. destruct two_meta as (M & _ & G). destruct (axis_mg a b c gK n0 n1 nt k G) as (_ & _ & E). rewrite E by exact Hk. f_equal. f_equal.
  destruct M as (_ & _ & _ & A & _). unfold time_axis. rewrite A. reflexivity.
Qed.
Lemma two_cell j : cell_volume Xyt (mg gK) j = cell_volume Xyt gL j.
Proof. destruct two_meta as (M & _). destruct M as (_ & _ & _ & _ & E & _). cbn [cell_volume]. unfold cell_volume_xyt. cbn [move_grid g_dx]. rewrite E. reflexivity. Qed.
Lemma two_energy : snd (compute_laser_energy Xyt (mg (l_grid K))) = snd (compute_laser_energy Xyt (l_grid L)).
Proof.
  rewrite compute_mg. unfold mp. cbn [snd]. destruct two_reads as (f & f' & F1 & F2 & F1' & F2' & Hf).
  destruct (compute_energy_eq Xyt _ f F1) as (-> & _). destruct (compute_energy_eq Xyt _ f' F1') as (-> & _). f_equal.
  pose proof (pa_meta _ _ _ _ _ _ HP) as HM. rewrite (shift_0 _ _ _ _ _ (i_shape _ _ _ _ (pa_inv _ _ _ _ _ _ HP))) in HM.
  rewrite (energy_of_meta Xyt _ _ _ HM). apply (mirror_energy false false _ f f' n0 n1 nt F2 F2' Hf).
Qed.
Lemma two_duration : snd (get_duration Xyt (mg (l_grid K))) = snd (get_duration Xyt (l_grid L)).
Proof.
  unfold get_duration, with_field. rewrite get_t_mg. unfold mp. cbn [fst snd]. destruct two_reads as (f & f' & F1 & F2 & F1' & F2' & Hf).
  unfold tread in F1, F1'. rewrite F1, F1'. fold gL gK. unfold dim2. rewrite F2, F2'. cbn [nth].
  apply (std_shift nt _ _ _ _ c); [intros k Hk; apply two_time, Hk|]. intros k Hk. unfold duration_weight, dim0, dim1. rewrite F2, F2'. cbn [nth].
  apply rsum_ext. intros i Hi. apply rsum_ext. intros j Hj. rewrite two_cell, Hf by assumption. reflexivity.
Qed.
Lemma two_spectrum range bins w m : m = MSum \/ m = MOnAxis ->
  snd (get_spectrum Xyt (mg (l_grid K)) range bins w m) = snd (get_spectrum Xyt (l_grid L) range bins w m).
Proof.
  intros Hm. unfold get_spectrum, with_field. rewrite get_t_mg. unfold mp. cbn [fst snd]. destruct two_reads as (f & f' & F1 & F2 & F1' & F2' & Hf).
  unfold tread in F1, F1'. rewrite F1, F1'. fold gL gK. destruct two_meta as (M & GL & GK).
  pose proof M as (_ & _ & _ & _ & Edx & _ & _ & Esh & Eenv & _).
  pose proof (gs_pos _ _ _ _ _ GL) as (P0 & P1 & P2).
  assert (Fr : forall k, spectrum_freq (mg gK) k = spectrum_freq gL k).
  { intros k. unfold spectrum_freq. rewrite !two_time by lia. cbn [move_grid g_shape]. rewrite Esh. f_equal. f_equal. ring. }
  assert (Ke : forall w0, kept_env (mg gK) f' w0 = kept_env gL f w0).
  { intros w0. unfold kept_env, dim2. rewrite F2, F2'. f_equal. f_equal. apply map_ext. intros k. rewrite Fr. reflexivity. }
  assert (Kr : kept_real (mg gK) f' = kept_real gL f).
  { unfold kept_real, dim2. rewrite F2, F2'. apply map_ext. intros k. rewrite Fr. reflexivity. }
  assert (Den : forall i j k, (i < n0)%nat -> (j < n1)%nat -> sp_density (mg gK) f' i j k = sp_density gL f i j k).
  { intros i j k Hi Hj. unfold sp_density, sp_raw. cbn [move_grid g_isenv g_dx]. change (g_isenv (mg gK)) with (g_isenv gK). rewrite Eenv, Edx. unfold dim2. rewrite F2, F2'. cbn [nth].
    rewrite (fft1_ext nt (fun q => at3 f' i j q) (fun q => at3 f i j q)); [reflexivity|]. intros q Hq. apply Hf; assumption. }
  assert (Val : forall kept, sp_values Xyt (mg gK) f' m kept = sp_values Xyt gL f m kept).
  { intros kept. unfold sp_values, dim0, dim1. rewrite F2, F2'. cbn [nth]. destruct Hm as [-> | ->].
    - f_equal. apply map_ext. intros k. apply rsum_ext. intros i Hi. apply rsum_ext. intros j Hj. rewrite Den by assumption.
      pose proof (two_cell 0) as V. cbn [cell_volume] in V. rewrite V. cbn [move_grid g_dx]. rewrite Edx. reflexivity.
    - f_equal. apply map_ext. intros k. apply Den; apply Nat.div_lt; lia. }
  change (g_isenv (mg gK)) with (g_isenv gK). rewrite Eenv, Kr. destruct (g_isenv gL); [destruct w as [w|]; [rewrite Ke|reflexivity]|]; cbn [bind]; rewrite Val; reflexivity.
Qed.
(** [tmin, tmax, xmin, xmax] moved. *)
Definition moved_extent (e : list R) : list R := match e with [t0; t1; x0; x1] => [t0 + c; t1 + c; x0 + a; x1 + a] | _ => e end.
Lemma two_extent : full_extent Xyt (mg gK) = moved_extent (full_extent Xyt gL).
Proof.
  destruct two_meta as (M & GL & GK). destruct M as (E1 & E2 & _). cbn [full_extent move_grid g_lo g_hi moved_extent].
  rewrite E1, E2. pose proof (gs_lo _ _ _ _ _ GL) as A. pose proof (gs_hi _ _ _ _ _ GL) as B. destruct (len3 _ A) as (l0 & l1 & l2 & ->). destruct (len3 _ B) as (h0 & h1 & h2 & ->). reflexivity.
Qed.
Lemma two_show : exists img img' e, snd (show_image L) = Ok (img, e) /\ snd (show_image (ml a b c K)) = Ok (img', moved_extent e) /\
  shp img = [n0; nt] /\ shp img' = [n0; nt] /\ forall i k q, (i < n0)%nat -> (k < nt)%nat -> at3 img' i k q = at3 img i k q.
Proof.
  unfold show_image, with_field. cbn [snd ml l_grid l_dim]. rewrite get_t_mg. unfold mp. cbn [fst snd]. destruct two_reads as (f & f' & F1 & F2 & F1' & F2' & Hf).
  unfold tread in F1, F1'. rewrite F1, F1'. fold gL gK. rewrite (pa_dim _ _ _ _ _ _ HP), Hd, two_extent.
  eexists; eexists; eexists. split; [reflexivity|]. split; [reflexivity|]. cbn [shp at3]. unfold dim0, dim1, dim2. rewrite F2, F2'. cbn [nth]. conj; try reflexivity.
  intros i k q Hi Hk. destruct two_meta as (_ & GL & _). pose proof (gs_pos _ _ _ _ _ GL) as (_ & P1 & _). rewrite Hf; [reflexivity | exact Hi | apply Nat.div_lt; lia | exact Hk].
Qed.
Lemma two_full theta s sa : c = 0 ->
  match snd (get_full_field L theta s sa), snd (get_full_field (ml a b c K) theta s sa) with
  | Ok (Some (img, e)), Ok (Some (img', e')) => e' = moved_extent e /\ shp img' = shp img /\ forall i k q, (i < dim0 img)%nat -> (k < dim1 img)%nat -> at3 img' i k q = at3 img i k q
  | Ok None, Ok None => True
  | Err x, Err x' => x' = x
  | _, _ => False
  end.
Proof.
  intros Hc. unfold get_full_field, with_field. cbn [snd ml l_grid]. rewrite get_t_mg. unfold mp. cbn [fst snd]. destruct two_reads as (f & f' & F1 & F2 & F1' & F2' & Hf).
  unfold tread in F1, F1'. rewrite F1, F1'. fold gL gK. destruct two_meta as (M & GL & GK). pose proof M as (_ & _ & _ & _ & _ & _ & _ & _ & Eenv & _).
  unfold full_field. change (g_isenv (mg gK)) with (g_isenv gK). rewrite Eenv. destruct (negb (g_isenv gL)); [reflexivity|]. cbn [ml l_dim l_prof move_profile p_omega0].
  rewrite (pa_dim _ _ _ _ _ _ HP), Hd, (pa_w0 _ _ _ _ _ _ HP). unfold dim0, dim1, dim2. rewrite F2, F2'. cbn [nth].
  destruct sa; [| |exact I].
  - destruct (py_index n0 (slice_index n0 s)) as [q|] eqn:Eq; [|reflexivity]. split; [apply two_extent|]. cbn [shp at3 nth]. split; [reflexivity|]. intros i k r Hi Hk.
    rewrite two_time by exact Hk. rewrite Hc, Rplus_0_r, Hf; [reflexivity | | exact Hi | exact Hk].
    exact (py_index_lt _ _ _ Eq).
  - destruct (py_index n1 (slice_index n1 s)) as [q|] eqn:Eq; [|reflexivity]. split; [apply two_extent|]. cbn [shp at3 nth]. split; [reflexivity|]. intros i k r Hi Hk.
    rewrite two_time by exact Hk. rewrite Hc, Rplus_0_r, Hf; [reflexivity | exact Hi | | exact Hk].
    exact (py_index_lt _ _ _ Eq).
Qed.
End Two.
End Reads.
