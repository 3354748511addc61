(** C95: what the analysis functions return for proportional fields. *)
From Coq Require Import FunctionalExtensionality.
From Verif Require Import PyBase CSum NumPy NpMath GridModel GridSpec GridProofs GridObs EnergyModel EnergyProofs LaserSpec LaserModel LaserOps LaserInv LaserStepProofs HistoryProofs LtiSpec LtiProofs LtiStep LtiMain LtiNorm AnalysisModel MoveMain MoveFreq FrequencyProofs.
Open Scope R_scope.

Lemma angle_pos c z : 0 < c -> angle (Cmult (RtoC c) z) = angle z.
Proof.
  intros Hc. unfold angle. rewrite Cmod_mult, Cmod_R, Rabs_pos_eq by lra.
  replace (Im (Cmult (RtoC c) z)) with (c * Im z) by (destruct z; unfold Im, RtoC, Cmult; cbn; ring).
  replace (Re (Cmult (RtoC c) z)) with (c * Re z) by (destruct z; unfold Re, RtoC, Cmult; cbn; ring).
  unfold Reqb. destruct (Req_EM_T (c * Cmod z) 0) as [E|E]; destruct (Req_EM_T (Cmod z) 0) as [E'|E']; try reflexivity.
  - apply Rmult_integral in E. destruct E; [lra | contradiction].
  - elim E. rewrite E'. ring.
  - replace (c * Re z / (c * Cmod z)) with (Re z / Cmod z) by (field; split; [exact E' | lra]).
    unfold Rleb. destruct (Rle_dec 0 (c * Im z)) as [P|P]; destruct (Rle_dec 0 (Im z)) as [Q|Q]; try reflexivity.
    + elim Q. apply (Rmult_le_reg_l c); [exact Hc | lra].
    + elim P. apply Rmult_le_pos; lra.
Qed.
Lemma average1_weight n v w k : k <> 0 -> average1 n v (fun q => k * w q) = average1 n v w.
Proof.
  intros Hk. unfold average1. rewrite rsum_scal_l. unfold Reqb.
  destruct (Req_EM_T (k * rsum n w) 0) as [E|E]; destruct (Req_EM_T (rsum n w) 0) as [E'|E']; try reflexivity.
  - apply Rmult_integral in E. destruct E; contradiction.
  - elim E. rewrite E'. ring.
  - f_equal. rewrite (rsum_ext n (fun q => v q * (k * w q)) (fun q => k * (v q * w q))) by (intros; ring). rewrite rsum_scal_l. field. split; assumption.
Qed.
Lemma average3_weight n0 n1 n2 v w c : c <> 0 -> average3 n0 n1 n2 v (fun i j k => c * w i j k) = average3 n0 n1 n2 v w.
Proof.
  intros Hk. unfold average3.
  assert (E0 : forall u, rsum3 n0 n1 n2 (fun i j k => c * u i j k) = c * rsum3 n0 n1 n2 u).
  { intros u. unfold rsum3. rewrite <- rsum_scal_l. apply rsum_ext. intros i _. rewrite <- rsum_scal_l. apply rsum_ext. intros j _. rewrite <- rsum_scal_l. reflexivity. }
  rewrite E0. unfold Reqb.
  destruct (Req_EM_T (c * rsum3 n0 n1 n2 w) 0) as [E|E]; destruct (Req_EM_T (rsum3 n0 n1 n2 w) 0) as [E'|E']; try reflexivity.
  - apply Rmult_integral in E. destruct E; contradiction.
  - elim E. rewrite E'. ring.
  - f_equal. replace (rsum3 n0 n1 n2 (fun i j k => v i j k * (c * w i j k))) with (c * rsum3 n0 n1 n2 (fun i j k => v i j k * w i j k)).
    + field. split; assumption.
    + rewrite <- E0. unfold rsum3. apply rsum_ext. intros i _. apply rsum_ext. intros j _. apply rsum_ext. intros k _. ring.
Qed.

Section Scaled.
Variables (g g' : grid) (f f' : ndarray) (c : R) (n0 n1 nt : nat).
Hypothesis Hc : 0 < c.
Hypothesis T : tread g = Ok f.
Hypothesis T' : tread g' = Ok f'.
Hypothesis S : shp f = [n0; n1; nt].
Hypothesis S' : shp f' = [n0; n1; nt].
Hypothesis Hf : forall i j k, (i < n0)%nat -> (j < n1)%nat -> (k < nt)%nat -> at3 f' i j k = Cmult (RtoC c) (at3 f i j k).
Hypothesis HM : same_meta g g'.
Hypothesis He : g_isenv g = true.
Let h := fst (get_temporal_field g).
Let h' := fst (get_temporal_field g').
Lemma sc_meta : same_meta h h' /\ g_isenv h = true /\ g_isenv g' = true.
Proof.
  assert (X : same_meta g h) by apply get_t_meta. assert (Y : same_meta g' h') by apply get_t_meta.
  split; [eapply same_meta_trans; [apply same_meta_sym; exact X | eapply same_meta_trans; [exact HM | exact Y]]|].
  unfold same_meta in X, Y. pose proof HM as Z. unfold same_meta in Z. intuition congruence.
Qed.
Lemma sc_cell d j : cell_volume d h' j = cell_volume d h j.
Proof. destruct sc_meta as ((_ & _ & _ & A & B & _) & _). unfold cell_volume, cell_volume_xyt, cell_volume_rt. rewrite ?A, ?B. destruct d; reflexivity. Qed.
Lemma sc_time : time_axis h' = time_axis h.
Proof. destruct sc_meta as ((_ & _ & _ & E & _) & _). unfold time_axis. rewrite E. reflexivity. Qed.
Lemma sc_duration d : snd (get_duration d g') = snd (get_duration d g).
Proof.
  unfold get_duration. rewrite (with_field_snd g' _ f' T'), (with_field_snd g _ f T). fold h h'. unfold dim2. rewrite S, S'. cbn [nth]. rewrite sc_time.
  assert (C2 : c ^ 2 <> 0) by (apply pow_nonzero; lra).
  assert (W : forall k, (k < nt)%nat -> duration_weight d h' f' k = c ^ 2 * duration_weight d h f k).
  { intros k Hk. unfold duration_weight, dim0, dim1. rewrite S, S'. cbn [nth]. rewrite <- rsum_scal_l. apply rsum_ext. intros i Hi. rewrite <- rsum_scal_l. apply rsum_ext. intros j Hj.
    rewrite sc_cell, Hf by assumption. rewrite Cmod_mult, Cmod_R, Rabs_pos_eq by lra. ring. }
  unfold weighted_std. set (v := fun k => vget (time_axis h) k).
  rewrite (average1_ext nt v (fun k => c ^ 2 * duration_weight d h f k) v _ (fun _ _ => eq_refl) W), (average1_weight nt v _ _ C2).
  destruct (average1 nt v (duration_weight d h f)) as [m|e]; [|reflexivity]. cbn [bind].
  rewrite (average1_ext nt (fun k => (v k - m) ^ 2) (fun k => c ^ 2 * duration_weight d h f k) _ _ (fun _ _ => eq_refl) W), (average1_weight nt _ _ _ C2). reflexivity.
Qed.
Lemma sc_local w0 i j k : (i < n0)%nat -> (j < n1)%nat -> (k < nt)%nat -> (3 <= nt)%nat -> local_omega h' f' w0 i j k = local_omega h f w0 i j k.
Proof.
  intros Hi Hj Hk Hn. unfold local_omega, dim2. rewrite S, S'. cbn [nth]. f_equal. apply (gradient2_shift lin3R nt _ _ _ _ 0 k Hn Hk).
  - intros q Hq. f_equal. apply unwrap_upto. intros r Hr. rewrite Hf by (assumption || lia). apply angle_pos, Hc.
  - intros q _. rewrite sc_time. ring.
Qed.
Lemma sc_frequency_env w0 lb ub :
  match frequency_env h f w0 lb ub, frequency_env h' f' w0 lb ub with
  | Ok (om, m), Ok (om', m') => m' = m /\ shp om' = shp om /\ forall i j k, (i < n0)%nat -> (j < n1)%nat -> (k < nt)%nat -> at3 om' i j k = at3 om i j k
  | Err x, Err x' => x' = x
  | _, _ => False
  end.
Proof.
  unfold frequency_env. destruct w0 as [w0|]; [|reflexivity]. unfold dim0, dim1, dim2. rewrite S, S'. cbn [nth].
  destruct (Nat.ltb_spec nt 3) as [Hn|Hn]; [reflexivity|].
  rewrite (average3_ext n0 n1 nt (local_omega h f w0) (fun i j k => c * Cmod (at3 f i j k)) (local_omega h' f' w0) (fun i j k => Cmod (at3 f' i j k))).
  2: { intros i j k Hi Hj Hk. rewrite sc_local by assumption. rewrite Hf by assumption. rewrite Cmod_mult, Cmod_R, Rabs_pos_eq by lra. split; reflexivity. }
  rewrite average3_weight by lra. destruct (average3 _ _ _ _ _) as [m|e]; [|reflexivity]. cbn [bind real_arr shp at3]. split; [reflexivity|]. split; [reflexivity|].
  intros i j k Hi Hj Hk. rewrite sc_local by assumption. reflexivity.
Qed.
Lemma sc_frequency d w0 lb ub :
  match snd (get_frequency g d false w0 lb ub), snd (get_frequency g' d false w0 lb ub) with
  | Ok (om, m), Ok (om', m') => m' = m /\ shp om' = shp om /\ forall i j k, (i < n0)%nat -> (j < n1)%nat -> (k < nt)%nat -> at3 om' i j k = at3 om i j k
  | Err x, Err x' => x' = x
  | _, _ => False
  end.
Proof.
  unfold get_frequency. rewrite (with_field_snd g' _ f' T'), (with_field_snd g _ f T). fold h h'. destruct sc_meta as ((_ & _ & _ & _ & _ & _ & _ & _ & E & _) & E1 & _).
  rewrite E, E1. apply sc_frequency_env.
Qed.
Lemma sc_vecpot w0 :
  match snd (field_to_vector_potential g w0), snd (field_to_vector_potential g' w0) with
  | Ok u, Ok u' => shp u = [n0; n1; nt] /\ shp u' = [n0; n1; nt] /\ forall i j k, (i < n0)%nat -> (j < n1)%nat -> (k < nt)%nat -> at3 u' i j k = Cmult (RtoC c) (at3 u i j k)
  | Err x, Err x' => x' = x
  | _, _ => False
  end.
Proof.
  destruct sc_meta as ((_ & _ & _ & _ & _ & _ & _ & _ & E & _) & E1 & E2). unfold field_to_vector_potential. rewrite He, E2. cbn [negb].
  assert (F1 : fst (get_frequency g OtherDim false (Some w0) lb_default ub_default) = h) by reflexivity.
  assert (F2 : fst (get_frequency g' OtherDim false (Some w0) lb_default ub_default) = h') by reflexivity.
  pose proof (sc_frequency OtherDim (Some w0) lb_default ub_default) as X.
  destruct (snd (get_frequency g OtherDim false (Some w0) lb_default ub_default)) as [[om m]|x]; destruct (snd (get_frequency g' OtherDim false (Some w0) lb_default ub_default)) as [[om' m']|x']; try contradiction; [|exact X].
  destruct X as (_ & _ & X). cbv zeta. rewrite F1, F2.
  assert (R1 : tread h = Ok f) by (unfold h; rewrite tread_get_t; exact T). assert (R2 : tread h' = Ok f') by (unfold h'; rewrite tread_get_t; exact T').
  rewrite (with_field_snd h _ f R1), (with_field_snd h' _ f' R2). unfold vecpot_of. cbn [shp at3]. split; [exact S|]. split; [exact S'|].
  intros i j k Hi Hj Hk. rewrite X, Hf by assumption. unfold Cdiv. ring.
Qed.
End Scaled.
