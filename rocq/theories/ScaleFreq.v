(** C104: local frequency and vector potential of a scaled pulse. *)
From Coq Require Import FunctionalExtensionality.
From Verif Require Import PyBase CSum NumPy NpMath GridModel EnergyModel LaserModel LaserOps AnalysisModel ScaleSpec ScaleProofs.
Open Scope R_scope.

Section Freq.
Variable s : R.
Hypothesis Hs : 0 < s.
Let s0 : s <> 0. Proof. apply Rgt_not_eq, Hs. Qed.
Notation sg := (scale_grid s).
(** An array of frequencies divided by s. *)
Definition slower (om : ndarray) : ndarray := amap (fun z => Cmult (RtoC (/ s)) z) om.
Lemma cancel x : s * / s * x = x. Proof. rewrite Rinv_r by exact s0. ring. Qed.
(** numpy's finite differences on an axis s times as long. *)
Lemma coefs d1 d2 : - (2 * (s * d1) + s * d2) / (s * d1 * (s * d1 + s * d2)) = / s * (- (2 * d1 + d2) / (d1 * (d1 + d2))) /\
  (s * d1 + s * d2) / (s * d1 * (s * d2)) = / s * ((d1 + d2) / (d1 * d2)) /\
  - (s * d1) / (s * d2 * (s * d1 + s * d2)) = / s * (- d1 / (d2 * (d1 + d2))) /\
  s * d2 / (s * d1 * (s * d1 + s * d2)) = / s * (d2 / (d1 * (d1 + d2))) /\
  - (s * d2 + s * d1) / (s * d1 * (s * d2)) = / s * (- (d2 + d1) / (d1 * d2)) /\
  (2 * (s * d2) + s * d1) / (s * d2 * (s * d1 + s * d2)) = / s * ((2 * d2 + d1) / (d2 * (d1 + d2))) /\
  - (s * d2) / (s * d1 * (s * d1 + s * d2)) = / s * (- d2 / (d1 * (d1 + d2))) /\
  s * (d2 - d1) / (s * d1 * (s * d2)) = / s * ((d2 - d1) / (d1 * d2)) /\
  s * d1 / (s * d2 * (s * d1 + s * d2)) = / s * (d1 / (d2 * (d1 + d2))).
Proof.
  rewrite <- Rmult_plus_distr_l. unfold Rdiv. rewrite !Rinv_mult.
  repeat split; match goal with |- ?a * (/ s * ?u * (/ s * ?v)) = / s * (?b * (?u * ?v)) =>
    rewrite <- (cancel (/ s * (b * (u * v)))); ring end.
Qed.
Lemma lin3R_div a b c u v w : lin3R (/ s * a) (/ s * b) (/ s * c) u v w = / s * lin3R a b c u v w.
Proof. unfold lin3R. ring. Qed.
Lemma lin3C_div a b c u v w : lin3C (/ s * a) (/ s * b) (/ s * c) u v w = Cmult (RtoC (/ s)) (lin3C a b c u v w).
Proof. unfold lin3C. rewrite !RtoC_mult. ring. Qed.
Lemma gradient_div {A} (lin : R -> R -> R -> A -> A -> A -> A) (m : A -> A) n f x k :
  (forall a b c u v w, lin (/ s * a) (/ s * b) (/ s * c) u v w = m (lin a b c u v w)) ->
  gradient2 lin n f (fun q => s * x q) k = m (gradient2 lin n f x k).
Proof.
  intros H. unfold gradient2. rewrite <- !Rmult_minus_distr_l.
  destruct (Nat.eqb k 0); [|destruct (Nat.eqb k (n - 1))]; cbv zeta;
    match goal with |- lin (_ / (s * ?d1 * _)) _ _ _ _ _ = _ => idtac | _ => idtac end.
  - destruct (coefs (x 1%nat - x 0%nat) (x 2%nat - x 1%nat)) as (E1 & E2 & E3 & _). rewrite E1, E2, E3. apply H.
  - destruct (coefs (x (n - 2)%nat - x (n - 3)%nat) (x (n - 1)%nat - x (n - 2)%nat)) as (_ & _ & _ & E1 & E2 & E3 & _). rewrite E1, E2, E3. apply H.
  - destruct (coefs (x k - x (k - 1)%nat) (x (S k) - x k)) as (_ & _ & _ & _ & _ & _ & E1 & E2 & E3). rewrite E1, E2, E3. apply H.
Qed.
Lemma local_sg g f w0 i j k : local_omega (sg g) f (w0 / s) i j k = / s * local_omega g f w0 i j k.
Proof.
  unfold local_omega. rewrite (time_axis_sg s).
  replace (fun q => vget (map (Rmult s) (time_axis g)) q) with (fun q => s * vget (time_axis g) q) by (apply functional_extensionality; intros q; symmetry; apply (vget_ms s)).
  rewrite (gradient_div lin3R (Rmult (/ s))) by (intros; apply lin3R_div). rewrite Rmult_plus_distr_l. apply f_equal2; [unfold Rdiv; ring | reflexivity].
Qed.
Lemma clip_div lb ub c w : clip_freq lb ub (/ s * c) (/ s * w) = / s * clip_freq lb ub c w.
Proof.
  assert (P : 0 <= / s) by (left; apply Rinv_0_lt_compat, Hs). unfold clip_freq.
  replace (lb * (/ s * c)) with (/ s * (lb * c)) by ring. replace (ub * (/ s * c)) with (/ s * (ub * c)) by ring.
  rewrite RmaxRmult by exact P. unfold Rmin. set (X := Rmax _ _). destruct (Rle_dec (/ s * X) (/ s * (ub * c))) as [A|A]; destruct (Rle_dec X (ub * c)) as [B|B]; try reflexivity.
  - apply Rmult_le_reg_l in A; [contradiction | apply Rinv_0_lt_compat, Hs].
  - elim A. apply Rmult_le_compat_l; assumption.
Qed.
Lemma average3_div n0 n1 n2 v w : average3 n0 n1 n2 (fun i j k => / s * v i j k) w = mapres (Rmult (/ s)) (average3 n0 n1 n2 v w).
Proof.
  unfold average3. destruct (Reqb _ 0); [reflexivity|]. cbn [mapres]. f_equal. unfold Rdiv. rewrite <- Rmult_assoc. f_equal. unfold rsum3.
  rewrite <- rsum_scal_l. apply rsum_ext. intros i _. rewrite <- rsum_scal_l. apply rsum_ext. intros j _. rewrite <- rsum_scal_l. apply rsum_ext. intros k _. ring.
Qed.
Lemma frequency_env_sg g f w0 lb ub : frequency_env (sg g) f (option_map (fun w => w / s) w0) lb ub =
  mapres (fun r => (slower (fst r), / s * snd r)) (frequency_env g f w0 lb ub).
Proof.
  unfold frequency_env. destruct w0 as [w0|]; [|reflexivity]. cbn [option_map]. destruct (Nat.ltb _ 3); [reflexivity|].
  replace (local_omega (sg g) f (w0 / s)) with (fun i j k => / s * local_omega g f w0 i j k).
  2: { apply functional_extensionality; intros i; apply functional_extensionality; intros j; apply functional_extensionality; intros k. symmetry. apply local_sg. }
  rewrite average3_div. destruct (average3 _ _ _ _ _) as [c|e]; [|reflexivity]. cbn [mapres bind fst snd]. f_equal. f_equal.
  unfold slower, amap, real_arr. cbn [shp dty at3]. f_equal.
  apply functional_extensionality; intros i; apply functional_extensionality; intros j; apply functional_extensionality; intros k. rewrite clip_div. apply RtoC_mult.
Qed.
Lemma frequency_sg g d w0 lb ub : g_isenv g = true ->
  get_frequency (sg g) d false (option_map (fun w => w / s) w0) lb ub =
  (sg (fst (get_frequency g d false w0 lb ub)), mapres (fun r => (slower (fst r), / s * snd r)) (snd (get_frequency g d false w0 lb ub))).
Proof.
  intros He. unfold get_frequency, with_field. rewrite (get_t_sg s). unfold sp. cbn [fst snd]. f_equal.
  destruct (snd (get_temporal_field g)) as [f|e]; [|reflexivity]. 
  assert (E : g_isenv (fst (get_temporal_field g)) = true) by (unfold get_temporal_field; destruct (g_tv g); [exact He|]; destruct (g_sv g); exact He).
  change (g_isenv (sg (fst (get_temporal_field g)))) with (g_isenv (fst (get_temporal_field g))). rewrite E. apply frequency_env_sg.
Qed.
(** The vector potential is s times as large. *)
Lemma vecpot_at z y (a b : C) : Cdiv (Cmult a z) (Cmult (Cmult b (Cmult (RtoC (/ s)) y)) (RtoC c_light)) = Cmult (RtoC s) (Cdiv (Cmult a z) (Cmult (Cmult b y) (RtoC c_light))).
Proof.
  assert (S0 : RtoC s <> RtoC 0) by (intros X; apply RtoC_inj in X; exact (s0 X)).
  replace (Cmult (Cmult b (Cmult (RtoC (/ s)) y)) (RtoC c_light)) with (Cmult (RtoC (/ s)) (Cmult (Cmult b y) (RtoC c_light))) by ring.
  generalize (Cmult (Cmult b y) (RtoC c_light)). intros q. generalize (Cmult a z). intros u. clear - S0 s0. unfold Cdiv.
  destruct (Ceq_dec q (RtoC 0)) as [->|Q].
  - assert (Z : Cinv (RtoC 0) = RtoC 0). { unfold Cinv, RtoC. cbn. unfold Rdiv. f_equal; ring. }
    rewrite Cmult_0_r, Z. ring.
  - rewrite RtoC_inv by exact s0. field. split; assumption.
Qed.
Lemma vecpot_sg g w0 : field_to_vector_potential (sg g) (w0 / s) =
  (sg (fst (field_to_vector_potential g w0)), mapres (amap (Cmult (RtoC s))) (snd (field_to_vector_potential g w0))).
Proof.
  unfold field_to_vector_potential. change (g_isenv (sg g)) with (g_isenv g). destruct (g_isenv g) eqn:He; [|reflexivity]. cbn [negb].
  pose proof (frequency_sg g OtherDim (Some w0) lb_default ub_default He) as F. cbn [option_map] in F. rewrite F. cbn [fst snd].
  destruct (snd (get_frequency g OtherDim false (Some w0) lb_default ub_default)) as [[om m]|e]; [|reflexivity]. cbn [mapres fst snd].
  unfold with_field. rewrite (get_t_sg s). unfold sp. cbn [fst snd]. f_equal.
  destruct (snd (get_temporal_field (fst (get_frequency g OtherDim false (Some w0) lb_default ub_default)))) as [f|e]; [|reflexivity]. cbn [mapres]. f_equal.
  unfold vecpot_of, amap. cbn [shp dty at3]. f_equal.
  apply functional_extensionality; intros i; apply functional_extensionality; intros j; apply functional_extensionality; intros k. apply vecpot_at.
Qed.
Lemma from_vecpot_sg g w0 direct : vector_potential_to_field (sg g) (w0 / s) direct =
  (sg (fst (vector_potential_to_field g w0 direct)), mapres slower (snd (vector_potential_to_field g w0 direct))).
Proof.
  unfold vector_potential_to_field. change (g_isenv (sg g)) with (g_isenv g). destruct (g_isenv g) eqn:He; [|reflexivity]. cbn [negb].
  rewrite (get_t_sg s). unfold sp. cbn [fst snd].
  destruct (snd (get_temporal_field g)) as [f|e]; [|reflexivity]. destruct direct.
  - destruct (Nat.ltb _ 3); [reflexivity|]. cbn [fst snd mapres]. f_equal. f_equal. unfold slower, amap. cbn [shp dty at3]. f_equal.
    apply functional_extensionality; intros i; apply functional_extensionality; intros j; apply functional_extensionality; intros k.
    rewrite (time_axis_sg s).
    replace (fun q => vget (map (Rmult s) (time_axis g)) q) with (fun q => s * vget (time_axis g) q) by (apply functional_extensionality; intros q; symmetry; apply (vget_ms s)).
    rewrite (gradient_div lin3C (Cmult (RtoC (/ s)))) by (intros; apply lin3C_div). replace (w0 / s) with (/ s * w0) by (unfold Rdiv; ring). rewrite (RtoC_mult (/ s) w0).
    change (fun q => vget (time_axis g) q) with (vget (time_axis g)). set (G := gradient2 _ _ _ _ _). ring.
  - assert (E : g_isenv (fst (get_temporal_field g)) = true) by (unfold get_temporal_field; destruct (g_tv g); [exact He|]; destruct (g_sv g); exact He).
    pose proof (frequency_sg (fst (get_temporal_field g)) OtherDim (Some w0) lb_default ub_default E) as F. cbn [option_map] in F. rewrite F. cbn [fst snd].
    destruct (snd (get_frequency (fst (get_temporal_field g)) OtherDim false (Some w0) lb_default ub_default)) as [[om m]|e]; [|reflexivity]. cbn [mapres fst snd].
    f_equal. f_equal. unfold slower, amap. cbn [shp dty at3]. f_equal.
    apply functional_extensionality; intros i; apply functional_extensionality; intros j; apply functional_extensionality; intros k.
    unfold Cdiv. ring.
Qed.
End Freq.
