(** Proofs of C76. *)
From Coquelicot Require Import Coquelicot.
From Verif Require Import PyBase CSum AnalyticModel AnalyticProofs TransShapeSpec.
Open Scope R_scope.

(** ** Integration over R, in plain notation *)
Lemma ri_minus f g a b : ex_RInt f a b -> ex_RInt g a b -> RInt (fun t => f t - g t) a b = RInt f a b - RInt g a b.
Proof. intros Hf Hg. exact (RInt_minus f g a b Hf Hg). Qed.
Lemma ri_plus f g a b : ex_RInt f a b -> ex_RInt g a b -> RInt (fun t => f t + g t) a b = RInt f a b + RInt g a b.
Proof. intros Hf Hg. exact (RInt_plus f g a b Hf Hg). Qed.
Lemma ri_scal f k a b : ex_RInt f a b -> RInt (fun t => k * f t) a b = k * RInt f a b.
Proof. intros Hf. exact (RInt_scal f a b k Hf). Qed.
Lemma ri_opp f a b : ex_RInt f a b -> RInt (fun t => - f t) a b = - RInt f a b.
Proof. intros Hf. exact (RInt_opp f a b Hf). Qed.
Ltac smooth := apply (@ex_RInt_continuous R_CompleteNormedModule); intros ? _; apply (@ex_derive_continuous R_AbsRing R_NormedModule); auto_derive; exact I.

(** ** jinc *)
Definition jf (u t : R) : R := cos t ^ 2 * cos (u * sin t).
Lemma jf_ex u a b : ex_RInt (jf u) a b.
Proof.
  apply (@ex_RInt_continuous R_CompleteNormedModule). intros z _. apply (@ex_derive_continuous R_AbsRing R_NormedModule). unfold jf. auto_derive. exact I.
Qed.
Lemma bessel_poisson u : u <> 0 -> bessel_j1 u = u / PI * RInt (jf u) 0 PI.
Proof.
  intros Hu. unfold bessel_j1, Rdiv. rewrite (Rmult_comm u), Rmult_assoc. f_equal.
  assert (D : is_RInt (fun t => cos (t - u * sin t) - u * jf u t) 0 PI ((fun t => sin (u * sin t) / u - cos t * sin (u * sin t)) PI - (fun t => sin (u * sin t) / u - cos t * sin (u * sin t)) 0)).
  { apply (is_RInt_derive (fun t => sin (u * sin t) / u - cos t * sin (u * sin t))).
    - intros t _. auto_derive; [exact I|]. unfold jf. rewrite cos_minus. field. exact Hu.
    - intros t _. apply (@ex_derive_continuous R_AbsRing R_NormedModule). unfold jf. auto_derive. exact I. }
  cbv beta in D. rewrite sin_PI, sin_0, Rmult_0_r, sin_0 in D.
  assert (E : ex_RInt (fun t => cos (t - u * sin t)) 0 PI).
  { apply (@ex_RInt_continuous R_CompleteNormedModule). intros z _. apply (@ex_derive_continuous R_AbsRing R_NormedModule). auto_derive. exact I. }
  pose proof (is_RInt_unique _ _ _ _ D) as U.
  rewrite ri_minus in U; [|exact E|unfold jf; smooth]. rewrite ri_scal in U by apply jf_ex. lra.
Qed.
Lemma int_cos2 : RInt (fun t => cos t ^ 2) 0 PI = PI / 2.
Proof.
  apply is_RInt_unique. replace (PI / 2) with ((PI / 2 + sin (2 * PI) / 4) - (0 / 2 + sin (2 * 0) / 4)) by (rewrite sin_2PI, !Rmult_0_r, sin_0; field).
  apply (is_RInt_derive (fun t => t / 2 + sin (2 * t) / 4)).
  - intros t _. auto_derive; [exact I|]. rewrite cos_2a. pose proof (sin2_cos2 t) as H. unfold Rsqr in H. nra.
  - intros t _. apply (@ex_derive_continuous R_AbsRing R_NormedModule). auto_derive. exact I.
Qed.
Lemma int_cos2sin2 : RInt (fun t => cos t ^ 2 * sin t ^ 2) 0 PI = PI / 8.
Proof.
  apply is_RInt_unique. replace (PI / 8) with ((PI / 8 - sin (4 * PI) / 32) - (0 / 8 - sin (4 * 0) / 32)).
  2:{ replace (4 * PI) with (2 * (2 * PI)) by ring. rewrite sin_2a, sin_2PI, !Rmult_0_r, sin_0. field. }
  apply (is_RInt_derive (fun t => t / 8 - sin (4 * t) / 32)).
  - intros t _. auto_derive; [exact I|]. replace (4 * t) with (2 * (2 * t)) by ring. rewrite cos_2a, cos_2a, sin_2a.
    pose proof (sin2_cos2 t) as H. unfold Rsqr in H. nra.
  - intros t _. apply (@ex_derive_continuous R_AbsRing R_NormedModule). auto_derive. exact I.
Qed.
Lemma int_cos2sin4 : RInt (fun t => cos t ^ 2 * sin t ^ 4) 0 PI = PI / 16.
Proof.
  apply is_RInt_unique.
  replace (PI / 16) with ((PI / 16 - sin (4 * PI) / 64 - sin (2 * PI) ^ 3 / 48) - (0 / 16 - sin (4 * 0) / 64 - sin (2 * 0) ^ 3 / 48)).
  2:{ replace (4 * PI) with (2 * (2 * PI)) by ring. rewrite sin_2a, sin_2PI, !Rmult_0_r, sin_0. field. }
  apply (is_RInt_derive (fun t => t / 16 - sin (4 * t) / 64 - sin (2 * t) ^ 3 / 48)).
  - intros t _. auto_derive; [exact I|]. replace (4 * t) with (2 * (2 * t)) by ring. rewrite cos_2a, cos_2a, sin_2a.
    pose proof (sin2_cos2 t) as H. unfold Rsqr in H. set (p := sin t) in *. set (q := cos t) in *. clearbody p q.
    assert (E : q * q = 1 - p * p) by lra. clear H.
    transitivity (/ 16 - ((q * q - p * p) * (q * q - p * p) - 4 * (p * p) * (q * q)) / 16 - (q * q - p * p) * (4 * (p * p) * (q * q)) / 8); [field|].
    transitivity ((q * q) * ((p * p) * (p * p))); [rewrite E; field|ring].
  - intros t _. apply (@ex_derive_continuous R_AbsRing R_NormedModule). auto_derive. exact I.
Qed.
(** Taylor bounds for cos, on the whole line. *)
Lemma mono0 (f f' : R -> R) : f 0 = 0 -> (forall x, is_derive f x (f' x)) -> (forall x, 0 <= x -> 0 <= f' x) -> forall x, 0 <= x -> 0 <= f x.
Proof.
  intros H0 Hd Hp x [Hx|Hx]; [|subst; lra].
  destruct (MVT_gen f 0 x f') as (c & Hc & E).
  - intros y _. apply Hd.
  - intros y _. apply continuity_pt_filterlim, (@ex_derive_continuous R_AbsRing R_NormedModule). eexists. apply Hd.
  - rewrite Rmin_left, Rmax_right in Hc by lra. rewrite H0, Rminus_0_r, Rminus_0_r in E. rewrite E. apply Rmult_le_pos; [apply Hp|]; lra.
Qed.
Lemma cos_bounds x : 1 - x ^ 2 / 2 <= cos x <= 1 - x ^ 2 / 2 + x ^ 4 / 24.
Proof.
  assert (S1 : forall x, 0 <= x -> 0 <= x - sin x).
  { apply (mono0 _ (fun x => 1 - cos x)); [rewrite sin_0; ring|intros; auto_derive; [exact I|ring]|intros y _; pose proof (COS_bound y); lra]. }
  assert (S2 : forall x, 0 <= x -> 0 <= cos x - 1 + x ^ 2 / 2).
  { apply (mono0 _ (fun x => x - sin x)); [rewrite cos_0; field|intros; auto_derive; [exact I|field]|exact S1]. }
  assert (S3 : forall x, 0 <= x -> 0 <= sin x - x + x ^ 3 / 6).
  { apply (mono0 _ (fun x => cos x - 1 + x ^ 2 / 2)); [rewrite sin_0; field|intros; auto_derive; [exact I|cbn; field]|exact S2]. }
  assert (S4 : forall x, 0 <= x -> 0 <= 1 - x ^ 2 / 2 + x ^ 4 / 24 - cos x).
  { apply (mono0 _ (fun x => sin x - x + x ^ 3 / 6)); [rewrite cos_0; field|intros; auto_derive; [exact I|cbn; field]|exact S3]. }
  destruct (Rle_dec 0 x) as [H|H].
  - pose proof (S2 x H). pose proof (S4 x H). lra.
  - pose proof (S2 (- x) ltac:(lra)) as A. pose proof (S4 (- x) ltac:(lra)) as B. rewrite cos_neg in A, B.
    replace ((- x) ^ 2) with (x ^ 2) in A, B by ring. replace ((- x) ^ 4) with (x ^ 4) in B by ring. lra.
Qed.
(** Bounds of the Poisson integral. *)
Lemma ex_c2 a b : ex_RInt (fun t => cos t ^ 2) a b.
Proof. apply (@ex_RInt_continuous R_CompleteNormedModule). intros z _. apply (@ex_derive_continuous R_AbsRing R_NormedModule). auto_derive. exact I. Qed.
Lemma ex_c2s2 a b : ex_RInt (fun t => cos t ^ 2 * sin t ^ 2) a b.
Proof. apply (@ex_RInt_continuous R_CompleteNormedModule). intros z _. apply (@ex_derive_continuous R_AbsRing R_NormedModule). auto_derive. exact I. Qed.
Lemma ex_c2s4 a b : ex_RInt (fun t => cos t ^ 2 * sin t ^ 4) a b.
Proof. apply (@ex_RInt_continuous R_CompleteNormedModule). intros z _. apply (@ex_derive_continuous R_AbsRing R_NormedModule). auto_derive. exact I. Qed.
Lemma poisson_low u : PI / 2 * (1 - u ^ 2 / 8) <= RInt (jf u) 0 PI.
Proof.
  pose proof PI_RGT_0 as HP.
  replace (PI / 2 * (1 - u ^ 2 / 8)) with (RInt (fun t => cos t ^ 2 - u ^ 2 / 2 * (cos t ^ 2 * sin t ^ 2)) 0 PI).
  2:{ rewrite ri_minus; [|smooth|smooth]. rewrite (ri_scal (fun t => cos t ^ 2 * sin t ^ 2)) by smooth. rewrite int_cos2, int_cos2sin2. match goal with |- @eq _ ?a ?b => change (@eq R a b) end. field. }
  apply RInt_le; [lra|smooth|apply jf_ex|].
  intros t _. unfold jf. pose proof (proj1 (cos_bounds (u * sin t))) as H.
  assert (P : 0 <= cos t ^ 2) by apply pow2_ge_0. apply (Rmult_le_compat_l _ _ _ P) in H. eapply Rle_trans; [|exact H]. right. field.
Qed.
Lemma poisson_up u : RInt (jf u) 0 PI <= PI / 2 * (1 - u ^ 2 / 8 + u ^ 4 / 192).
Proof.
  pose proof PI_RGT_0 as HP.
  replace (PI / 2 * (1 - u ^ 2 / 8 + u ^ 4 / 192)) with (RInt (fun t => (cos t ^ 2 - u ^ 2 / 2 * (cos t ^ 2 * sin t ^ 2)) + u ^ 4 / 24 * (cos t ^ 2 * sin t ^ 4)) 0 PI).
  2:{ rewrite ri_plus; [|smooth|smooth]. rewrite ri_minus; [|smooth|smooth]. rewrite (ri_scal (fun t => cos t ^ 2 * sin t ^ 2)) by smooth. rewrite (ri_scal (fun t => cos t ^ 2 * sin t ^ 4)) by smooth. rewrite int_cos2, int_cos2sin2, int_cos2sin4. match goal with |- @eq _ ?a ?b => change (@eq R a b) end. field. }
  apply RInt_le; [lra|apply jf_ex|smooth|].
  intros t _. unfold jf. pose proof (proj2 (cos_bounds (u * sin t))) as H.
  assert (P : 0 <= cos t ^ 2) by apply pow2_ge_0. apply (Rmult_le_compat_l _ _ _ P) in H. eapply Rle_trans; [exact H|]. right. field.
Qed.
Lemma poisson_abs u : Rabs (RInt (jf u) 0 PI) <= PI / 2.
Proof.
  pose proof PI_RGT_0 as HP. rewrite <- int_cos2. apply Rabs_le. split.
  - rewrite <- (Ropp_involutive (RInt (jf u) 0 PI)). apply Ropp_le_contravar. rewrite <- ri_opp by apply jf_ex.
    apply RInt_le; [lra|unfold jf; smooth|smooth|]. intros t _. unfold jf. pose proof (COS_bound (u * sin t)). assert (P : 0 <= cos t ^ 2) by apply pow2_ge_0. nra.
  - apply RInt_le; [lra|apply jf_ex|smooth|]. intros t _. unfold jf. pose proof (COS_bound (u * sin t)). assert (P : 0 <= cos t ^ 2) by apply pow2_ge_0. nra.
Qed.
(** Strictly below its value on the axis. *)
Lemma poisson_strict u : 0 < u -> RInt (jf u) 0 PI < PI / 2.
Proof.
  intros Hu. pose proof PI_RGT_0 as HP. rewrite <- int_cos2.
  set (d := Rmin 1 (/ u)). assert (Hd : 0 < d) by (apply Rmin_glb_lt; [lra|apply Rinv_0_lt_compat, Hu]).
  assert (Hd1 : d <= 1) by apply Rmin_l. assert (Hd2 : u * d <= 1).
  { replace 1 with (u * / u) by (field; lra). apply Rmult_le_compat_l; [lra|apply Rmin_r]. }
  assert (HP2 : 1 < PI / 2) by (pose proof PI2_1; lra).
  assert (E1 : ex_RInt (fun t => cos t ^ 2 - jf u t) 0 d) by (unfold jf; smooth).
  assert (E2 : ex_RInt (fun t => cos t ^ 2 - jf u t) d PI) by (unfold jf; smooth).
  assert (P1 : 0 < RInt (fun t => cos t ^ 2 - jf u t) 0 d).
  { apply RInt_gt_0; [exact Hd| |].
    - intros t Ht. unfold jf. assert (C : 0 < cos t) by (apply cos_gt_0; lra). assert (S0 : 0 < sin t) by (apply sin_gt_0; lra).
      assert (S1 : sin t <= t) by (left; apply sin_lt_x; lra).
      assert (K : cos (u * sin t) < 1).
      { rewrite <- cos_0. apply cos_decreasing_1; try lra; [apply Rmult_le_pos; lra| |apply Rmult_lt_0_compat; lra]. apply Rle_trans with (u * d); [apply Rmult_le_compat_l; lra|lra]. }
      assert (0 < cos t ^ 2) by (apply pow_lt, C). nra.
    - intros t _. apply (@ex_derive_continuous R_AbsRing R_NormedModule). unfold jf. auto_derive. exact I. }
  assert (P2 : 0 <= RInt (fun t => cos t ^ 2 - jf u t) d PI).
  { apply RInt_ge_0; [lra|exact E2|]. intros t _. unfold jf. pose proof (COS_bound (u * sin t)). assert (P : 0 <= cos t ^ 2) by apply pow2_ge_0. nra. }
  assert (T : RInt (fun t => cos t ^ 2) 0 PI - RInt (jf u) 0 PI = RInt (fun t => cos t ^ 2 - jf u t) 0 d + RInt (fun t => cos t ^ 2 - jf u t) d PI).
  { rewrite <- ri_minus; [|smooth|apply jf_ex]. symmetry. exact (RInt_Chasles _ 0 d PI E1 E2). }
  lra.
Qed.

Lemma jinc_at w0 x y : 0 < w0 -> jinc_trans bessel_j1 w0 x y = RtoC (2 / PI * RInt (jf (radius x y / w0)) 0 PI).
Proof.
  intros Hw. unfold jinc_trans. fold (radius x y). pose proof PI_RGT_0 as HP. set (u := radius x y / w0). cbn zeta. f_equal.
  assert (0 <= u) by (apply Rdiv_le_0_compat; [apply sqrt_pos|exact Hw]).
  destruct (Rltb 0 u) eqn:B.
  - apply PyBase.Rltb_true in B. rewrite bessel_poisson by lra. field. split; lra.
  - apply PyBase.Rltb_false in B. replace u with 0 by lra. unfold jf.
    rewrite (RInt_ext _ (fun t => cos t ^ 2)), int_cos2; [field; lra|]. intros t _. rewrite Rmult_0_l, cos_0. apply Rmult_1_r.
Qed.
Lemma c76_jinc w0 : 0 < w0 ->
  jinc_trans bessel_j1 w0 0 0 = RtoC 1 /\
  (forall x y x' y', radius x y = radius x' y' -> jinc_trans bessel_j1 w0 x y = jinc_trans bessel_j1 w0 x' y') /\
  (forall x y, Im (jinc_trans bessel_j1 w0 x y) = 0 /\ Cmod (jinc_trans bessel_j1 w0 x y) <= 1) /\
  (forall x y, (x, y) <> (0, 0) -> Re (jinc_trans bessel_j1 w0 x y) < 1) /\
  (forall x y, let u := radius x y / w0 in 1 - u ^ 2 / 8 <= Re (jinc_trans bessel_j1 w0 x y) <= 1 - u ^ 2 / 8 + u ^ 4 / 192).
Proof.
  intros Hw. pose proof PI_RGT_0 as HP.
  assert (R0 : radius 0 0 / w0 = 0) by (unfold radius; replace (0 ^ 2 + 0 ^ 2) with 0 by ring; rewrite sqrt_0; field; lra).
  assert (K : forall z, 2 / PI * (PI / 2 * z) = z) by (intros; field; lra).
  assert (Kp : 0 < 2 / PI) by (apply Rdiv_lt_0_compat; lra).
  split; [|split; [|split; [|split]]].
  - unfold jinc_trans. fold (radius 0 0). rewrite R0, (proj2 (PyBase.Rltb_false 0 0)) by lra. reflexivity.
  - intros x y x' y' E. rewrite !jinc_at by exact Hw. rewrite E. reflexivity.
  - intros x y. rewrite jinc_at by exact Hw. split; [reflexivity|]. rewrite Cmod_R, Rabs_mult, (Rabs_pos_eq (2 / PI)) by lra.
    rewrite <- (K 1), Rmult_1_r. apply Rmult_le_compat_l; [lra|apply poisson_abs].
  - intros x y Hxy. rewrite jinc_at by exact Hw. cbn [Re fst RtoC].
    assert (Rp : 0 < radius x y).
    { apply sqrt_lt_R0. destruct (Req_dec x 0) as [Ex|Nx]; [destruct (Req_dec y 0) as [Ey|Ny]|]; [subst; contradiction Hxy; reflexivity| |]; nra. }
    rewrite <- (K 1), Rmult_1_r. apply Rmult_lt_compat_l; [lra|]. apply poisson_strict, Rdiv_lt_0_compat; assumption.
  - intros x y. cbn zeta. rewrite jinc_at by exact Hw. cbn [Re fst RtoC]. set (u := radius x y / w0). split.
    + rewrite <- (K (1 - u ^ 2 / 8)). apply Rmult_le_compat_l; [lra|apply poisson_low].
    + rewrite <- (K (1 - u ^ 2 / 8 + u ^ 4 / 192)). apply Rmult_le_compat_l; [lra|apply poisson_up].
Qed.

(** ** Super-Gaussian *)
Lemma sg_at w0 n x y : 0 < w0 -> super_gaussian_trans w0 n x y = RtoC (exp (- np_power ((radius x y / w0) ^ 2) (n / 2))).
Proof.
  intros Hw. unfold super_gaussian_trans, radius. do 4 f_equal. unfold Rdiv. rewrite Rpow_mult_distr, pow2_sqrt by nra. rewrite pow_inv. reflexivity.
Qed.

Lemma radius_pos x y : (x, y) <> (0, 0) -> 0 < radius x y.
Proof.
  intros H. apply sqrt_lt_R0. destruct (Req_dec x 0) as [Ex|Nx]; [destruct (Req_dec y 0) as [Ey|Ny]|]; [subst; contradiction H; reflexivity| |]; nra.
Qed.
Lemma radius_0 : radius 0 0 = 0.
Proof. unfold radius. replace (0 ^ 2 + 0 ^ 2) with 0 by ring. apply sqrt_0. Qed.
Lemma np_power_half u n : 0 < u -> np_power (u ^ 2) (n / 2) = Rpower u n.
Proof.
  intros Hu. unfold np_power. rewrite (proj2 (Reqb_false (u ^ 2) 0)) by (assert (0 < u ^ 2) by (apply pow_lt, Hu); lra).
  rewrite <- Rpower_pow by exact Hu. rewrite Rpower_mult. f_equal. cbn [INR]. field.
Qed.
Lemma sg_pos w0 n x y : 0 < w0 -> 0 < radius x y -> super_gaussian_trans w0 n x y = RtoC (exp (- Rpower (radius x y / w0) n)).
Proof. intros Hw Hr. rewrite sg_at by exact Hw. rewrite np_power_half; [reflexivity|]. apply Rdiv_lt_0_compat; assumption. Qed.
Lemma sg_centre w0 n x y : 0 < w0 -> 0 < n -> radius x y = 0 -> super_gaussian_trans w0 n x y = RtoC 1.
Proof. intros Hw Hn Hr. rewrite sg_at by exact Hw. rewrite Hr. replace ((0 / w0) ^ 2) with 0 by (field; lra). rewrite np_power_0 by lra. rewrite Ropp_0, exp_0. reflexivity. Qed.
Lemma c76_super_gaussian w0 n : 0 < w0 -> 0 < n ->
  super_gaussian_trans w0 n 0 0 = RtoC 1 /\
  (forall x y, radius x y = w0 -> super_gaussian_trans w0 n x y = RtoC (exp (- 1))) /\
  (forall x y, Im (super_gaussian_trans w0 n x y) = 0 /\ 0 < Re (super_gaussian_trans w0 n x y)) /\
  (forall x y x' y', radius x y < radius x' y' -> Re (super_gaussian_trans w0 n x' y') < Re (super_gaussian_trans w0 n x y)) /\
  (forall x y x' y', radius x y = radius x' y' -> super_gaussian_trans w0 n x y = super_gaussian_trans w0 n x' y').
Proof.
  intros Hw Hn. split; [|split; [|split; [|split]]].
  - apply sg_centre; [assumption..|exact radius_0].
  - intros x y E. rewrite sg_pos by lra. rewrite E. replace (w0 / w0) with 1 by (field; lra). unfold Rpower. rewrite ln_1, Rmult_0_r, exp_0. reflexivity.
  - intros x y. rewrite sg_at by exact Hw. split; [reflexivity|]. apply exp_pos.
  - intros x y x' y' E. assert (P' : 0 < radius x' y') by (pose proof (sqrt_pos (x ^ 2 + y ^ 2)); unfold radius in *; lra).
    rewrite (sg_pos w0 n x' y') by assumption. cbn [Re fst RtoC].
    destruct (Req_dec (radius x y) 0) as [Z|Z].
    + rewrite sg_centre by assumption. cbn [Re fst RtoC]. apply exp_neg_lt_1. unfold Rpower. apply exp_pos.
    + assert (P : 0 < radius x y) by (pose proof (sqrt_pos (x ^ 2 + y ^ 2)); unfold radius in *; lra). rewrite sg_pos by assumption. cbn [Re fst RtoC].
      apply exp_increasing, Ropp_lt_contravar. apply Rlt_Rpower_l; [exact Hn|]. split; [apply Rdiv_lt_0_compat; assumption|]. apply Rmult_lt_compat_r; [apply Rinv_0_lt_compat, Hw|exact E].
  - intros x y x' y' E. rewrite !sg_at by exact Hw. rewrite E. reflexivity.
Qed.
Lemma c76_orders w0 x y : 0 < w0 ->
  super_gaussian_trans w0 2 x y = gaussian_trans_at w0 0 x y /\ super_gaussian_trans w0 1 x y = RtoC (exp (- (radius x y / w0))).
Proof.
  intros Hw. split.
  - rewrite sg_at by exact Hw. replace (2 / 2) with 1 by field. rewrite np_power_1 by apply pow2_ge_0.
    unfold gaussian_trans_at. cbn zeta. replace ((1, - 0) : C) with (RtoC 1) by (unfold RtoC; f_equal; ring).
    rewrite Cmult_1_r. replace (Cdiv (RtoC (- (x ^ 2 + y ^ 2))) (RtoC (w0 ^ 2))) with (RtoC (- (radius x y / w0) ^ 2)).
    + unfold cexp, cis, RtoC. cbn [fst snd Re Im]. rewrite cos_0, sin_0. unfold Cdiv, Cinv, Cmult. cbn [fst snd]. f_equal; field.
    + unfold Cdiv. rewrite <- RtoC_inv by (apply pow_nonzero; lra). rewrite <- RtoC_mult. f_equal.
      unfold radius, Rdiv. rewrite Rpow_mult_distr, pow2_sqrt by nra. rewrite pow_inv. ring.
  - rewrite sg_at by exact Hw. destruct (Req_dec (radius x y) 0) as [Z|Z].
    + rewrite Z. replace ((0 / w0) ^ 2) with 0 by (field; lra). replace (0 / w0) with 0 by (field; lra). rewrite np_power_0 by lra. reflexivity.
    + assert (P : 0 < radius x y) by (pose proof (sqrt_pos (x ^ 2 + y ^ 2)); unfold radius in *; lra).
      rewrite np_power_half by (apply Rdiv_lt_0_compat; assumption). rewrite Rpower_1 by (apply Rdiv_lt_0_compat; assumption). reflexivity.
Qed.
(** Large orders: a top hat of radius w0. *)
Lemma c76_top_hat w0 x y : 0 < w0 ->
  (radius x y < w0 -> is_lim_seq (fun n => Re (super_gaussian_trans w0 (INR (S n)) x y)) 1) /\
  (w0 < radius x y -> is_lim_seq (fun n => Re (super_gaussian_trans w0 (INR (S n)) x y)) 0).
Proof.
  intros Hw. pose proof (sqrt_pos (x ^ 2 + y ^ 2)) as R0. fold (radius x y) in R0.
  assert (E : 0 < radius x y -> forall n, Re (super_gaussian_trans w0 (INR (S n)) x y) = exp (- (radius x y / w0) ^ S n)).
  { intros P n. rewrite sg_pos by assumption. cbn [Re fst RtoC]. rewrite Rpower_pow by (apply Rdiv_lt_0_compat; assumption). reflexivity. }
  split; intros H.
  - destruct (Req_dec (radius x y) 0) as [Z|Z].
    + apply is_lim_seq_ext with (fun _ => 1); [|apply is_lim_seq_const]. intros n. rewrite sg_centre; [reflexivity|assumption|apply lt_0_INR; lia|exact Z].
    + apply is_lim_seq_ext with (fun n => exp (- (radius x y / w0) ^ S n)); [intros n; symmetry; apply E; lra|].
      rewrite <- exp_0. apply (is_lim_seq_continuous exp (fun n => - (radius x y / w0) ^ S n) 0); [apply derivable_continuous_pt, derivable_pt_exp|].
      rewrite <- Ropp_0. apply (is_lim_seq_opp (fun n => (radius x y / w0) ^ S n) (Finite 0)). apply (is_lim_seq_incr_1 (fun n => (radius x y / w0) ^ n)). apply is_lim_seq_geom.
      rewrite Rabs_pos_eq by (apply Rdiv_le_0_compat; lra). apply (Rmult_lt_reg_r w0); [exact Hw|]. unfold Rdiv. rewrite Rmult_assoc, Rinv_l by lra. lra.
  - apply is_lim_seq_ext with (fun n => exp (- (radius x y / w0) ^ S n)); [intros n; symmetry; apply E; lra|].
    apply (filterlim_comp _ _ _ (fun n => - (radius x y / w0) ^ S n) exp _ (Rbar_locally m_infty)); [|apply is_lim_exp_m].
    change (is_lim_seq (fun n => - (radius x y / w0) ^ S n) (Rbar_opp p_infty)). apply -> is_lim_seq_opp. apply (is_lim_seq_incr_1 (fun n => (radius x y / w0) ^ n)). apply is_lim_seq_geom_p.
    apply (Rmult_lt_reg_r w0); [exact Hw|]. unfold Rdiv. rewrite Rmult_assoc, Rinv_l by lra. lra.
Qed.
