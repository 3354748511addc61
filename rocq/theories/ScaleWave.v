(** A solver without a built-in length (instance for C104): Huygens sum over the radial points, angular spectrum in xyt. *)
From Coq Require Import FunctionalExtensionality.
From Verif Require Import PyBase CSum NpFFT FFTProofs NumPy GridModel LaserSpec LaserModel SolverSpec SolverProofs WaveSolver LtiExamples ProfileModel AnalyticModel OpticsModel ScaleSpec ScaleProofs.
Open Scope R_scope.

Lemma nth_mul s l i : nth i (map (Rmult s) l) 0 = s * nth i l 0.
Proof. rewrite <- (Rmult_0_r s) at 1. apply map_nth. Qed.
Lemma nth_div s l i : nth i (map (fun k => k / s) l) 0 = nth i l 0 / s.
Proof. replace 0 with (0 / s) at 1 by (unfold Rdiv; ring). apply (map_nth (fun k => k / s)). Qed.
Lemma sqrt_scale s x : 0 < s -> sqrt (s ^ 2 * x) = s * sqrt x.
Proof. intros Hs. rewrite sqrt_mult_alt by apply pow2_ge_0. rewrite sqrt_pow2 by lra. reflexivity. Qed.
Theorem linear_example_scale_free : scale_free linear_example.
Proof.
  intros s Hs. assert (s0 : s <> 0) by lra. split.
  - intros p x d k j. cbn [linear_example step_rt]. unfold huygens. cbn [scale_rt_prop rp_r rp_k rp_rnew]. rewrite map_length.
    apply csum_ext. intros q _. f_equal. f_equal.
    assert (E : nth j match option_map (map (Rmult s)) (rp_rnew p) with None => map (Rmult s) (rp_r p) | Some l => l end 0 =
                s * nth j match rp_rnew p with None => rp_r p | Some l => l end 0) by (destruct (rp_rnew p); apply nth_mul).
    rewrite E, nth_mul, nth_div.
    replace ((s * d) ^ 2 + (s * nth q (rp_r p) 0 - s * nth j match rp_rnew p with None => rp_r p | Some l => l end 0) ^ 2)
      with (s ^ 2 * (d ^ 2 + (nth q (rp_r p) 0 - nth j match rp_rnew p with None => rp_r p | Some l => l end 0) ^ 2)) by ring.
    rewrite sqrt_scale by exact Hs. field. exact s0.
  - intros p x d k i j. cbn [linear_example step_xyt wave_solvers]. cbn [scale_fft2_prop fp_x fp_y snd].
    apply ifft2_ext. intros u v _ _. f_equal. f_equal. unfold exact_kz. cbn [scale_fft2_prop fp_x fp_y fp_k fst snd]. rewrite nth_div.
    assert (D : forall n l u, dft_omega n (s * l / (INR n - 1)) u = dft_omega n (l / (INR n - 1)) u / s).
    { intros n l w. unfold dft_omega, Rdiv. rewrite !Rinv_mult. ring. }
    rewrite !D.
    set (A := nth k (fp_k p) 0). set (B := dft_omega (snd (fp_x p)) _ u). set (C := dft_omega (snd (fp_y p)) _ v).
    replace ((A / s) ^ 2 - (B / s) ^ 2 - (C / s) ^ 2) with ((/ s) ^ 2 * (A ^ 2 - B ^ 2 - C ^ 2)) by (unfold Rdiv; ring).
    rewrite sqrt_scale by (apply Rinv_0_lt_compat, Hs). field. exact s0.
Qed.

(** ** The library's profiles and elements, built with scaled arguments *)
Section Elements.
Variable s : R.
Hypothesis Hs : 0 < s.
Let s0 : s <> 0. Proof. apply Rgt_not_eq, Hs. Qed.
Lemma inv_s2 : / (s ^ 2) = / s * / s. Proof. simpl. rewrite Rmult_1_r. apply Rinv_mult. Qed.
Lemma quot2 a b : a / (s * b) ^ 2 = (a / s ^ 2) / b ^ 2.
Proof. replace ((s * b) ^ 2) with (s ^ 2 * b ^ 2) by ring. unfold Rdiv. rewrite Rinv_mult. ring. Qed.
Lemma sub_quot t tp : (t - s * tp) ^ 2 / s ^ 2 = (t / s - tp) ^ 2.
Proof. field. apply s0. Qed.
Lemma sum_quot x y : (x ^ 2 + y ^ 2) / s ^ 2 = (x / s) ^ 2 + (y / s) ^ 2.
Proof. field. apply s0. Qed.
Lemma omega_quot l tp : long_omega0 (s * l) * (s * tp) = long_omega0 l * tp.
Proof. unfold long_omega0, Rdiv. rewrite Rinv_mult. replace (2 * PI * c_light * (/ s * / l) * (s * tp)) with (2 * PI * c_light * / l * tp * (s * / s)) by ring. rewrite Rinv_r by apply s0. ring. Qed.
Lemma gaussian_long_sc l tau tp cep t : gaussian_long (s * l) (s * tau) (s * tp) cep t = gaussian_long l tau tp cep (t / s).
Proof.
  unfold gaussian_long. rewrite omega_quot. f_equal. f_equal. unfold Rdiv at 1 2. rewrite !Ropp_mult_distr_l_reverse. f_equal.
  change ((t - s * tp) ^ 2 / (s * tau) ^ 2 = (t / s - tp) ^ 2 / tau ^ 2). rewrite quot2, sub_quot. reflexivity.
Qed.
Lemma super_long_sc l tau tp n cep t : super_gaussian_long (s * l) (s * tau) (s * tp) n cep t = super_gaussian_long l tau tp n cep (t / s).
Proof. unfold super_gaussian_long. rewrite omega_quot, quot2, sub_quot. reflexivity. Qed.
Lemma cosine_long_sc l tau tp cep t : cosine_long (s * l) (s * tau) (s * tp) cep t = cosine_long l tau tp cep (t / s).
Proof.
  unfold cosine_long. rewrite omega_quot. replace ((t - s * tp) / (s * tau)) with ((t / s - tp) / tau); [reflexivity|].
  unfold Rdiv. rewrite Rinv_mult. replace ((t - s * tp) * (/ s * / tau)) with ((t * / s - tp * (s * / s)) * / tau) by ring. rewrite Rinv_r by apply s0. ring.
Qed.
Lemma zfoc_sc w0 l zf : z_foc_over_zr (s * w0) (Some (s * l)) (s * zf) = z_foc_over_zr w0 (Some l) zf.
Proof.
  unfold z_foc_over_zr, Reqb. destruct (Req_EM_T (s * zf) 0) as [H|H], (Req_EM_T zf 0) as [H'|H']; try reflexivity.
  - exfalso. apply Rmult_integral in H. destruct H; [apply (s0 H)|contradiction].
  - exfalso. apply H. rewrite H'. ring.
  - f_equal. replace (PI * (s * w0) ^ 2) with (s ^ 2 * (PI * w0 ^ 2)) by ring. unfold Rdiv. rewrite Rinv_mult, inv_s2.
    replace (s * zf * (s * l) * (/ s * / s * / (PI * w0 ^ 2))) with (s * / s * (s * / s) * (zf * l * / (PI * w0 ^ 2))) by ring. rewrite Rinv_r by apply s0. ring.
Qed.
Lemma Cinv_div a w d : Cdiv (RtoC a) (Cmult (RtoC ((s * w) ^ 2)) d) = Cdiv (RtoC (a / s ^ 2)) (Cmult (RtoC (w ^ 2)) d).
Proof.
  destruct d as [u v]. unfold Cdiv, Cinv, Cmult, RtoC; cbn [fst snd].
  set (D := (w ^ 2 * u - 0 * v) ^ 2 + (w ^ 2 * v + 0 * u) ^ 2).
  replace (((s * w) ^ 2 * u - 0 * v) ^ 2 + ((s * w) ^ 2 * v + 0 * u) ^ 2) with (s ^ 2 * s ^ 2 * D) by (unfold D; ring).
  assert (E : / (s ^ 2 * s ^ 2 * D) = / s ^ 2 * / s ^ 2 * / D) by (rewrite !Rinv_mult; reflexivity).
  unfold Rdiv. rewrite E. assert (F : s ^ 2 * / s ^ 2 = 1) by (apply Rinv_r, pow_nonzero, s0).
  set (I := / s ^ 2) in *. f_equal.
  - replace (a * (((s * w) ^ 2 * u - 0 * v) * (I * I * / D)) - 0 * (- ((s * w) ^ 2 * v + 0 * u) * (I * I * / D)))
      with ((s ^ 2 * I) * (a * I * ((w ^ 2 * u - 0 * v) * / D) - 0 * (- (w ^ 2 * v + 0 * u) * / D))) by ring. rewrite F. ring.
  - replace (a * (- ((s * w) ^ 2 * v + 0 * u) * (I * I * / D)) + 0 * (((s * w) ^ 2 * u - 0 * v) * (I * I * / D)))
      with ((s ^ 2 * I) * (a * I * (- (w ^ 2 * v + 0 * u) * / D) + 0 * ((w ^ 2 * u - 0 * v) * / D))) by ring. rewrite F. ring.
Qed.
Lemma gaussian_trans_sc w0 z x y : gaussian_trans_at (s * w0) z x y = gaussian_trans_at w0 z (x / s) (y / s).
Proof.
  unfold gaussian_trans_at. rewrite Cinv_div. replace (- (x ^ 2 + y ^ 2) / s ^ 2) with (- ((x / s) ^ 2 + (y / s) ^ 2)); [reflexivity|].
  rewrite <- sum_quot. unfold Rdiv. ring.
Qed.
Lemma super_trans_sc w0 n x y : super_gaussian_trans (s * w0) n x y = super_gaussian_trans w0 n (x / s) (y / s).
Proof. unfold super_gaussian_trans. rewrite quot2, sum_quot. reflexivity. Qed.
Lemma sqrt_quot x y : sqrt (x ^ 2 + y ^ 2) / s = sqrt ((x / s) ^ 2 + (y / s) ^ 2).
Proof.
  rewrite <- sum_quot. replace ((x ^ 2 + y ^ 2) / s ^ 2) with ((/ s) ^ 2 * (x ^ 2 + y ^ 2)) by (field; apply s0).
  rewrite sqrt_scale by (apply Rinv_0_lt_compat, Hs). unfold Rdiv. ring.
Qed.
Lemma jinc_trans_sc j1 w0 x y : jinc_trans j1 (s * w0) x y = jinc_trans j1 w0 (x / s) (y / s).
Proof.
  unfold jinc_trans. replace (sqrt (x ^ 2 + y ^ 2) / (s * w0)) with (sqrt ((x / s) ^ 2 + (y / s) ^ 2) / w0); [reflexivity|].
  rewrite <- sqrt_quot. unfold Rdiv. rewrite Rinv_mult. ring.
Qed.
(** Combined profiles inherit the law. *)
Lemma combined_sc l pol E long long' trans trans' p : (forall t, long' t = long (t / s)) -> (forall x y, trans' x y = trans (x / s) (y / s)) ->
  combined_profile l pol E long trans = Ok p ->
  combined_profile (s * l) pol (option_map (Rmult (s ^ 3)) E) long' trans' = Ok (scale_profile s p).
Proof.
  intros Hl Ht. unfold combined_profile, profile_init. destruct pol as [|px [|py [|? ?]]]; try discriminate. cbn [bind p_omega0 p_lambda0 p_pol p_dtype p_eval].
  intros [= <-]. unfold scale_profile. cbn [p_omega0 p_lambda0 p_pol p_dtype p_eval p_energy option_map]. f_equal. f_equal.
  - unfold Rdiv. rewrite Rinv_mult. ring.
  - apply functional_extensionality; intros x. apply functional_extensionality; intros y. apply functional_extensionality; intros t. rewrite Hl, Ht. reflexivity.
Qed.
Theorem gaussian_profile_sc l pol E w0 tau tp cep zf p : gaussian_profile l pol E w0 tau tp cep zf = Ok p ->
  gaussian_profile (s * l) pol (option_map (Rmult (s ^ 3)) E) (s * w0) (s * tau) (s * tp) cep (s * zf) = Ok (scale_profile s p).
Proof.
  unfold gaussian_profile, gaussian_transverse. rewrite zfoc_sc. destruct (z_foc_over_zr w0 (Some zf) l) as [z|]; [|discriminate]. cbn [bind].
  apply combined_sc; intros; [apply gaussian_long_sc | apply gaussian_trans_sc].
Qed.
(** Optical elements. *)
Theorem parabolic_sc f x y w w0 : parabolic_mirror (s * f) x y w w0 = scale_optic s (parabolic_mirror f) x y w w0.
Proof.
  unfold parabolic_mirror, scale_optic. rewrite <- sum_quot. f_equal. f_equal. replace (2 * c_light * (s * f)) with (s * (2 * c_light * f)) by ring.
  unfold Rdiv. rewrite Rinv_mult, inv_s2.
  replace (s * w * ((x ^ 2 + y ^ 2) * (/ s * / s)) * / (2 * c_light * f)) with (s * / s * (w * (x ^ 2 + y ^ 2) * (/ s * / (2 * c_light * f)))) by ring. rewrite Rinv_r by apply s0. ring.
Qed.
Theorem axicon_sc gamma x y w w0 : axicon gamma x y w w0 = scale_optic s (axicon gamma) x y w w0.
Proof.
  unfold axicon, scale_optic. rewrite <- sqrt_quot. f_equal. f_equal. unfold Rdiv.
  replace (2 * (s * w * / c_light) * (sqrt (x ^ 2 + y ^ 2) * / s) * tan (/ 2 * gamma)) with (s * / s * (2 * (w * / c_light) * sqrt (x ^ 2 + y ^ 2) * tan (/ 2 * gamma))) by ring.
  rewrite Rinv_r by apply s0. ring.
Qed.
Theorem axiparabola_sc f0 delta Rad x y w w0 : f0 <> 0 -> Rad <> 0 -> axiparabola (s * f0) (s * delta) (s * Rad) x y w w0 = scale_optic s (axiparabola f0 delta Rad) x y w w0.
Proof.
  intros Hf HR. unfold axiparabola, scale_optic. rewrite <- sum_quot. set (r2 := x ^ 2 + y ^ 2).
  assert (P : 0 < s ^ 2) by (apply pow_lt, Hs).
  assert (E : Rltb ((s * Rad) ^ 2) r2 = Rltb (Rad ^ 2) (r2 / s ^ 2)).
  { replace ((s * Rad) ^ 2) with (s ^ 2 * Rad ^ 2) by ring. assert (Q : r2 = s ^ 2 * (r2 / s ^ 2)) by (field; apply s0). rewrite Q at 1. set (q := r2 / s ^ 2). unfold Rltb.
    destruct (Rlt_dec (s ^ 2 * Rad ^ 2) (s ^ 2 * q)) as [H|H], (Rlt_dec (Rad ^ 2) q) as [H'|H']; try reflexivity; exfalso.
    - apply H'. apply (Rmult_lt_reg_l (s ^ 2)); assumption.
    - apply H. apply Rmult_lt_compat_l; assumption. }
  rewrite E. destruct (Rltb (Rad ^ 2) (r2 / s ^ 2)); [reflexivity|]. f_equal. f_equal. unfold axiparabola_sag.
  pose proof c_light_pos. field. repeat split; try assumption; try apply s0; lra.
Qed.
Theorem poly_sc gdd tod fod x y w w0 : polynomial_spectral_phase (s ^ 2 * gdd) (s ^ 3 * tod) (s ^ 4 * fod) x y w w0 = scale_optic s (polynomial_spectral_phase gdd tod fod) x y w w0.
Proof. unfold polynomial_spectral_phase, scale_optic. f_equal. field. Qed.
End Elements.
