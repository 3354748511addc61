From Verif Require Import PyBase CSum NumPy NpMath NpMathProofs GridModel GridSpec LaserSpec LaserModel LaserInitProofs EnergyProofs FrequencyProofs ProfileModel ProfileSpec ProfileProofs AnalyticModel.
Open Scope R_scope.

(** ** Small facts *)
Lemma pow2_gt_0 r : r <> 0 -> 0 < r ^ 2.
Proof. intros H. pose proof (Rsqr_pos_lt r H) as X. rewrite Rsqr_pow2 in X. exact X. Qed.
Lemma z_foc_ok w0 l z : z_foc_over_zr w0 (Some l) z = Ok (z * l / (PI * w0 ^ 2)).
Proof. unfold z_foc_over_zr. destruct (Reqb z 0) eqn:E; [|reflexivity]. apply Reqb_true in E. rewrite E. f_equal. unfold Rdiv. ring. Qed.
Lemma dfac_norm2 z : Cnorm2 (1, - z) = 1 + z ^ 2.
Proof. unfold Cnorm2. cbn [fst snd]. ring. Qed.
Lemma dfac_neq0 z : (1, - z) <> RtoC 0.
Proof. intros E. apply (f_equal fst) in E. simpl in E. lra. Qed.
Lemma Cmod_dfac z : Cmod (1, - z) = sqrt (1 + z ^ 2).
Proof. rewrite Cmod_Cnorm2, dfac_norm2. reflexivity. Qed.
Lemma gauss_exponent w0 z s : w0 <> 0 ->
  Cdiv (RtoC (- s)) (Cmult (RtoC (w0 ^ 2)) (1, - z)) = (- s / (w0 ^ 2 * (1 + z ^ 2)), - (s * z) / (w0 ^ 2 * (1 + z ^ 2))).
Proof.
  intros Hw. assert (Hz : 1 + z ^ 2 <> 0) by (pose proof (pow2_ge_0 z); lra).
  assert (Hb : Cmult (RtoC (w0 ^ 2)) (1, - z) <> RtoC 0).
  { intros E. apply (f_equal fst) in E. simpl in E. apply (pow_nonzero w0 2 Hw). rewrite <- E. simpl. ring. }
  set (c := (- s / (w0 ^ 2 * (1 + z ^ 2)), - (s * z) / (w0 ^ 2 * (1 + z ^ 2)))).
  assert (E : RtoC (- s) = Cmult c (Cmult (RtoC (w0 ^ 2)) (1, - z))).
  { unfold c, Cmult, RtoC; cbn [fst snd]. f_equal; field; repeat split; first [exact Hw|lra|idtac]. 
    all: intros E; apply Hz; rewrite <- E; ring. }
  rewrite E. unfold Cdiv. rewrite <- Cmult_assoc, Cinv_r by exact Hb. apply Cmult_1_r.
Qed.
Lemma gaussian_trans_mod w0 z x y : w0 <> 0 ->
  Cmod (gaussian_trans_at w0 z x y) = exp (- (x ^ 2 + y ^ 2) / (w0 ^ 2 * (1 + z ^ 2))) / sqrt (1 + z ^ 2).
Proof.
  intros Hw. unfold gaussian_trans_at. rewrite gauss_exponent by exact Hw.
  rewrite Cmod_div by apply dfac_neq0. rewrite Cmod_cexp, Cmod_dfac. reflexivity.
Qed.
Lemma gaussian_trans_focus w0 x y : w0 <> 0 -> gaussian_trans_at w0 0 x y = RtoC (exp (- (x ^ 2 + y ^ 2) / w0 ^ 2)).
Proof.
  intros Hw. unfold gaussian_trans_at. rewrite gauss_exponent by exact Hw.
  replace (- (x ^ 2 + y ^ 2) / (w0 ^ 2 * (1 + 0 ^ 2))) with (- (x ^ 2 + y ^ 2) / w0 ^ 2) by (field; exact Hw).
  replace (- ((x ^ 2 + y ^ 2) * 0) / (w0 ^ 2 * (1 + 0 ^ 2))) with 0 by (field; exact Hw).
  change (- (x ^ 2 + y ^ 2) / w0 ^ 2, 0) with (RtoC (- (x ^ 2 + y ^ 2) / w0 ^ 2)). rewrite cexp_real.
  replace (1, - 0) with (RtoC 1) by (unfold RtoC; f_equal; ring). unfold Cdiv. rewrite <- RtoC_inv by lra. rewrite <- RtoC_mult. f_equal. field.
Qed.
Lemma gaussian_long_mod l tau tp cep t : Cmod (gaussian_long l tau tp cep t) = exp (- (t - tp) ^ 2 / tau ^ 2).
Proof. unfold gaussian_long. rewrite Cmod_cexp. reflexivity. Qed.

(** ** C42 *)
Lemma gaussian_profile_inv l pol E w0 tau tp cep zf p : gaussian_profile l pol E w0 tau tp cep zf = Ok p ->
  (exists px py, pol = [px; py]) /\ p_lambda0 p = l /\ p_omega0 p = 2 * PI * c_light / l /\ p_energy p = Some E /\ p_dtype p = Complex128 /\
  forall x y t, p_eval p x y t = Cmult (gaussian_trans_at w0 (zf * l / (PI * w0 ^ 2)) x y) (gaussian_long l tau tp cep t).
Proof.
  unfold gaussian_profile, gaussian_transverse. rewrite z_foc_ok. cbn [bind]. unfold combined_profile, profile_init.
  destruct pol as [|px [|py [|? ?]]]; cbn [bind]; try discriminate. intros H. injection H as <-. cbn [p_lambda0 p_omega0 p_energy p_dtype p_eval].
  split; [eauto|]. do 4 (split; [reflexivity|]). intros x y t. f_equal. apply (f_equal (fun z => gaussian_trans_at w0 z x y)). unfold Rdiv. simpl. ring.
Qed.
Lemma c42_constructs l px py E w0 tau tp cep zf : exists p, gaussian_profile l [px; py] E w0 tau tp cep zf = Ok p.
Proof. unfold gaussian_profile, gaussian_transverse. rewrite z_foc_ok. eexists. reflexivity. Qed.
Lemma c42_focus l pol E w0 tau tp cep p : gaussian_profile l pol E w0 tau tp cep 0 = Ok p -> w0 <> 0 -> tau <> 0 ->
  forall x y t, p_eval p x y t =
    cexp (- (x ^ 2 + y ^ 2) / w0 ^ 2 - (t - tp) ^ 2 / tau ^ 2, cep + 2 * PI * c_light / l * tp).
Proof.
  intros H Hw Ht x y t. destruct (gaussian_profile_inv _ _ _ _ _ _ _ _ _ H) as (_ & _ & _ & _ & _ & ->).
  replace (0 * l / (PI * w0 ^ 2)) with 0 by (unfold Rdiv; ring). rewrite gaussian_trans_focus by exact Hw. rewrite <- cexp_real.
  unfold gaussian_long. rewrite <- cexp_plus. f_equal. unfold Cplus, RtoC; cbn [fst snd]. unfold long_omega0. f_equal; [|ring]. field. split; assumption.
Qed.
Lemma c42_modulus l pol E w0 tau tp cep zf p : gaussian_profile l pol E w0 tau tp cep zf = Ok p -> 0 < l -> 0 < w0 -> tau <> 0 ->
  let zR := PI * w0 ^ 2 / l in let w := w0 * sqrt (1 + (zf / zR) ^ 2) in
  forall x y t, Cmod (p_eval p x y t) = w0 / w * exp (- (x ^ 2 + y ^ 2) / w ^ 2 - (t - tp) ^ 2 / tau ^ 2).
Proof.
  intros H Hl Hw Ht zR w x y t. pose proof PI_RGT_0 as HP. destruct (gaussian_profile_inv _ _ _ _ _ _ _ _ _ H) as (_ & _ & _ & _ & _ & ->).
  rewrite Cmod_mult, gaussian_trans_mod, gaussian_long_mod by lra.
  assert (Ez : zf * l / (PI * w0 ^ 2) = zf / zR) by (unfold zR; field; repeat split; lra). rewrite Ez. subst w.
  set (q := zf / zR). pose proof (pow2_ge_0 q) as Hq. assert (Hs : 0 < sqrt (1 + q ^ 2)) by (apply sqrt_lt_R0; lra).
  assert (Es : sqrt (1 + q ^ 2) ^ 2 = 1 + q ^ 2) by (rewrite <- Rsqr_pow2; apply Rsqr_sqrt; lra).
  rewrite Rpow_mult_distr, Es. 
  replace (- (x ^ 2 + y ^ 2) / (w0 ^ 2 * (1 + q ^ 2)) - (t - tp) ^ 2 / tau ^ 2) with
    (- (x ^ 2 + y ^ 2) / (w0 ^ 2 * (1 + q ^ 2)) + - (t - tp) ^ 2 / tau ^ 2) by (field; repeat split; lra).
  rewrite exp_plus. generalize (exp (- (x ^ 2 + y ^ 2) / (w0 ^ 2 * (1 + q ^ 2)))) (exp (- (t - tp) ^ 2 / tau ^ 2)). intros A B. field. split; lra.
Qed.
(** The constructor passes (z_foc, wavelength) where (wavelength, z_foc) is expected: no difference. *)
Lemma c42_order l pol E w0 tau tp cep zf p tr : gaussian_profile l pol E w0 tau tp cep zf = Ok p ->
  gaussian_transverse w0 (Some l) zf = Ok tr -> forall x y t, p_eval p x y t = Cmult (tr x y) (gaussian_long l tau tp cep t).
Proof.
  intros H Ht x y t. destruct (gaussian_profile_inv _ _ _ _ _ _ _ _ _ H) as (_ & _ & _ & _ & _ & ->).
  unfold gaussian_transverse in Ht. rewrite z_foc_ok in Ht. cbn [bind] in Ht. injection Ht as <-. reflexivity.
Qed.

(** ** C43 *)
Lemma np_power_nonneg a b : 0 <= np_power a b.
Proof. unfold np_power. destruct (Reqb a 0); [destruct (Reqb b 0); lra|]. apply Rlt_le. unfold Rpower. apply exp_pos. Qed.
Lemma np_power_0 b : 0 < b -> np_power 0 b = 0.
Proof. intros H. unfold np_power. rewrite (proj2 (Reqb_true 0 0) eq_refl). rewrite (proj2 (Reqb_false b 0)) by lra. reflexivity. Qed.
Lemma np_power_1 a : 0 <= a -> np_power a 1 = a.
Proof.
  intros H. unfold np_power. destruct (Reqb a 0) eqn:E.
  - apply Reqb_true in E. rewrite (proj2 (Reqb_false 1 0)) by lra. lra.
  - apply Reqb_false in E. apply Rpower_1. lra.
Qed.
Lemma np_power_pos a b : 0 < a -> 0 < np_power a b.
Proof. intros H. unfold np_power. rewrite (proj2 (Reqb_false a 0)) by lra. unfold Rpower. apply exp_pos. Qed.
Lemma exp_neg_le_1 a : 0 <= a -> exp (- a) <= 1.
Proof. intros H. rewrite <- exp_0. destruct (Rle_lt_or_eq_dec 0 a H) as [L|<-]; [left; apply exp_increasing; lra|right; f_equal; ring]. Qed.
Lemma exp_neg_lt_1 a : 0 < a -> exp (- a) < 1.
Proof. intros H. rewrite <- exp_0. apply exp_increasing. lra. Qed.

Lemma super_gaussian_long_mod l tau tp n cep t : Cmod (super_gaussian_long l tau tp n cep t) = exp (- np_power ((t - tp) ^ 2 / tau ^ 2) (n / 2)).
Proof. unfold super_gaussian_long. rewrite Cmod_cexp. reflexivity. Qed.
Lemma sq_ratio_pos t tp tau : 0 < tau -> t <> tp -> 0 < (t - tp) ^ 2 / tau ^ 2.
Proof. intros Ht H. apply Rdiv_lt_0_compat; apply pow2_gt_0; lra. Qed.

(** Modulus at most 1, with equality exactly at t_peak; carrier phase there. *)
Lemma c43_gaussian l tau tp cep : 0 < tau ->
  (forall t, Cmod (gaussian_long l tau tp cep t) <= 1) /\ (forall t, Cmod (gaussian_long l tau tp cep t) = 1 <-> t = tp) /\
  Cmult (gaussian_long l tau tp cep tp) (cis (- (2 * PI * c_light / l * tp))) = cis cep.
Proof.
  intros Ht. assert (H2 : 0 < tau ^ 2) by (apply pow2_gt_0; lra). split; [|split].
  - intros t. rewrite gaussian_long_mod. replace (- (t - tp) ^ 2 / tau ^ 2) with (- ((t - tp) ^ 2 / tau ^ 2)) by (field; lra).
    apply exp_neg_le_1. apply Rmult_le_pos; [apply pow2_ge_0|left; apply Rinv_0_lt_compat, H2].
  - intros t. rewrite gaussian_long_mod. split.
    + intros E. destruct (Req_dec t tp) as [|N]; [assumption|]. exfalso.
      replace (- (t - tp) ^ 2 / tau ^ 2) with (- ((t - tp) ^ 2 / tau ^ 2)) in E by (field; lra).
      pose proof (exp_neg_lt_1 _ (sq_ratio_pos t tp tau Ht N)). lra.
    + intros ->. replace (- (tp - tp) ^ 2 / tau ^ 2) with 0 by (field; lra). apply exp_0.
  - unfold gaussian_long. replace (- (tp - tp) ^ 2 / tau ^ 2) with 0 by (field; lra). rewrite cexp_imag, <- cis_plus. f_equal. unfold long_omega0. ring.
Qed.
Lemma c43_super_gaussian l tau tp n cep : 0 < tau -> 0 < n ->
  (forall t, Cmod (super_gaussian_long l tau tp n cep t) <= 1) /\ (forall t, Cmod (super_gaussian_long l tau tp n cep t) = 1 <-> t = tp) /\
  Cmult (super_gaussian_long l tau tp n cep tp) (cis (- (2 * PI * c_light / l * tp))) = cis cep.
Proof.
  intros Ht Hn. assert (H2 : 0 < tau ^ 2) by (apply pow2_gt_0; lra). split; [|split].
  - intros t. rewrite super_gaussian_long_mod. apply exp_neg_le_1, np_power_nonneg.
  - intros t. rewrite super_gaussian_long_mod. split.
    + intros E. destruct (Req_dec t tp) as [|N]; [assumption|]. exfalso.
      pose proof (exp_neg_lt_1 _ (np_power_pos _ (n / 2) (sq_ratio_pos t tp tau Ht N))). lra.
    + intros ->. replace ((tp - tp) ^ 2 / tau ^ 2) with 0 by (field; lra). rewrite np_power_0 by lra. rewrite Ropp_0. apply exp_0.
  - unfold super_gaussian_long. replace ((tp - tp) ^ 2 / tau ^ 2) with 0 by (field; lra). rewrite np_power_0 by lra. rewrite Ropp_0, cexp_imag, <- cis_plus.
    f_equal. unfold long_omega0. ring.
Qed.
Lemma c43_order2 l tau tp cep t : tau <> 0 -> super_gaussian_long l tau tp 2 cep t = gaussian_long l tau tp cep t.
Proof.
  intros Ht. unfold super_gaussian_long, gaussian_long. replace (2 / 2) with 1 by field. rewrite np_power_1.
  - do 2 f_equal. field. exact Ht.
  - apply Rmult_le_pos; [apply pow2_ge_0|]. left. apply Rinv_0_lt_compat, pow2_gt_0, Ht.
Qed.

Lemma cosine_long_mod l T tp cep t : Cmod (cosine_long l T tp cep t) =
  Rabs (cos (/ 2 * PI * ((t - tp) / T)) * (if Rltb (- 1) ((t - tp) / T) then 1 else 0) * (if Rltb ((t - tp) / T) 1 then 1 else 0)).
Proof. unfold cosine_long. rewrite Cmod_mult, Cmod_R, Cmod_cexp. cbn [fst]. rewrite exp_0. ring. Qed.
Lemma cos_half_lt1 u : - 1 < u < 1 -> u <> 0 -> 0 < cos (/ 2 * PI * u) < 1.
Proof.
  intros Hu Hn. pose proof PI_RGT_0 as HP. split; [apply cos_gt_0; nra|].
  destruct (Rlt_or_le u 0) as [L|L].
  - rewrite <- cos_neg, <- cos_0. apply cos_decreasing_1; nra.
  - rewrite <- cos_0. apply cos_decreasing_1; nra.
Qed.
Lemma c43_cosine l T tp cep : 0 < T ->
  (forall t, Cmod (cosine_long l T tp cep t) <= 1) /\ (forall t, Cmod (cosine_long l T tp cep t) = 1 <-> t = tp) /\
  Cmult (cosine_long l T tp cep tp) (cis (- (2 * PI * c_light / l * tp))) = cis cep /\
  (forall t, cosine_long l T tp cep t = RtoC 0 <-> T <= Rabs (t - tp)).
Proof.
  intros HT. pose proof PI_RGT_0 as HP.
  assert (Hout : forall t, T <= Rabs (t - tp) -> Cmod (cosine_long l T tp cep t) = 0).
  { intros t H. rewrite cosine_long_mod. set (u := (t - tp) / T).
    assert (Hu : 1 <= Rabs u). { unfold u, Rdiv. rewrite Rabs_mult, (Rabs_pos_eq (/ T)) by (left; apply Rinv_0_lt_compat, HT).
      apply Rmult_le_reg_r with T; [exact HT|]. rewrite Rmult_assoc, Rinv_l by lra. lra. }
    destruct (Rltb (- 1) u) eqn:E1; [|rewrite Rmult_0_r, Rmult_0_l, Rabs_R0; reflexivity].
    destruct (Rltb u 1) eqn:E2; [|rewrite Rmult_0_r, Rabs_R0; reflexivity]. apply Rltb_true in E1, E2. exfalso. revert Hu. unfold Rabs. destruct (Rcase_abs u); lra. }
  assert (Hin : forall t, Rabs (t - tp) < T -> Cmod (cosine_long l T tp cep t) = cos (/ 2 * PI * ((t - tp) / T)) /\ -1 < (t - tp) / T < 1).
  { intros t H. rewrite cosine_long_mod. set (u := (t - tp) / T).
    assert (Hu : Rabs u < 1). { unfold u, Rdiv. rewrite Rabs_mult, (Rabs_pos_eq (/ T)) by (left; apply Rinv_0_lt_compat, HT).
      apply Rmult_lt_reg_r with T; [exact HT|]. rewrite Rmult_assoc, Rinv_l by lra. lra. }
    apply Rabs_def2 in Hu. rewrite (proj2 (Rltb_true (-1) u)), (proj2 (Rltb_true u 1)) by lra.
    rewrite !Rmult_1_r. split; [|lra]. apply Rabs_pos_eq. left. apply cos_gt_0; nra. }
  split; [|split; [|split]].
  - intros t. destruct (Rlt_or_le (Rabs (t - tp)) T) as [L|L]; [|rewrite Hout by exact L; lra].
    destruct (Hin t L) as (-> & _). apply COS_bound.
  - intros t. split.
    + intros E. destruct (Rlt_or_le (Rabs (t - tp)) T) as [L|L]; [|rewrite Hout in E by exact L; lra].
      destruct (Hin t L) as (Ec & Hb). rewrite Ec in E. destruct (Req_dec ((t - tp) / T) 0) as [Z|N].
      * assert (t - tp = 0) by (replace (t - tp) with ((t - tp) / T * T) by (field; lra); rewrite Z; ring). lra.
      * pose proof (cos_half_lt1 _ Hb N). lra.
    + intros ->. destruct (Hin tp) as (-> & _); [replace (tp - tp) with 0 by ring; rewrite Rabs_R0; exact HT|].
      replace (/ 2 * PI * ((tp - tp) / T)) with 0 by (field; lra). apply cos_0.
  - unfold cosine_long. replace ((tp - tp) / T) with 0 by (field; lra). rewrite (proj2 (Rltb_true (-1) 0)), (proj2 (Rltb_true 0 1)) by lra.
    rewrite Rmult_0_r, cos_0, !Rmult_1_r, Cmult_1_l, cexp_imag, <- cis_plus. f_equal. unfold long_omega0. ring.
  - intros t. split.
    + intros E. destruct (Rlt_or_le (Rabs (t - tp)) T) as [L|L]; [|exact L]. exfalso. apply (f_equal Cmod) in E. rewrite Cmod_0 in E.
      destruct (Hin t L) as (Ec & Hb). rewrite Ec in E. assert (0 < cos (/ 2 * PI * ((t - tp) / T))) by (apply cos_gt_0; nra). lra.
    + intros H. apply Cmod_eq_0, Hout, H.
Qed.

(** Half the peak intensity at the documented full width. *)
Lemma ln2_pos : 0 < ln 2.
Proof. rewrite <- ln_1. apply ln_increasing; lra. Qed.
Lemma exp_sq a : exp a ^ 2 = exp (2 * a).
Proof. replace (2 * a) with (a + a) by ring. rewrite exp_plus. ring. Qed.
Lemma exp_mln2 : exp (- ln 2) = / 2.
Proof. rewrite exp_Ropp, exp_ln by lra. reflexivity. Qed.
Lemma c43_fwhm_gaussian l tau tp cep F t : 0 < F -> tau = F / sqrt (2 * ln 2) -> Rabs (t - tp) = F / 2 ->
  Cmod (gaussian_long l tau tp cep t) ^ 2 = / 2.
Proof.
  intros HF -> Ht. rewrite gaussian_long_mod, exp_sq. pose proof ln2_pos as HL.
  assert (Hs : 0 < sqrt (2 * ln 2)) by (apply sqrt_lt_R0; lra).
  assert (Es : sqrt (2 * ln 2) ^ 2 = 2 * ln 2) by (rewrite <- Rsqr_pow2; apply Rsqr_sqrt; lra).
  replace (2 * (- (t - tp) ^ 2 / (F / sqrt (2 * ln 2)) ^ 2)) with (- ln 2); [apply exp_mln2|].
  rewrite <- (pow2_abs (t - tp)), Ht. unfold Rdiv. rewrite !Rpow_mult_distr, !pow_inv, Es. field. split; lra.
Qed.
Lemma c43_fwhm_cosine l T tp cep t : 0 < T -> Rabs (t - tp) = T / 2 -> Cmod (cosine_long l T tp cep t) ^ 2 = / 2.
Proof.
  intros HT Ht. rewrite cosine_long_mod. set (u := (t - tp) / T).
  assert (Hu : Rabs u = / 2). { unfold u, Rdiv. rewrite Rabs_mult, (Rabs_pos_eq (/ T)) by (left; apply Rinv_0_lt_compat, HT). rewrite Ht. field. lra. }
  assert (Hb : -1 < u < 1) by (destruct (Rabs_def2 u 1); [rewrite Hu; lra|lra]). rewrite (proj2 (Rltb_true (-1) u)), (proj2 (Rltb_true u 1)) by lra.
  rewrite !Rmult_1_r, pow2_abs. replace (cos (/ 2 * PI * u)) with (cos (PI / 4)).
  - rewrite cos_PI4. assert (E : sqrt 2 ^ 2 = 2) by (rewrite <- Rsqr_pow2; apply Rsqr_sqrt; lra).
    unfold Rdiv. rewrite Rmult_1_l, pow_inv, E. reflexivity.
  - revert Hu. unfold Rabs. destruct (Rcase_abs u); intros Hu.
    + rewrite <- cos_neg. f_equal. replace u with (- / 2) by lra. field.
    + f_equal. rewrite Hu. field.
Qed.
(** super-Gaussian: the intensity at the documented half width is 2^(-2^(1-n/2)), i.e. one half only for n = 2. *)
Lemma c43_fwhm_super l tau tp n cep F t : 0 < F -> 0 < n -> tau = F / (sqrt 2 * Rpower (ln 2) (1 / n)) -> Rabs (t - tp) = F / 2 ->
  Cmod (super_gaussian_long l tau tp n cep t) ^ 2 = Rpower 2 (- Rpower 2 (1 - n / 2)) /\
  (Cmod (super_gaussian_long l tau tp n cep t) ^ 2 = / 2 <-> n = 2).
Proof.
  intros HF Hn -> Ht. rewrite super_gaussian_long_mod, exp_sq. pose proof ln2_pos as HL.
  set (P := Rpower (ln 2) (1 / n)). assert (HP : 0 < P) by (unfold P, Rpower; apply exp_pos).
  assert (Hs : 0 < sqrt 2) by (apply sqrt_lt_R0; lra). assert (Es : sqrt 2 ^ 2 = 2) by (rewrite <- Rsqr_pow2; apply Rsqr_sqrt; lra).
  assert (Er : (t - tp) ^ 2 / (F / (sqrt 2 * P)) ^ 2 = P ^ 2 / 2).
  { rewrite <- (pow2_abs (t - tp)), Ht. unfold Rdiv. rewrite !Rpow_mult_distr, !pow_inv, !Rpow_mult_distr, Es. field. split; lra. }
  rewrite Er. assert (HP2 : 0 < P ^ 2 / 2) by (apply Rdiv_lt_0_compat; [apply pow2_gt_0; lra|lra]).
  assert (Ep : np_power (P ^ 2 / 2) (n / 2) = ln 2 * Rpower 2 (- (n / 2))).
  { unfold np_power. rewrite (proj2 (Reqb_false _ 0)) by lra. change (P ^ 2 / 2) with (P ^ 2 * / 2).
    replace (Rpower (P ^ 2 * / 2) (n / 2)) with (Rpower (P ^ 2) (n / 2) * Rpower (/ 2) (n / 2)) by (apply Rpower_mult_distr; [apply pow2_gt_0|apply Rinv_0_lt_compat]; lra).
    f_equal.
    - rewrite <- Rpower_pow by exact HP. unfold P. rewrite !Rpower_mult. replace (1 / n * (INR 2 * (n / 2))) with 1 by (simpl; field; lra). apply Rpower_1. exact HL.
    - unfold Rpower. rewrite ln_Rinv by lra. f_equal. ring. }
  rewrite Ep. 
  assert (E1 : exp (2 * - (ln 2 * Rpower 2 (- (n / 2)))) = Rpower 2 (- Rpower 2 (1 - n / 2))).
  { unfold Rminus. rewrite Rpower_plus, Rpower_1 by lra. unfold Rpower at 2. f_equal. ring. }
  rewrite E1. split; [reflexivity|]. split.
  - intros E. apply (f_equal ln) in E. unfold Rpower at 1 in E. rewrite ln_exp, ln_Rinv in E by lra.
    assert (E2 : Rpower 2 (1 - n / 2) = 1) by (apply Rmult_eq_reg_r with (ln 2); lra).
    unfold Rpower in E2. apply (f_equal ln) in E2. rewrite ln_exp, ln_1 in E2. apply Rmult_integral in E2. lra.
  - intros ->. replace (1 - 2 / 2) with 0 by field. rewrite Rpower_O by lra. unfold Rpower. rewrite <- exp_mln2. f_equal. ring.
Qed.
