(** C97: beams and pulses of the library. *)
From Coquelicot Require Import Coquelicot.
From Verif Require Import PyBase CSum NpFFT NumPy GridModel GridSpec GridProofs LaserSpec GridObs EnergyModel EnergyProofs LaserModel OpticsModel LaserOps
  LaserInv LaserInitProofs AngularProofs HistoryProofs OpticsProofs OpticsProofs2 LaserExamples ConvergeSpec ConvergeProofs ConvergeLaser
  AnalysisModel DurationProofs ZernikeOrtho DurConvSpec DurConvProofs DurConvLaser ProfileModel AnalyticModel AnalyticProofs NpMath GaussInt GaussMoments GaussLaserSpec GaussLaser
  SepSpec SepProofs PolarSpec HGOrtho LGProofs LGOrtho PeakSpec PeakProofs.
Open Scope R_scope.

(** ** Whole-line integrals of non-negative functions *)
Lemma whole_of_sym f l : (forall x, 0 <= f x) -> (forall a b, ex_RInt f a b) -> to_inf (fun L => RInt f (- L) L) l -> to_whole 0 (RInt f) l.
Proof.
  intros Pf Hex Hl eps He. unfold to_inf in Hl. apply is_lim_spec in Hl. destruct (Hl (mkposreal eps He)) as (X & HX0).
  assert (HX : forall x, X < x -> Rabs (RInt f (- x) x - l) < eps) by (intros x Hx; exact (HX0 x Hx)). clear HX0.
  exists (Rmax X 0 + 1). pose proof (Rmax_l X 0) as M1. pose proof (Rmax_r X 0) as M2. set (T := Rmax X 0 + 1) in *. assert (PT : X < T /\ 0 < T) by (unfold T; lra).
  split; [lra|]. intros lo hi Hlo Hhi. rewrite Rminus_0_l in Hlo. rewrite Rplus_0_l in Hhi.
  assert (Mono : forall a b c d, c <= a -> a <= b -> b <= d -> RInt f a b <= RInt f c d).
  { intros a b c d Hca Hab Hbd.
    assert (E : RInt f c d = RInt f c a + (RInt f a b + RInt f b d)).
    { rewrite <- (RInt_Chasles f c a d) by apply Hex. rewrite <- (RInt_Chasles f a b d) by apply Hex. reflexivity. }
    rewrite E. assert (0 <= RInt f c a) by (apply RInt_ge_0; [exact Hca|apply Hex|intros; apply Pf]).
    assert (0 <= RInt f b d) by (apply RInt_ge_0; [exact Hbd|apply Hex|intros; apply Pf]).
    revert H H0. generalize (RInt f c a : R) (RInt f b d : R) (RInt f a b : R). intros u v w Hu Hv. clear - Hu Hv. simpl in *. lra. }
  set (M := Rmax (- lo) hi). pose proof (Rmax_l (- lo) hi) as B1. pose proof (Rmax_r (- lo) hi) as B2. fold M in B1, B2.
  assert (A1 : RInt f (- T) T <= RInt f lo hi) by (apply Mono; lra).
  assert (A2 : RInt f lo hi <= RInt f (- M) M) by (apply Mono; lra).
  pose proof (HX T ltac:(lra)) as E1. pose proof (HX M ltac:(lra)) as E2. apply Rabs_def2 in E1, E2. apply Rabs_def1; lra.
Qed.
Lemma separable_power trans k a b la lb : (forall x y, Cnorm2 (trans x y) = k * (a x * b y)) ->
  (forall u v, ex_RInt a u v) -> (forall u v, ex_RInt b u v) -> to_whole 0 (RInt a) la -> to_whole 0 (RInt b) lb -> 0 < k ->
  beam_power trans (k * (la * lb)).
Proof.
  intros HN Ha Hb La Lb Pk eps He. destruct (prod2_cont la lb (eps / k)) as (d & Pd & Hc); [apply Rdiv_lt_0_compat; assumption|].
  destruct (La d Pd) as (W1 & P1 & H1). destruct (Lb d Pd) as (W2 & P2 & H2). exists (W1 + W2). split; [lra|]. intros x0 x1 y0 y1 X0 X1 Y0 Y1.
  assert (E : RInt (fun x => RInt (fun y => Cnorm2 (trans x y)) y0 y1) x0 x1 = k * (RInt a x0 x1 * RInt b y0 y1)).
  { rewrite (RInt_ext _ (fun x => (k * RInt b y0 y1) * a x)).
    - rewrite RInt_scal' by apply Ha. eqR. ring.
    - intros x _. rewrite (RInt_ext _ (fun y => (k * a x) * b y)) by (intros y _; rewrite HN; eqR; ring). rewrite RInt_scal' by apply Hb. eqR. ring. }
  rewrite E, <- Rmult_minus_distr_l, Rabs_mult, (Rabs_right k) by lra. replace eps with (k * (eps / k)) by (field; lra).
  apply Rmult_lt_compat_l; [exact Pk|]. apply Hc; [apply H1; lra|apply H2; lra].
Qed.

(** ** Hermite-Gaussian beams *)
Lemma hphi_tame w n : tame1 (hphi w n n).
Proof.
  apply tame_1. unfold hphi. assert (A : tame2 (fun x _ => sqrt 2 * x / w)).
  { apply (tame_ext (fun x _ => (sqrt 2 / w) * x)); [intros; unfold Rdiv; ring|]. apply tame_scal, tame_x. }
  apply (tame_mult (fun x _ => hermite n (sqrt 2 * x / w) * hermite n (sqrt 2 * x / w))).
  - apply (tame_mult (fun x _ => hermite n (sqrt 2 * x / w))); apply (tame_hermite n (fun x _ => sqrt 2 * x / w)), A.
  - apply (tame_exp_neg (fun x _ => (sqrt 2 * x / w) ^ 2)); [apply (tame_pow (fun x _ => sqrt 2 * x / w)), A|intros; apply pow2_ge_0].
Qed.
Lemma hphi_pos w n x : 0 <= hphi w n n x.
Proof. unfold hphi. apply Rmult_le_pos; [|left; apply exp_pos]. set (h := hermite n _). pose proof (pow2_ge_0 h). replace (h * h) with (h ^ 2) by ring. assumption. Qed.
Definition hgk (w0 : R) (nx ny : nat) (z : R) : R := (2 / PI) * (hnorm w0 nx * hnorm w0 nx) * (hnorm w0 ny * hnorm w0 ny) / (1 + z ^ 2).
Lemma hg_norm2 w0 nx ny z x y : 0 < w0 ->
  Cnorm2 (hg_trans_at w0 nx ny z x y) = hgk w0 nx ny z * (hphi (w0 * Cmod ((1, - z) : C)) nx nx x * hphi (w0 * Cmod ((1, - z) : C)) ny ny y).
Proof.
  intros Hw. pose proof (hg_product w0 nx ny nx ny z x y Hw) as H. cbv zeta in H. apply (f_equal fst) in H.
  rewrite <- Cnorm2_conj in H. rewrite Rminus_diag_eq, Rmult_0_l, cos_0, Rmult_1_r in H by reflexivity. exact H.
Qed.
Lemma hgk_pos w0 nx ny z : 0 < w0 -> 0 < hgk w0 nx ny z.
Proof.
  intros Hw. unfold hgk. rewrite !hnorm_sq by exact Hw. pose proof PI_RGT_0. assert (Q : forall n, 0 < / (2 ^ n * INR (fact n) * w0)).
  { intros n. apply Rinv_0_lt_compat. apply Rmult_lt_0_compat; [|exact Hw]. apply Rmult_lt_0_compat; [apply pow_lt; lra|apply INR_fact_lt_0]. }
  apply Rdiv_lt_0_compat; [|pose proof (pow2_ge_0 z); lra]. apply Rmult_lt_0_compat; [apply Rmult_lt_0_compat|]; [apply Rdiv_lt_0_compat; lra|apply Q|apply Q].
Qed.
Lemma spot_mod_pos w0 z : 0 < w0 -> 0 < w0 * Cmod ((1, - z) : C) /\ (w0 * Cmod ((1, - z) : C)) ^ 2 = w0 ^ 2 * (1 + z ^ 2).
Proof.
  intros Hw. set (d := (1, - z) : C). assert (Md : Cmod d ^ 2 = 1 + z ^ 2) by (rewrite <- Cnorm2_Cmod; unfold d, Cnorm2; cbn [fst snd]; ring).
  pose proof (pow2_ge_0 z) as Q. split; [|rewrite Rpow_mult_distr, Md; reflexivity].
  apply Rmult_lt_0_compat; [exact Hw|]. pose proof (Cmod_ge_0 d). destruct (Req_dec (Cmod d) 0) as [E|E]; [rewrite E in Md; lra|lra].
Qed.
Lemma hg_tame w0 nx ny z : 0 < w0 -> tame2 (fun x y => Cnorm2 (hg_trans_at w0 nx ny z x y)).
Proof.
  intros Hw. set (w := w0 * Cmod ((1, - z) : C)). apply (tame_ext (fun x y => hgk w0 nx ny z * (hphi w nx nx x * hphi w ny ny y))); [intros; symmetry; apply hg_norm2, Hw|].
  apply tame_scal. apply (tame_mult (fun x _ => hphi w nx nx x) (fun _ y => hphi w ny ny y)); [apply tame_of1, hphi_tame|].
  intros M. destruct (hphi_tame w ny M) as (K & PK & HK). exists K. split; [exact PK|]. intros x x' y y' _ _ Y Y'. eapply Rle_trans; [apply HK; assumption|].
  apply Rmult_le_compat_l; [exact PK|]. pose proof (Rabs_pos (x - x')). lra.
Qed.
Lemma hg_power w0 nx ny z : 0 < w0 -> beam_power (hg_trans_at w0 nx ny z) 1.
Proof.
  intros Hw0. destruct (spot_mod_pos w0 z Hw0) as (Pw & Wp). set (w := w0 * Cmod ((1, - z) : C)) in *.
  set (l := fun n => w / sqrt 2 * (2 ^ n * INR (fact n) * sqrt PI)).
  assert (LL : forall n, to_whole 0 (RInt (hphi w n n)) (l n)).
  { intros n. apply whole_of_sym; [apply hphi_pos|intros; apply hphi_ex|]. pose proof (hphi_lim w n n Pw) as H. rewrite Nat.eqb_refl in H. exact H. }
  replace 1 with (hgk w0 nx ny z * (l nx * l ny)).
  - apply (separable_power _ _ (hphi w nx nx) (hphi w ny ny)); [intros; apply hg_norm2, Hw0|intros; apply hphi_ex|intros; apply hphi_ex|apply LL|apply LL|apply hgk_pos, Hw0].
  - unfold hgk, l. rewrite !hnorm_sq by exact Hw0. assert (Hq : 0 < 1 + z ^ 2) by (pose proof (pow2_ge_0 z); lra).
    pose proof PI_RGT_0 as HP. pose proof (INR_fact_neq_0 nx) as F1. pose proof (INR_fact_neq_0 ny) as F2. assert (P1 : 2 ^ nx <> 0) by (apply pow_nonzero; lra). assert (P2 : 2 ^ ny <> 0) by (apply pow_nonzero; lra).
    pose proof (sqrt_sqrt PI ltac:(lra)) as SP. pose proof (sqrt_sqrt 2 ltac:(lra)) as S2. pose proof sqrt2_pos as S0.
    set (sp := sqrt PI) in *. set (s2 := sqrt 2) in *. rewrite <- SP.
    transitivity (2 * (w ^ 2) / (w0 ^ 2 * (1 + z ^ 2) * (s2 * s2))); [field; repeat split; try lra; intros E; rewrite E in SP; lra|].
    rewrite S2, Wp. field. split; lra.
Qed.
Lemma hg_transverse_inv w0 nx ny wl zf f : hg_transverse w0 nx ny wl zf = Ok f -> exists z, f = hg_trans_at w0 nx ny z.
Proof. unfold hg_transverse. destruct (z_foc_over_zr w0 wl zf) as [z|]; cbn [bind]; [|discriminate]. intros [= <-]. exists z. reflexivity. Qed.
Lemma hg_beam w0 nx ny wl zf f : 0 < w0 -> hg_transverse w0 nx ny wl zf = Ok f -> tame2 (fun x y => Cnorm2 (f x y)) /\ beam_power f 1.
Proof. intros Hw H. destruct (hg_transverse_inv _ _ _ _ _ _ H) as (z & ->). split; [apply hg_tame, Hw|apply hg_power, Hw]. Qed.

(** ** Gaussian beams *)
Lemma hg_00 w0 z x y : 0 < w0 -> hg_trans_at w0 0 0 z x y = Cmult (RtoC (sqrt (2 / PI) / w0)) (gaussian_trans_at w0 z x y).
Proof.
  intros Hw. unfold hg_trans_at, gaussian_trans_at. cbv zeta. unfold hermite. cbn [hermite2 fst Nat.add fact pow INR].
  replace (Cmult (Cmult Ci (RtoC 0)) (RtoC (angle ((1, - z) : C)))) with (RtoC 0) by ring. unfold Cminus. rewrite <- RtoC_opp, Ropp_0, Cplus_0_r.
  replace (sqrt (2 / PI) * sqrt (1 / (1 * 1 * w0)) * sqrt (1 / (1 * 1 * w0)) * 1 * 1) with (sqrt (2 / PI) / w0).
  - unfold Cdiv. ring.
  - replace (sqrt (2 / PI) * sqrt (1 / (1 * 1 * w0)) * sqrt (1 / (1 * 1 * w0)) * 1 * 1) with (sqrt (2 / PI) * (sqrt (1 / (1 * 1 * w0)) * sqrt (1 / (1 * 1 * w0)))) by ring.
    rewrite sqrt_sqrt; [field; lra|]. left. apply Rdiv_lt_0_compat; lra.
Qed.
Lemma gauss_norm2 w0 z x y : 0 < w0 -> Cnorm2 (gaussian_trans_at w0 z x y) = PI * w0 ^ 2 / 2 * Cnorm2 (hg_trans_at w0 0 0 z x y).
Proof.
  intros Hw. rewrite hg_00 by exact Hw. rewrite Cnorm2_mult. pose proof PI_RGT_0. replace (Cnorm2 (RtoC (sqrt (2 / PI) / w0))) with ((sqrt (2 / PI) * sqrt (2 / PI)) / w0 ^ 2).
  - rewrite sqrt_sqrt by (left; apply Rdiv_lt_0_compat; lra). field. split; lra.
  - unfold Cnorm2, RtoC. cbn [fst snd]. field. lra.
Qed.
Lemma beam_scale f g c P : 0 < c -> (forall x y, Cnorm2 (g x y) = c * Cnorm2 (f x y)) -> tame2 (fun x y => Cnorm2 (f x y)) -> beam_power f P ->
  tame2 (fun x y => Cnorm2 (g x y)) /\ beam_power g (c * P).
Proof.
  intros Pc HN HT HP. split.
  - apply (tame_ext (fun x y => c * Cnorm2 (f x y))); [intros; symmetry; apply HN|]. apply tame_scal, HT.
  - intros eps He. destruct (HP (eps / c)) as (W & PW & HW); [apply Rdiv_lt_0_compat; assumption|]. exists W. split; [exact PW|]. intros x0 x1 y0 y1 X0 X1 Y0 Y1.
    assert (E : RInt (fun x => RInt (fun y => Cnorm2 (g x y)) y0 y1) x0 x1 = c * RInt (fun x => RInt (fun y => Cnorm2 (f x y)) y0 y1) x0 x1).
    { rewrite <- RInt_scal' by (apply tame1_ex, (tame_inner (fun x y => Cnorm2 (f x y))), HT). apply RInt_ext. intros x _.
      rewrite <- RInt_scal' by (apply tame1_ex, (tame_slice (fun x y => Cnorm2 (f x y))), HT). apply RInt_ext. intros y _. apply HN. }
    rewrite E, <- Rmult_minus_distr_l, Rabs_mult, (Rabs_right c) by lra. replace eps with (c * (eps / c)) by (field; lra).
    apply Rmult_lt_compat_l; [exact Pc|]. apply HW; assumption.
Qed.
Lemma gauss_beam w0 wl zf f : 0 < w0 -> gaussian_transverse w0 wl zf = Ok f -> tame2 (fun x y => Cnorm2 (f x y)) /\ beam_power f (PI * w0 ^ 2 / 2).
Proof.
  intros Hw. unfold gaussian_transverse. destruct (z_foc_over_zr w0 wl zf) as [z|]; cbn [bind]; [|discriminate]. intros [= <-].
  rewrite <- (Rmult_1_r (PI * w0 ^ 2 / 2)). apply (beam_scale (hg_trans_at w0 0 0 z)); [|intros; apply gauss_norm2, Hw|apply hg_tame, Hw|apply hg_power, Hw].
  pose proof PI_RGT_0. assert (0 < w0 ^ 2) by (apply pow_lt, Hw). apply Rdiv_lt_0_compat; [apply Rmult_lt_0_compat; assumption|lra].
Qed.

(** ** Gaussian and cosine pulses *)
Lemma gauss_pulse l tau tp cep : 0 < tau -> tame1 (fun t => Cnorm2 (gaussian_long l tau tp cep t)) /\ pulse_duration (gaussian_long l tau tp cep) (tau * sqrt (PI / 2)).
Proof.
  intros Ht. assert (E : forall t, Cnorm2 (gaussian_long l tau tp cep t) = gk tau tp t).
  { intros t. rewrite Cnorm2_Cmod. unfold gaussian_long. rewrite Cmod_cexp. cbn [fst]. unfold gk. rewrite exp_sq. f_equal. field. lra. }
  split.
  - intros M. destruct (gk_lip tau tp (- (Rabs M + 1)) (Rabs M + 1) Ht) as (K & PK & HK); [pose proof (Rabs_pos M); lra|]. exists K. split; [exact PK|].
    intros t t' T T'. rewrite !E. pose proof (Rle_abs M). apply HK; apply Rabs_le_between; lra.
  - intros eps He. destruct (gint_lim tau tp Ht eps He) as (W & PW & HW). exists (W + Rabs tp). pose proof (Rabs_pos tp). split; [lra|]. intros t0 t1 T0 T1.
    rewrite (RInt_ext _ (gk tau tp)) by (intros t _; apply E). pose proof (Rle_abs tp). pose proof (Rle_abs (- tp)) as Q. rewrite Rabs_Ropp in Q. apply (HW t0 t1); lra.
Qed.
Lemma cos_lip a b : Rabs (cos a - cos b) <= Rabs (a - b).
Proof.
  rewrite form2, !Rabs_mult, (Rabs_left (-2)) by lra. replace (- -2) with 2 by ring.
  assert (S1 : Rabs (sin ((a - b) / 2)) <= Rabs ((a - b) / 2)).
  { assert (G : forall u, 0 <= u -> Rabs (sin u) <= u).
    { intros u Hu. apply Rabs_le. destruct (Rlt_or_le u PI) as [L|L].
      - destruct (Rle_lt_or_eq_dec 0 u Hu) as [P|<-]; [|rewrite sin_0; lra]. pose proof (sin_lt_x u P). pose proof (sin_ge_0 u Hu ltac:(lra)). lra.
      - pose proof (SIN_bound u). pose proof PI_RGT_0. pose proof PI2_1. lra. }
    destruct (Rle_or_lt 0 ((a - b) / 2)) as [P|P]; [rewrite (Rabs_right ((a - b) / 2)) by lra; apply G, P|].
    rewrite (Rabs_left ((a - b) / 2)) by lra. rewrite <- Rabs_Ropp, <- sin_neg. apply G. lra. }
  assert (S2 : Rabs (sin ((a + b) / 2)) <= 1) by (apply Rabs_le, SIN_bound).
  replace (Rabs (a - b)) with (2 * Rabs ((a - b) / 2) * 1) by (unfold Rdiv; rewrite Rabs_mult, (Rabs_right (/ 2)) by lra; field).
  apply Rmult_le_compat; [apply Rmult_le_pos; [lra|apply Rabs_pos]|apply Rabs_pos| |exact S2]. lra.
Qed.
Definition rclip (u : R) : R := Rmax (-1) (Rmin u 1).
Lemma rclip_lip u v : Rabs (rclip u - rclip v) <= Rabs (u - v).
Proof.
  unfold rclip, Rmax, Rmin. repeat destruct Rle_dec; unfold Rabs; repeat destruct Rcase_abs; lra.
Qed.
Lemma cosine_norm2 l T tp cep t : 0 < T -> Cnorm2 (cosine_long l T tp cep t) = / 2 * (1 + cos (PI * rclip ((t - tp) / T))).
Proof.
  intros HT. rewrite Cnorm2_Cmod. unfold cosine_long. cbv zeta. rewrite Cmod_mult, Cmod_R, Cmod_cexp. cbn [fst]. rewrite exp_0, Rmult_1_r.
  rewrite pow2_abs. set (u := (t - tp) / T). unfold rclip. pose proof PI_RGT_0.
  destruct (Rltb (-1) u) eqn:E1; [apply Rltb_true in E1|apply Rltb_false in E1].
  - destruct (Rltb u 1) eqn:E2; [apply Rltb_true in E2|apply Rltb_false in E2].
    + rewrite Rmin_left, Rmax_right by lra. replace (PI * u) with (2 * (/ 2 * PI * u)) by field. rewrite cos_2a_cos. field.
    + rewrite Rmin_right, Rmax_right by lra. rewrite (Rmult_1_r PI), cos_PI. ring.
  - rewrite Rmin_left, Rmax_left by lra. replace (PI * -1) with (- PI) by ring. rewrite cos_neg, cos_PI. ring.
Qed.
Lemma cosine_pulse l T tp cep : 0 < T -> tame1 (fun t => Cnorm2 (cosine_long l T tp cep t)) /\ pulse_duration (cosine_long l T tp cep) T.
Proof.
  intros HT. pose proof PI_RGT_0 as HP. assert (HTame : tame1 (fun t => Cnorm2 (cosine_long l T tp cep t))).
  { intros M. exists (/ 2 * PI / T). split; [left; apply Rdiv_lt_0_compat; [|exact HT]; lra|]. intros t t' _ _. rewrite !cosine_norm2 by exact HT.
    rewrite <- Rmult_minus_distr_l, Rabs_mult, (Rabs_right (/ 2)) by lra.
    set (u := (t - tp) / T). set (v := (t' - tp) / T). replace (1 + cos (PI * rclip u) - (1 + cos (PI * rclip v))) with (cos (PI * rclip u) - cos (PI * rclip v)) by ring.
    replace (/ 2 * PI / T * Rabs (t - t')) with (/ 2 * (PI * Rabs (u - v))).
    - apply Rmult_le_compat_l; [lra|]. eapply Rle_trans; [apply cos_lip|]. rewrite <- Rmult_minus_distr_l, Rabs_mult, (Rabs_right PI) by lra.
      apply Rmult_le_compat_l; [lra|]. apply rclip_lip.
    - replace (u - v) with ((t - t') / T) by (unfold u, v; field; lra). unfold Rdiv at 1. rewrite Rabs_mult, (Rabs_right (/ T)) by (left; apply Rinv_0_lt_compat, HT). field. lra. }
  split; [exact HTame|]. intros eps He. exists (T + Rabs tp). pose proof (Rabs_pos tp). split; [lra|]. intros t0 t1 T0 T1.
  pose proof (Rle_abs tp). pose proof (Rle_abs (- tp)) as Q. rewrite Rabs_Ropp in Q.
  assert (B0 : t0 <= tp - T) by lra. assert (B1 : tp + T <= t1) by lra.
  set (f := fun t => Cnorm2 (cosine_long l T tp cep t)) in *. assert (Hex : forall a b, ex_RInt f a b) by (intros; apply tame1_ex, HTame).
  assert (Z0 : RInt f t0 (tp - T) = 0).
  { rewrite (RInt_ext _ (fun _ => 0)).
    - rewrite (@RInt_const R_CompleteNormedModule). unfold scal; simpl; unfold mult; simpl. ring.
    - intros t [_ Ht]. rewrite Rmax_right in Ht by exact B0. unfold f. rewrite cosine_norm2 by exact HT. unfold rclip.
      assert ((t - tp) / T < -1) by (apply (Rmult_lt_reg_r T); [exact HT|]; unfold Rdiv; rewrite Rmult_assoc, Rinv_l by lra; lra).
      rewrite Rmin_left, Rmax_left by lra. replace (PI * -1) with (- PI) by ring. rewrite cos_neg, cos_PI. eqR. ring. }
  assert (Z1 : RInt f (tp + T) t1 = 0).
  { rewrite (RInt_ext _ (fun _ => 0)).
    - rewrite (@RInt_const R_CompleteNormedModule). unfold scal; simpl; unfold mult; simpl. ring.
    - intros t [Ht _]. rewrite Rmin_left in Ht by exact B1. unfold f. rewrite cosine_norm2 by exact HT. unfold rclip.
      assert (1 < (t - tp) / T) by (apply (Rmult_lt_reg_r T); [exact HT|]; unfold Rdiv; rewrite Rmult_assoc, Rinv_l by lra; lra).
      rewrite Rmin_right, Rmax_right by lra. rewrite (Rmult_1_r PI), cos_PI. eqR. ring. }
  assert (M1 : RInt f (tp - T) (tp + T) = T).
  { rewrite (RInt_ext _ (fun t => / 2 * (1 + cos (PI * ((t - tp) / T))))).
    - apply is_RInt_unique. set (F := fun t => t / 2 + T / (2 * PI) * sin (PI * ((t - tp) / T))).
      assert (EV : minus (F (tp + T)) (F (tp - T)) = T).
      { unfold F, minus, plus, opp; simpl. replace ((tp + T - tp) / T) with 1 by (field; lra). replace ((tp - T - tp) / T) with (-1) by (field; lra).
        rewrite (Rmult_1_r PI). replace (PI * -1) with (- PI) by ring. rewrite sin_neg, sin_PI. field. lra. }
      eapply is_RInt_val; [|exact EV]. apply (@is_RInt_derive R_CompleteNormedModule F).
      + intros t _. unfold F. auto_derive; [exact I|]. eqR. unfold Rdiv, Rminus. set (q := cos _). field. split; lra.
      + intros t _. apply (@ex_derive_continuous R_AbsRing R_NormedModule). auto_derive. exact I.
    - intros t [Ht0 Ht1]. rewrite Rmin_left in Ht0 by lra. rewrite Rmax_right in Ht1 by lra. unfold f. rewrite cosine_norm2 by exact HT. unfold rclip.
      assert (-1 < (t - tp) / T) by (apply (Rmult_lt_reg_r T); [exact HT|]; unfold Rdiv; rewrite Rmult_assoc, Rinv_l by lra; lra).
      assert ((t - tp) / T < 1) by (apply (Rmult_lt_reg_r T); [exact HT|]; unfold Rdiv; rewrite Rmult_assoc, Rinv_l by lra; lra).
      rewrite Rmin_left, Rmax_right by lra. reflexivity. }
  assert (E : RInt f t0 t1 = T).
  { rewrite <- (RInt_Chasles f t0 (tp - T) t1) by apply Hex. rewrite <- (RInt_Chasles f (tp - T) (tp + T) t1) by apply Hex. rewrite Z0, Z1, M1. unfold plus; simpl. ring. }
  rewrite E, Rminus_diag_eq, Rabs_R0 by reflexivity. exact He.
Qed.
