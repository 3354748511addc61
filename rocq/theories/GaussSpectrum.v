(** C90 for GaussianProfile. *)
From Coquelicot Require Import Coquelicot.
From Coq Require Import Sorting.Sorted.
From Verif Require Import PyBase CSum NpFFT NumPy GridModel GridSpec GridProofs LaserSpec GridObs EnergyModel EnergyProofs LaserModel OpticsModel LaserOps
  LaserExamples ConvergeSpec ConvergeProofs ConvergeLaser
  AnalysisModel SpectrumModel FullSpectrumSpec DurConvSpec DurConvProofs DurConvLaser AnalyticModel AnalyticProofs GaussInt GaussMoments GaussLaserSpec GaussLaser
  SpecConvSpec SpecConvProofs SpecConvLaser GaussFT.
Open Scope R_scope.

Lemma cexp_lip z z' : fst z <= 0 -> fst z' <= 0 -> Cmod (Cminus (cexp z) (cexp z')) <= Rabs (fst z - fst z') + 2 * Rabs (snd z - snd z').
Proof.
  intros H H'. unfold cexp, Re, Im.
  replace (Cminus (Cmult (RtoC (exp (fst z))) (cis (snd z))) (Cmult (RtoC (exp (fst z'))) (cis (snd z')))) with
    (Cplus (Cmult (RtoC (exp (fst z) - exp (fst z'))) (cis (snd z))) (Cmult (RtoC (exp (fst z'))) (Cminus (cis (snd z)) (cis (snd z')))))
    by (rewrite RtoC_minus; ring).
  eapply Rle_trans; [apply Cmod_triangle|]. rewrite !Cmod_mult, cis_mod, Rmult_1_r, !Cmod_R. apply Rplus_le_compat.
  - pose proof (exp_lip (- fst z) (- fst z') ltac:(lra) ltac:(lra)) as Q. rewrite !Ropp_involutive in Q. eapply Rle_trans; [exact Q|].
    right. rewrite Rabs_minus_sym. f_equal. ring.
  - rewrite (Rabs_right (exp _)) by (left; apply exp_pos).
    assert (E1 : exp (fst z') <= 1) by (rewrite <- exp_0; apply exp_le_inc; exact H').
    assert (E2 : Cmod (Cminus (cis (snd z)) (cis (snd z'))) <= 2 * Rabs (snd z - snd z')).
    { eapply Rle_trans; [apply Cmod_parts2|]. destruct (cis_lip (snd z) (snd z')) as (Q1 & Q2).
      unfold cis, Cminus, Cplus, Copp, Re, Im; cbn [fst snd]. unfold Rminus in Q1, Q2 |- *. lra. }
    rewrite <- (Rmult_1_l (2 * _)). apply Rmult_le_compat; [left; apply exp_pos|apply Cmod_ge_0|exact E1|exact E2].
Qed.

Section G.
Variables (l : R) (pol : list C) (E : option R) (w0 tau tp cep zf : R) (p : profile).
Hypothesis (H : gaussian_profile l pol E w0 tau tp cep zf = Ok p) (Hl : 0 < l) (Hw : 0 < w0) (Ht : 0 < tau).
Definition gz : R := zf * l / (PI * w0 ^ 2).
Definition gd : C := (1, - gz).
Definition gkap : C := Cinv (Cmult (RtoC (w0 ^ 2)) gd).
Definition gphi : R := cep + long_omega0 l * tp.
Lemma gd_neq : gd <> RtoC 0.
Proof. intros Q. apply (f_equal fst) in Q. simpl in Q. lra. Qed.
Lemma gkap_re : 0 < fst gkap.
Proof.
  unfold gkap, gd, Cinv, Cmult, RtoC; cbn [fst snd]. pose proof (pow_lt w0 2 Hw) as P. pose proof (pow2_ge_0 (w0 ^ 2 * - gz + 0 * 1)) as P2.
  set (a := w0 ^ 2) in *. apply Rdiv_lt_0_compat; [lra|]. assert (0 < (a * 1 - 0 * - gz) ^ 2) by (apply pow_lt; lra). lra.
Qed.
Definition gexp (x y t : R) : C := (- (x ^ 2 + y ^ 2) * fst gkap - (t - tp) ^ 2 / tau ^ 2, - (x ^ 2 + y ^ 2) * snd gkap + gphi).
Lemma gauss_exp x y t : p_eval p x y t = Cmult (Cinv gd) (cexp (gexp x y t)).
Proof.
  destruct (gaussian_profile_inv _ _ _ _ _ _ _ _ _ H) as (_ & _ & _ & _ & _ & ->).
  unfold gaussian_trans_at, gaussian_long. cbv zeta. fold gz. fold gd. fold gphi.
  replace (gexp x y t) with (Cplus (Cdiv (RtoC (- (x ^ 2 + y ^ 2))) (Cmult (RtoC (w0 ^ 2)) gd)) (- (t - tp) ^ 2 / tau ^ 2, gphi)).
  - rewrite cexp_plus. unfold Cdiv. ring.
  - unfold Cdiv. fold gkap. unfold gexp, Cmult, Cplus, RtoC; cbn [fst snd]. f_equal; unfold Rdiv; ring.
Qed.
Lemma gexp_neg x y t : fst (gexp x y t) <= 0.
Proof.
  unfold gexp; cbn [fst]. pose proof gkap_re. pose proof (pow2_ge_0 x). pose proof (pow2_ge_0 y).
  assert (0 <= (t - tp) ^ 2 / tau ^ 2) by (apply Rmult_le_pos; [apply pow2_ge_0|left; apply Rinv_0_lt_compat, pow_lt, Ht]). nra.
Qed.
Lemma gauss_lip_field x0 x1 y0 y1 t0 t1 : x0 < x1 -> y0 < y1 -> t0 < t1 -> exists K, 0 <= K /\ lip_field K x0 x1 y0 y1 t0 t1 (p_eval p).
Proof.
  intros Bx By Bt.
  destruct (poly2_lip (fun x => x ^ 2) x0 x1 Bx poly2_t2) as (Kx & _ & PKx & _ & Lx & _).
  destruct (poly2_lip (fun x => x ^ 2) y0 y1 By poly2_t2) as (Ky & _ & PKy & _ & Ly & _).
  destruct (poly2_lip (fun t => (t - tp) ^ 2 / tau ^ 2) t0 t1 Bt) as (Kt & _ & PKt & _ & Lt & _).
  { exists (tp ^ 2 / tau ^ 2), (- 2 * tp / tau ^ 2), (/ tau ^ 2). intros t. unfold Rdiv. ring. }
  pose proof gkap_re as Pk. set (a := fst gkap) in *. set (b := Rabs (snd gkap)). assert (Pb : 0 <= b) by apply Rabs_pos.
  set (m := Cmod (Cinv gd)). assert (Pm : 0 <= m) by apply Cmod_ge_0.
  set (Kr := (a + 2 * b) * (Kx + Ky)). assert (PKr : 0 <= Kr) by (apply Rmult_le_pos; lra).
  exists (m * (Kr + Kt)). split; [apply Rmult_le_pos; lra|]. intros x x' y y' t t' Ix Ix' Iy Iy' It It'. rewrite !gauss_exp.
  replace (Cminus (Cmult (Cinv gd) (cexp (gexp x y t))) (Cmult (Cinv gd) (cexp (gexp x' y' t')))) with
    (Cmult (Cinv gd) (Cminus (cexp (gexp x y t)) (cexp (gexp x' y' t')))) by ring.
  rewrite Cmod_mult. fold m. rewrite Rmult_assoc. apply Rmult_le_compat_l; [exact Pm|].
  eapply Rle_trans; [apply cexp_lip; apply gexp_neg|]. unfold gexp; cbn [fst snd]. fold a.
  specialize (Lx x x' Ix Ix'). specialize (Ly y y' Iy Iy'). specialize (Lt t t' It It').
  pose proof (Rabs_pos (x - x')). pose proof (Rabs_pos (y - y')). pose proof (Rabs_pos (t - t')).
  set (dr := (x ^ 2 - x' ^ 2) + (y ^ 2 - y' ^ 2)). set (dt := (t - tp) ^ 2 / tau ^ 2 - (t' - tp) ^ 2 / tau ^ 2) in *.
  assert (Hr : Rabs dr <= (Kx + Ky) * (Rabs (x - x') + Rabs (y - y'))).
  { unfold dr. eapply Rle_trans; [apply Rabs_triang|].
    assert (0 <= Kx * Rabs (y - y') /\ 0 <= Ky * Rabs (x - x')) by (split; apply Rmult_le_pos; assumption). lra. }
  replace (- (x ^ 2 + y ^ 2) * a - (t - tp) ^ 2 / tau ^ 2 - (- (x' ^ 2 + y' ^ 2) * a - (t' - tp) ^ 2 / tau ^ 2)) with (- (dr * a) + - dt) by (unfold dr, dt; ring).
  replace (- (x ^ 2 + y ^ 2) * snd gkap + gphi - (- (x' ^ 2 + y' ^ 2) * snd gkap + gphi)) with (- (dr * snd gkap)) by (unfold dr; ring).
  assert (Q1 : Rabs (- (dr * a) + - dt) <= a * Rabs dr + Rabs dt).
  { eapply Rle_trans; [apply Rabs_triang|]. rewrite !Rabs_Ropp, Rabs_mult, (Rabs_right a) by lra. right. ring. }
  rewrite (Rabs_Ropp (dr * snd gkap)), (Rabs_mult dr (snd gkap)). fold b.
  assert (Q2 : (a + 2 * b) * Rabs dr <= Kr * (Rabs (x - x') + Rabs (y - y'))).
  { unfold Kr. rewrite Rmult_assoc. apply Rmult_le_compat_l; lra. }
  assert (0 <= Kr * Rabs (t - t') /\ 0 <= Kt * Rabs (x - x') /\ 0 <= Kt * Rabs (y - y')) by (repeat split; apply Rmult_le_pos; assumption). lra.
Qed.

Let w := spot l w0 zf.
Definition ww : R := sqrt 2 * tau.
Lemma ww_pos : 0 < ww. Proof. unfold ww. apply Rmult_lt_0_compat; [apply sqrt2_pos|exact Ht]. Qed.
Lemma ww_sq : ww ^ 2 = 2 * tau ^ 2.
Proof. unfold ww. replace ((sqrt 2 * tau) ^ 2) with ((sqrt 2 * sqrt 2) * tau ^ 2) by ring. rewrite sqrt2_sq. reflexivity. Qed.
Definition Pw (t0 t1 v : R) : R := Ic ww tp t0 t1 v ^ 2 + Is ww tp t0 t1 v ^ 2.
Lemma gauss_transform x y t0 t1 v : Cnorm2 (transform t0 t1 (p_eval p x y) v) = (w0 / w) ^ 2 * (gk w 0 x * gk w 0 y) * Pw t0 t1 v.
Proof.
  set (Z := Cmult (Cmult (Cinv gd) (cexp (gexp x y tp))) (cis (v * tp))).
  assert (E0 : forall t, Cmult (p_eval p x y t) (cis (v * t)) = Cmult Z (Cmult (RtoC (gk ww tp t)) (cis (v * (t - tp))))).
  { intros t. rewrite gauss_exp. unfold Z.
    replace (cexp (gexp x y t)) with (Cmult (cexp (gexp x y tp)) (RtoC (gk ww tp t))).
    - replace (v * t) with (v * tp + v * (t - tp)) by ring. rewrite cis_plus. ring.
    - rewrite <- (cexp_real (-2 * (t - tp) ^ 2 / ww ^ 2)) || idtac. unfold gk. rewrite <- cexp_real, <- cexp_plus. f_equal.
      unfold gexp, Cplus, RtoC; cbn [fst snd]. rewrite ww_sq. f_equal; [|ring]. field. lra. }
  assert (X1 : ex_RInt (fun t => gk ww tp t * cos (v * (t - tp))) t0 t1).
  { apply (@ex_RInt_continuous R_CompleteNormedModule). intros t _. unfold gk. cont1. }
  assert (X2 : ex_RInt (fun t => gk ww tp t * sin (v * (t - tp))) t0 t1).
  { apply (@ex_RInt_continuous R_CompleteNormedModule). intros t _. unfold gk. cont1. }
  assert (T : transform t0 t1 (p_eval p x y) v = Cmult Z (Ic ww tp t0 t1 v, Is ww tp t0 t1 v)).
  { unfold transform. apply injective_projections; unfold Cmult; cbn [fst snd].
    - rewrite (RInt_ext _ (fun t => fst Z * (gk ww tp t * cos (v * (t - tp))) + - snd Z * (gk ww tp t * sin (v * (t - tp))))).
      + rewrite RInt_lin by assumption. unfold Ic, Is. ring.
      + intros t _. fold (Cmult (p_eval p x y t) (cis (v * t))). rewrite E0. unfold Cmult, RtoC, cis, Re; cbn [fst snd]. eqR. ring.
    - rewrite (RInt_ext _ (fun t => fst Z * (gk ww tp t * sin (v * (t - tp))) + snd Z * (gk ww tp t * cos (v * (t - tp))))).
      + rewrite RInt_lin by assumption. unfold Ic, Is. ring.
      + intros t _. fold (Cmult (p_eval p x y t) (cis (v * t))). rewrite E0. unfold Cmult, RtoC, cis, Im; cbn [fst snd]. eqR. ring. }
  rewrite T, Cnorm2_mult. unfold Z. rewrite Cnorm2_mult, Cnorm2_cis, Rmult_1_r, <- gauss_exp.
  rewrite (gauss_intensity _ _ _ _ _ _ _ _ _ H Hl Hw Ht). fold w.
  replace (gk tau tp tp) with 1.
  - unfold Pw, Cnorm2; cbn [fst snd]. ring.
  - unfold gk. replace (-2 * (tp - tp) ^ 2 / tau ^ 2) with 0 by (unfold Rdiv; ring). symmetry. apply exp_0.
Qed.
Lemma gauss_spectrum_xyt x0 x1 y0 y1 t0 t1 v :
  spectrum_xyt x0 x1 y0 y1 t0 t1 (p_eval p) v = eps0 * c_light / PI / 4 * ((w0 / w) ^ 2 * gint w 0 x0 x1 * gint w 0 y0 y1 * Pw t0 t1 v).
Proof.
  unfold spectrum_xyt. set (k := eps0 * c_light / PI / 4).
  rewrite (RInt_ext _ (fun x => (k * (w0 / w) ^ 2 * gint w 0 y0 y1 * Pw t0 t1 v) * gk w 0 x)).
  - rewrite RInt_scal' by apply gk_ex. fold (gint w 0 x0 x1). ring.
  - intros x _. rewrite (RInt_ext _ (fun y => (k * (w0 / w) ^ 2 * gk w 0 x * Pw t0 t1 v) * gk w 0 y)).
    + rewrite RInt_scal' by apply gk_ex. fold (gint w 0 y0 y1). eqR. ring.
    + intros y _. rewrite density_half, gauss_transform. fold k. eqR. ring.
Qed.
Lemma gauss_spectrum_rt r0 r1 t0 t1 v :
  spectrum_rt r0 r1 t0 t1 (p_eval p) v = eps0 * c_light / PI / 4 * (PI * w0 ^ 2 / 2 * (gk w 0 r0 - gk w 0 r1) * Pw t0 t1 v).
Proof.
  assert (Pw0 : 0 < w) by (apply spot_pos, Hw).
  unfold spectrum_rt. set (k := eps0 * c_light / PI / 4).
  rewrite (RInt_ext _ (fun r => (2 * PI * k * (w0 / w) ^ 2 * Pw t0 t1 v) * ((r - 0) * gk w 0 r))).
  - rewrite RInt_scal'.
    + rewrite gint_m1 by exact Pw0. field. lra.
    + apply (poly2_gk_ex (fun r => r - 0)). exists 0, 1, 0. intros; ring.
  - intros r _. rewrite density_half, gauss_transform. fold k. replace (gk w 0 0) with 1.
    + eqR. ring.
    + unfold gk. replace (-2 * (0 - 0) ^ 2 / w ^ 2) with 0 by (unfold Rdiv; ring). symmetry. apply exp_0.
Qed.
End G.

(** E G(v) / (2 pi int gk) tends to the spectrum of the ideal pulse, uniformly for |v| <= V. *)
Lemma gauss_ratio_lim tau tp E V : 0 < tau -> 0 <= E -> 0 <= V -> forall eps, 0 < eps -> exists T, 0 < T /\ forall t0 t1, t0 <= tp - T -> tp + T <= t1 ->
  forall v, Rabs v <= V -> Rabs (E / (2 * PI) / gint tau tp t0 t1 * Pw tau tp t0 t1 v - gauss_spectrum E tau v) < eps.
Proof.
  intros Ht HE HV eps He. pose proof PI_RGT_0 as Ppi. pose proof (ww_pos tau Ht) as Pww.
  set (g := sqrt (PI / 2)). assert (Pg : 0 < g) by (apply sqrt_lt_R0; lra). assert (G2 : g * g = PI / 2) by (apply sqrt_sqrt; lra).
  set (E' := E / (2 * PI)). assert (PE' : 0 <= E') by (apply Rmult_le_pos; [exact HE|left; apply Rinv_0_lt_compat; lra]).
  set (U := tau * g). assert (PU : 0 < U) by (apply Rmult_lt_0_compat; assumption).
  assert (PB : 0 <= PI * tau ^ 2) by (apply Rmult_le_pos; [lra|apply pow2_ge_0]).
  destruct (prod_conv (E' / U) (PI * tau ^ 2) eps PB He) as (d & Pd & HP).
  destruct (factor_cont (Some (Some E')) U PE' PU d Pd) as (d2 & Pd2 & HF). cbn [energy_scale energy_factor] in HF.
  set (A := ww tau * g). assert (PA : 0 < A) by (apply Rmult_lt_0_compat; assumption).
  set (h := Rmin 1 (d / (4 * A + 4))). assert (Ph : 0 < h) by (apply Rmin_pos; [lra|apply Rdiv_lt_0_compat; lra]).
  assert (Hh1 : h <= 1) by apply Rmin_l. assert (Hh2 : h <= d / (4 * A + 4)) by apply Rmin_r.
  destruct (ft_lim (ww tau) tp V Pww HV h Ph) as (T1 & P1 & H1).
  destruct (gint_lim tau tp Ht (Rmin d2 (U / 2))) as (T2 & P2 & H2); [apply Rmin_pos; lra|].
  exists (T1 + T2). split; [lra|]. intros t0 t1 S0 S1 v Hv.
  destruct (H1 t0 t1 ltac:(lra) ltac:(lra) v Hv) as (Hc & Hs). specialize (H2 t0 t1 ltac:(lra) ltac:(lra)). fold g U in H2.
  fold g in Hc. fold A in Hc.
  assert (Gd2 : Rabs (gint tau tp t0 t1 - U) < d2) by (eapply Rlt_le_trans; [exact H2|apply Rmin_l]).
  assert (GU : Rabs (gint tau tp t0 t1 - U) < U / 2) by (eapply Rlt_le_trans; [exact H2|apply Rmin_r]).
  set (e := gint tau tp t0 t1) in *. assert (Pe : 0 < e) by (apply Rabs_def2 in GU; lra).
  set (x := exp (- (ww tau ^ 2 * v ^ 2 / 8))) in *. assert (Px : 0 < x) by apply exp_pos.
  assert (Lx : x <= 1).
  { apply exp_le_1'. apply Rmult_le_pos; [apply Rmult_le_pos; apply pow2_ge_0|lra]. }
  assert (X2 : x ^ 2 = exp (- (tau ^ 2 * v ^ 2 / 2))).
  { unfold x. rewrite exp_sq. f_equal. rewrite ww_sq. field. }
  assert (A2 : A ^ 2 = PI * tau ^ 2).
  { unfold A. replace ((ww tau * g) ^ 2) with (ww tau ^ 2 * (g * g)) by ring. rewrite ww_sq, G2. field. }
  assert (EG : gauss_spectrum E tau v = E' / U * (A ^ 2 * x ^ 2)).
  { unfold gauss_spectrum. rewrite <- X2, A2. unfold E', U.
    assert (Q : sqrt (2 * PI) = 2 * g).
    { unfold g. replace (2 * PI) with (2 ^ 2 * (PI / 2)) by field. rewrite sqrt_mult by lra. rewrite sqrt_pow2 by lra. reflexivity. }
    rewrite Q. field. repeat split; lra. }
  rewrite EG. apply HP.
  - assert (Q : Rabs (sqrt (E' / e) ^ 2 - E' / U) < d) by (apply (HF e); [exact Gd2|split; [lra|reflexivity]]).
    rewrite pow2_sqrt in Q; [exact Q|]. apply Rmult_le_pos; [exact PE'|left; apply Rinv_0_lt_compat, Pe].
  - unfold Pw. set (c := Ic _ _ _ _ _) in *. set (s := Is _ _ _ _ _) in *.
    assert (Q1 : Rabs (c ^ 2 - (A * x) ^ 2) <= h * (2 * A + h)).
    { apply sq_close; [|lra]. rewrite Rabs_right; [|apply Rle_ge, Rmult_le_pos; lra]. rewrite <- (Rmult_1_r A) at 2. apply Rmult_le_compat_l; lra. }
    assert (Q2 : Rabs (s ^ 2 - 0 ^ 2) <= h * (2 * A + h)).
    { apply sq_close; [rewrite Rabs_R0; lra|]. rewrite Rminus_0_r. lra. }
    replace (c ^ 2 + s ^ 2 - A ^ 2 * x ^ 2) with ((c ^ 2 - (A * x) ^ 2) + (s ^ 2 - 0 ^ 2)) by ring.
    eapply Rle_lt_trans; [apply Rabs_triang|].
    assert (Q3 : h * (4 * A + 4) <= d).
    { replace d with (d / (4 * A + 4) * (4 * A + 4)) by (field; lra). apply Rmult_le_compat_r; lra. }
    nra.
  - rewrite A2. rewrite Rabs_right.
    + rewrite <- (Rmult_1_r (PI * tau ^ 2)) at 2. apply Rmult_le_compat_l; [exact PB|]. simpl. nra.
    + apply Rle_ge, Rmult_le_pos; [exact PB|apply pow2_ge_0].
Qed.

Lemma c90_gauss_xyt l px py E w0 tau tp cep zf p nm nte x0 x1 y0 y1 V bins :
  gaussian_profile l [px; py] (Some E) w0 tau tp cep zf = Ok p ->
  0 < l -> 0 < w0 -> 0 < tau -> 0 <= E -> x0 < x1 -> y0 < y1 ->
  forall eps, 0 < eps -> exists T, 0 < T /\ forall t0 t1, t0 <= tp - T -> tp + T <= t1 ->
  exists N, forall n0 n1 nt, (N <= n0)%nat -> (N <= n1)%nat -> (N <= nt)%nat ->
  exists L s om, laser_init Xyt [x0;y0;t0] [x1;y1;t1] [n0;n1;nt] p nm nte = Ok L /\
    snd (get_spectrum Xyt (l_grid L) None bins (Some (p_omega0 p)) MSum) = Ok (Sp1 s, om) /\
    StronglySorted Rlt om /\ (forall w, In w om <-> 0 <= w /\ dft_freq nt (spacing t0 t1 nt) (p_omega0 p - w)) /\ length s = length om /\
    forall q, (q < length om)%nat -> let v := nth q om 0 - p_omega0 p in Rabs v <= V -> Rabs (nth q s 0 - gauss_spectrum E tau v) < eps.
Proof.
  intros H Hl Hw Ht HE Bx By eps He. pose proof PI_RGT_0 as Ppi. pose proof eps0_pos as Pe0. pose proof c_light_pos as Pc.
  destruct (gauss_ratio_lim tau tp E (Rabs V) Ht HE (Rabs_pos V) (eps / 2) ltac:(lra)) as (T & PT & HT). exists T. split; [exact PT|].
  intros t0 t1 S0 S1. assert (Bt : t0 < t1) by lra.
  destruct (gauss_lip_field _ _ _ _ _ _ _ _ _ H Hw Ht x0 x1 y0 y1 t0 t1 Bx By Bt) as (K & PK & LK).
  destruct (gaussian_profile_inv _ _ _ _ _ _ _ _ _ H) as (_ & _ & _ & HpE & Hd & _).
  pose proof (spot_pos l w0 zf Hw) as Pw'. set (w := spot l w0 zf) in *.
  assert (Pk : 0 < (w0 / w) ^ 2 * gint w 0 x0 x1 * gint w 0 y0 y1).
  { apply Rmult_lt_0_compat; [apply Rmult_lt_0_compat|]; [apply pow_lt, Rdiv_lt_0_compat; assumption| |]; apply gint_pos; assumption. }
  pose proof (gint_pos tau tp t0 t1 Bt) as Pg.
  assert (HU : U_xyt x0 x1 y0 y1 t0 t1 (p_eval p) = eps0 / 2 * c_light * (((w0 / w) ^ 2 * gint w 0 x0 x1 * gint w 0 y0 y1) * gint tau tp t0 t1)).
  { rewrite U_xyt_moment, (gauss_moment_xyt _ _ _ _ _ _ _ _ _ x0 x1 y0 y1 t0 t1 _ H Hl Hw Ht poly2_1). fold w.
    rewrite (RInt_ext _ (gk tau tp)) by (intros t _; eqR; ring). fold (gint tau tp t0 t1). reflexivity. }
  destruct (c90_xyt K [x0;y0;t0] [x1;y1;t1] p nm nte (p_omega0 p) V bins eq_refl eq_refl Bx By Bt) with (eps := eps / 2) as (N & HN); cbn [nth]; try assumption; try lra.
  - rewrite HpE. exact HE.
  - rewrite HU. apply Rmult_lt_0_compat; [apply Rmult_lt_0_compat; lra|apply Rmult_lt_0_compat; assumption].
  - exists N. intros n0 n1 nt N0 N1 N2. destruct (HN n0 n1 nt N0 N1 N2) as (L & s & om & HI & Hs & Ho & Hi & Hlen & Hv). exists L, s, om.
    split; [exact HI|]. split; [exact Hs|]. split; [exact Ho|]. split; [exact Hi|]. split; [exact Hlen|].
    intros q Hq Hvv. specialize (Hv q Hq Hvv). cbn [nth] in Hv. set (v := nth q om 0 - p_omega0 p) in *.
    rewrite HU, HpE, (gauss_spectrum_xyt _ _ _ _ _ _ _ _ _ H Hl Hw Ht) in Hv. cbn [energy_scale] in Hv. fold w in Hv.
    set (k := (w0 / w) ^ 2 * gint w 0 x0 x1 * gint w 0 y0 y1) in *.
    specialize (HT t0 t1 S0 S1 v ltac:(eapply Rle_trans; [exact Hvv|apply Rle_abs])).
    replace (E / (eps0 / 2 * c_light * (k * gint tau tp t0 t1)) * (eps0 * c_light / PI / 4 * (k * Pw tau tp t0 t1 v))) with
      (E / (2 * PI) / gint tau tp t0 t1 * Pw tau tp t0 t1 v) in Hv by (field; repeat split; lra).
    set (D := E / (2 * PI) / _ * _) in *. replace (nth q s 0 - gauss_spectrum E tau v) with ((nth q s 0 - D) + (D - gauss_spectrum E tau v)) by ring.
    eapply Rle_lt_trans; [apply Rabs_triang|]. lra.
Qed.
Lemma c90_gauss_rt l px py E w0 tau tp cep zf p (M : nat) nte r0 r1 V bins :
  gaussian_profile l [px; py] (Some E) w0 tau tp cep zf = Ok p ->
  0 < l -> 0 < w0 -> 0 < tau -> 0 <= E -> 0 <= r0 -> r0 < r1 -> (1 <= M)%nat ->
  (2 * Z.of_nat M - 1 <= match nte with None => 2 * Z.of_nat M - 1 | Some n => n end)%Z ->
  forall eps, 0 < eps -> exists T, 0 < T /\ forall t0 t1, t0 <= tp - T -> tp + T <= t1 ->
  exists N, forall n1 nt, (N <= n1)%nat -> (N <= nt)%nat ->
  exists L s om, laser_init Rt [r0;t0] [r1;t1] [n1;nt] p (Z.of_nat M) nte = Ok L /\
    snd (get_spectrum Rt (l_grid L) None bins (Some (p_omega0 p)) MSum) = Ok (Sp1 s, om) /\
    StronglySorted Rlt om /\ (forall w, In w om <-> 0 <= w /\ dft_freq nt (spacing t0 t1 nt) (p_omega0 p - w)) /\ length s = length om /\
    forall q, (q < length om)%nat -> let v := nth q om 0 - p_omega0 p in Rabs v <= V -> Rabs (nth q s 0 - gauss_spectrum E tau v) < eps.
Proof.
  intros H Hl Hw Ht HE R0 Br HM Hn eps He. pose proof PI_RGT_0 as Ppi. pose proof eps0_pos as Pe0. pose proof c_light_pos as Pc.
  destruct (gauss_ratio_lim tau tp E (Rabs V) Ht HE (Rabs_pos V) (eps / 2) ltac:(lra)) as (T & PT & HT). exists T. split; [exact PT|].
  intros t0 t1 S0 S1. assert (Bt : t0 < t1) by lra.
  destruct (gauss_lip_field _ _ _ _ _ _ _ _ _ H Hw Ht (- r1) r1 (- r1) r1 t0 t1 ltac:(lra) ltac:(lra) Bt) as (K & PK & LK).
  destruct (gaussian_profile_inv _ _ _ _ _ _ _ _ _ H) as (_ & _ & _ & HpE & Hd & _).
  pose proof (spot_pos l w0 zf Hw) as Pw'. set (w := spot l w0 zf) in *.
  assert (Pk : 0 < PI * w0 ^ 2 / 2 * (gk w 0 r0 - gk w 0 r1)).
  { pose proof (gk_decr w r0 r1 Pw' R0 Br). assert (0 < w0 ^ 2) by (apply pow_lt, Hw).
    assert (0 < PI * w0 ^ 2) by (apply Rmult_lt_0_compat; assumption). apply Rmult_lt_0_compat; lra. }
  pose proof (gint_pos tau tp t0 t1 Bt) as Pg.
  assert (HU : U_rt r0 r1 t0 t1 (p_eval p) = eps0 / 2 * c_light * ((PI * w0 ^ 2 / 2 * (gk w 0 r0 - gk w 0 r1)) * gint tau tp t0 t1)).
  { rewrite U_rt_moment, (gauss_moment_rt _ _ _ _ _ _ _ _ _ r0 r1 t0 t1 _ H Hl Hw Ht poly2_1). fold w.
    rewrite (RInt_ext _ (gk tau tp)) by (intros t _; eqR; ring). fold (gint tau tp t0 t1). reflexivity. }
  destruct (c90_rt K [r0;t0] [r1;t1] p M nte (p_omega0 p) V bins eq_refl eq_refl HM R0 Br Bt) with (eps := eps / 2) as (N & HN); cbn [nth]; try assumption; try lra.
  - rewrite HpE. exact HE.
  - intros r t th. apply (gauss_radial _ _ _ _ _ _ _ _ _ H).
  - rewrite HU. apply Rmult_lt_0_compat; [apply Rmult_lt_0_compat; lra|apply Rmult_lt_0_compat; assumption].
  - exists N. intros n1 nt N1 N2. destruct (HN n1 nt N1 N2) as (L & s & om & HI & Hs & Ho & Hi & Hlen & Hv). exists L, s, om.
    split; [exact HI|]. split; [exact Hs|]. split; [exact Ho|]. split; [exact Hi|]. split; [exact Hlen|].
    intros q Hq Hvv. specialize (Hv q Hq Hvv). cbn [nth] in Hv. set (v := nth q om 0 - p_omega0 p) in *.
    rewrite HU, HpE, (gauss_spectrum_rt _ _ _ _ _ _ _ _ _ H Hl Hw Ht) in Hv. cbn [energy_scale] in Hv. fold w in Hv.
    set (k := PI * w0 ^ 2 / 2 * (gk w 0 r0 - gk w 0 r1)) in *.
    specialize (HT t0 t1 S0 S1 v ltac:(eapply Rle_trans; [exact Hvv|apply Rle_abs])).
    replace (E / (eps0 / 2 * c_light * (k * gint tau tp t0 t1)) * (eps0 * c_light / PI / 4 * (k * Pw tau tp t0 t1 v))) with
      (E / (2 * PI) / gint tau tp t0 t1 * Pw tau tp t0 t1 v) in Hv by (field; repeat split; lra).
    set (D := E / (2 * PI) / _ * _) in *. replace (nth q s 0 - gauss_spectrum E tau v) with ((nth q s 0 - D) + (D - gauss_spectrum E tau v)) by ring.
    eapply Rle_lt_trans; [apply Rabs_triang|]. lra.
Qed.
