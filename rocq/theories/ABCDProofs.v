(** Focusing of the transverse modes by a parabolic mirror: the ABCD law. *)
From Verif Require Import PyBase CSum NpMath NpMathProofs EnergyProofs LaserModel OpticsModel AnalyticModel AnalyticProofs ABCDSpec.
Open Scope R_scope.

Lemma beam_q_pos l w0 (zf : R) : 0 < l -> 0 < w0 -> 0 < PI * w0 ^ 2 / l.
Proof. intros. pose proof PI_RGT_0. apply Rdiv_lt_0_compat; [|lra]. apply Rmult_lt_0_compat; [lra|]. apply pow_lt; lra. Qed.
Lemma beam_inv l w0 zf : 0 < l -> 0 < w0 -> let z := zf * l / (PI * w0 ^ 2) in
  Cinv (beam_q l w0 zf) = (- (l / PI * (z / (w0 ^ 2 * (1 + z ^ 2)))), - (l / PI * (1 / (w0 ^ 2 * (1 + z ^ 2))))).
Proof.
  intros Hl Hw z. pose proof (beam_q_pos l w0 zf Hl Hw) as Hq. pose proof PI_RGT_0 as HP.
  assert (Hw2 : 0 < w0 ^ 2) by (apply pow_lt; lra). assert (Hz : 0 < 1 + z ^ 2) by (pose proof (pow2_ge_0 z); lra).
  assert (Ez : zf = z * (PI * w0 ^ 2 / l)) by (unfold z; field; lra).
  unfold Cinv, beam_q. cbn [fst snd]. rewrite Ez. set (r := PI * w0 ^ 2 / l) in *.
  assert (El : l / PI = w0 ^ 2 / r) by (unfold r; field; lra). rewrite El. clearbody r z.
  replace ((- (z * r)) ^ 2 + r ^ 2) with (r ^ 2 * (1 + z ^ 2)) by ring.
  f_equal; field; repeat split; lra.
Qed.
(** The law says: same spot size in the plane, and the curvature changed by the mirror. *)
Lemma lens_facts l f w0 w1 zf0 zf1 : 0 < l -> 0 < w0 -> 0 < w1 ->
  lens_law f (beam_q l w0 zf0) (beam_q l w1 zf1) ->
  let z0 := zf0 * l / (PI * w0 ^ 2) in let z1 := zf1 * l / (PI * w1 ^ 2) in
  w1 ^ 2 * (1 + z1 ^ 2) = w0 ^ 2 * (1 + z0 ^ 2) /\
  z1 / (w1 ^ 2 * (1 + z1 ^ 2)) = z0 / (w0 ^ 2 * (1 + z0 ^ 2)) + PI / (l * f).
Proof.
  intros Hl H0 H1 HL z0 z1. unfold lens_law in HL. rewrite (beam_inv l w0 zf0), (beam_inv l w1 zf1) in HL by assumption. fold z0 z1 in HL.
  pose proof PI_RGT_0 as HP.
  assert (A0 : 0 < w0 ^ 2 * (1 + z0 ^ 2)) by (pose proof (pow2_ge_0 z0); pose proof (pow_lt w0 2 H0); apply Rmult_lt_0_compat; lra).
  assert (A1 : 0 < w1 ^ 2 * (1 + z1 ^ 2)) by (pose proof (pow2_ge_0 z1); pose proof (pow_lt w1 2 H1); apply Rmult_lt_0_compat; lra).
  unfold Cminus, Cplus, Copp, RtoC in HL. cbn [fst snd] in HL. pose proof (f_equal fst HL) as HA. pose proof (f_equal snd HL) as HB. cbn [fst snd] in HA, HB. clear HL.
  set (V0 := w0 ^ 2 * (1 + z0 ^ 2)) in *. set (V1 := w1 ^ 2 * (1 + z1 ^ 2)) in *. clearbody V0 V1 z0 z1.
  assert (Hlp : 0 < l / PI) by (apply Rdiv_lt_0_compat; lra).
  assert (EV : V1 = V0).
  { assert (E : 1 / V1 = 1 / V0).
    { apply (Rmult_eq_reg_l (l / PI)); [|apply Rgt_not_eq; exact Hlp]. revert HB. generalize (l / PI * (1 / V1)) (l / PI * (1 / V0)). intros a b HB. lra. }
    apply (f_equal Rinv) in E. unfold Rdiv in E. rewrite !Rmult_1_l, !Rinv_inv in E. exact E. }
  split; [exact EV|].
  apply (Rmult_eq_reg_l (l / PI)); [|apply Rgt_not_eq; exact Hlp].
  replace (l / PI * (z0 / V0 + PI / (l * f))) with (l / PI * (z0 / V0) + / f).
  - revert HA. generalize (l / PI * (z1 / V1)) (l / PI * (z0 / V0)) (/ f). intros a b c HA. lra.
  - unfold Rdiv. rewrite Rinv_mult.
    replace (l * / PI * (z0 * / V0 + PI * (/ l * / f))) with (l * / PI * (z0 * / V0) + / f * (l * / l) * (PI * / PI)) by ring. rewrite !Rinv_r by lra. ring.
Qed.
Lemma mirror_phase l f s w0 w1 z0 z1 x y w' : 0 < l -> f <> 0 -> 0 < w0 -> 0 < w1 -> s = x ^ 2 + y ^ 2 ->
  w1 ^ 2 * (1 + z1 ^ 2) = w0 ^ 2 * (1 + z0 ^ 2) ->
  z1 / (w1 ^ 2 * (1 + z1 ^ 2)) = z0 / (w0 ^ 2 * (1 + z0 ^ 2)) + PI / (l * f) ->
  Cmult (parabolic_mirror f x y (2 * PI * c_light / l) w') (cexp (Cdiv (RtoC (- s)) (Cmult (RtoC (w0 ^ 2)) (1, - z0)))) =
  cexp (Cdiv (RtoC (- s)) (Cmult (RtoC (w1 ^ 2)) (1, - z1))).
Proof.
  intros Hl Hf H0 H1 Hs HV Hz. rewrite !gauss_exponent by lra. rewrite HV. rewrite HV in Hz.
  assert (A0 : 0 < w0 ^ 2 * (1 + z0 ^ 2)) by (pose proof (pow2_ge_0 z0); pose proof (pow_lt w0 2 H0); apply Rmult_lt_0_compat; lra).
  set (V := w0 ^ 2 * (1 + z0 ^ 2)) in *. clearbody V. unfold parabolic_mirror. rewrite <- cexp_imag, <- cexp_plus. f_equal.
  unfold Cplus. cbn [fst snd]. f_equal; [ring|]. pose proof c_light_pos as Hc.
  replace (- (s * z1) / V) with (- s * (z1 / V)) by (field; lra). rewrite Hz. rewrite <- Hs. field. lra.
Qed.
Lemma d_ratio w0 w1 z0 z1 : 0 < w0 -> 0 < w1 -> w1 ^ 2 * (1 + z1 ^ 2) = w0 ^ 2 * (1 + z0 ^ 2) ->
  w1 * Cmod (1, - z1) = w0 * Cmod (1, - z0).
Proof.
  intros H0 H1 HV. rewrite !Cmod_dfac. 
  rewrite <- (sqrt_pow2 w1) at 1 by lra. rewrite <- (sqrt_pow2 w0) at 1 by lra. 
  rewrite <- !sqrt_mult by (try apply pow2_ge_0; pose proof (pow2_ge_0 z0); pose proof (pow2_ge_0 z1); lra). rewrite HV. reflexivity.
Qed.
Definition kfac (z0 z1 : R) : C := Cdiv (1, - z1) (1, - z0).
Lemma kfac_mod w0 w1 z0 z1 : 0 < w0 -> 0 < w1 -> w1 ^ 2 * (1 + z1 ^ 2) = w0 ^ 2 * (1 + z0 ^ 2) -> Cmod (kfac z0 z1) = w0 / w1.
Proof.
  intros H0 H1 HV. unfold kfac. rewrite Cmod_div by apply dfac_neq0. pose proof (d_ratio _ _ _ _ H0 H1 HV) as E.
  assert (0 < Cmod (1, - z0)) by (apply Cmod_gt_0, dfac_neq0).
  apply (Rmult_eq_reg_l (w1 * Cmod (1, - z0))); [|apply Rgt_not_eq, Rmult_lt_0_compat; lra].
  field_simplify; [|lra|lra]. lra.
Qed.
Lemma gaussian_focus l f w0 w1 zf0 zf1 g0 g1 : 0 < l -> f <> 0 -> 0 < w0 -> 0 < w1 ->
  lens_law f (beam_q l w0 zf0) (beam_q l w1 zf1) ->
  gaussian_transverse w0 (Some l) zf0 = Ok g0 -> gaussian_transverse w1 (Some l) zf1 = Ok g1 ->
  exists K, Cmod K = w0 / w1 /\ forall x y w', Cmult (parabolic_mirror f x y (2 * PI * c_light / l) w') (g0 x y) = Cmult K (g1 x y).
Proof.
  intros Hl Hf H0 H1 HL G0 G1. destruct (lens_facts _ _ _ _ _ _ Hl H0 H1 HL) as (HV & Hz). cbn zeta in HV, Hz.
  unfold gaussian_transverse in G0, G1. rewrite z_foc_ok in G0, G1. cbn [bind] in G0, G1.
  assert (X0 : g0 = gaussian_trans_at w0 (zf0 * l / (PI * w0 ^ 2))) by congruence. assert (X1 : g1 = gaussian_trans_at w1 (zf1 * l / (PI * w1 ^ 2))) by congruence. rewrite X0, X1. clear X0 X1 G0 G1.
  set (z0 := zf0 * l / (PI * w0 ^ 2)) in *. set (z1 := zf1 * l / (PI * w1 ^ 2)) in *. clearbody z0 z1.
  exists (kfac z0 z1). split; [apply kfac_mod; assumption|]. intros x y w'. unfold gaussian_trans_at, kfac.
  rewrite <- (mirror_phase l f _ w0 w1 z0 z1 x y w' Hl Hf H0 H1 eq_refl HV Hz).
  unfold Cdiv. set (M := parabolic_mirror _ _ _ _ _). set (E := cexp _). 
  transitivity (Cmult (Cmult M E) (Cmult (Cinv (1, - z0)) (Cmult (1, - z1) (Cinv (1, - z1))))); [rewrite Cinv_r by apply dfac_neq0; ring|ring].
Qed.
Lemma hg_focus l f w0 w1 zf0 zf1 nx ny g0 g1 : 0 < l -> f <> 0 -> 0 < w0 -> 0 < w1 ->
  lens_law f (beam_q l w0 zf0) (beam_q l w1 zf1) ->
  hg_transverse w0 nx ny (Some l) zf0 = Ok g0 -> hg_transverse w1 nx ny (Some l) zf1 = Ok g1 ->
  exists K, Cmod K = 1 /\ forall x y w', Cmult (parabolic_mirror f x y (2 * PI * c_light / l) w') (g0 x y) = Cmult K (g1 x y).
Proof.
  intros Hl Hf H0 H1 HL G0 G1. destruct (lens_facts _ _ _ _ _ _ Hl H0 H1 HL) as (HV & Hz). cbn zeta in HV, Hz.
  unfold hg_transverse in G0, G1. rewrite z_foc_ok in G0, G1. cbn [bind] in G0, G1.
  assert (X0 : g0 = hg_trans_at w0 nx ny (zf0 * l / (PI * w0 ^ 2))) by congruence. assert (X1 : g1 = hg_trans_at w1 nx ny (zf1 * l / (PI * w1 ^ 2))) by congruence. rewrite X0, X1. clear X0 X1 G0 G1.
  set (z0 := zf0 * l / (PI * w0 ^ 2)) in *. set (z1 := zf1 * l / (PI * w1 ^ 2)) in *. clearbody z0 z1.
  set (q := INR (nx + ny)). set (p0 := angle (1, - z0)). set (p1 := angle (1, - z1)).
  exists (Cmult (Cmult (RtoC (w1 / w0)) (kfac z0 z1)) (cis (q * p1 - q * p0))). split.
  { rewrite !Cmod_mult, (kfac_mod w0 w1) by assumption. rewrite Cmod_R, Rabs_pos_eq by (apply Rlt_le, Rdiv_lt_0_compat; lra).
    replace (Cmod (cis _)) with 1 by (rewrite Cmod_Cnorm2, Cnorm2_cis, sqrt_1; reflexivity). field. lra. }
  intros x y w'. unfold hg_trans_at, kfac. fold p0 p1 q. rewrite (d_ratio _ _ _ _ H0 H1 HV).
  set (Hx := hermite nx _). set (Hy := hermite ny _).
  set (E0 := Cdiv _ (Cmult (RtoC (w0 ^ 2)) _)). set (E1 := Cdiv _ (Cmult (RtoC (w1 ^ 2)) _)).
  assert (EE : Cmult (parabolic_mirror f x y (2 * PI * c_light / l) w') (cexp E0) = cexp E1) by exact (mirror_phase l f _ w0 w1 z0 z1 x y w' Hl Hf H0 H1 eq_refl HV Hz).
  assert (GO : forall X p, cexp (Cminus X (Cmult (Cmult Ci (RtoC q)) (RtoC p))) = Cmult (cexp X) (cis (- (q * p)))).
  { intros X p. rewrite <- cexp_imag, <- cexp_plus. f_equal. unfold Cminus. f_equal. unfold Cmult, Ci, RtoC, Copp; cbn [fst snd]. f_equal; ring. }
  rewrite !GO, <- EE. set (M := parabolic_mirror _ _ _ _ _).
  assert (NN : forall n w, 0 < w -> sqrt (1 / (2 ^ n * INR (fact n) * w)) = sqrt (1 / (2 ^ n * INR (fact n))) / sqrt w).
  { intros n w Hw. pose proof (INR_fact_lt_0 n). pose proof (pow_lt 2 n ltac:(lra)).
    rewrite <- sqrt_div by (first [lra | apply Rlt_le, Rdiv_lt_0_compat; [lra|apply Rmult_lt_0_compat; lra]]). f_equal. field. lra. }
  rewrite !(NN _ w0), !(NN _ w1) by assumption. set (ax := sqrt (1 / (2 ^ nx * _))). set (ay := sqrt (1 / (2 ^ ny * _))).
  assert (SQ : forall w, 0 < w -> sqrt (2 / PI) * (ax / sqrt w) * (ay / sqrt w) * Hx * Hy = / w * (sqrt (2 / PI) * ax * ay * Hx * Hy)).
  { intros w Hw. rewrite <- (sqrt_sqrt w) at 3 by lra. pose proof (sqrt_lt_R0 w Hw). field. lra. }
  rewrite !SQ by assumption. set (B := sqrt (2 / PI) * ax * ay * Hx * Hy).
  replace (/ w0 * B) with (w1 / w0 * (/ w1 * B)) by (field; lra). rewrite (RtoC_mult (w1 / w0)). 
  replace (cis (- (q * p0))) with (Cmult (cis (q * p1 - q * p0)) (cis (- (q * p1)))) by (rewrite <- cis_plus; f_equal; ring).
  unfold Cdiv. set (CC := cis (q * p1 - q * p0)). set (C1 := cis (- (q * p1))). set (W := RtoC (w1 / w0)). set (E := cexp E0). set (Z := RtoC (/ w1 * B)).
  transitivity (Cmult (Cmult (Cmult (Cmult (Cmult M E) CC) (Cmult C1 W)) Z) (Cmult (Cinv (1, - z0)) (Cmult (1, - z1) (Cinv (1, - z1))))); [rewrite Cinv_r by apply dfac_neq0; ring|ring].
Qed.
Lemma lg_focus l f w0 w1 zf0 zf1 p m g0 g1 : 0 < l -> f <> 0 -> 0 < w0 -> 0 < w1 ->
  lens_law f (beam_q l w0 zf0) (beam_q l w1 zf1) ->
  lg_transverse w0 p m (Some l) zf0 = Ok g0 -> lg_transverse w1 p m (Some l) zf1 = Ok g1 ->
  exists K, Cmod K = w0 / w1 /\ forall x y w', Cmult (parabolic_mirror f x y (2 * PI * c_light / l) w') (g0 x y) = Cmult K (g1 x y).
Proof.
  intros Hl Hf H0 H1 HL G0 G1. destruct (lens_facts _ _ _ _ _ _ Hl H0 H1 HL) as (HV & Hz). cbn zeta in HV, Hz.
  unfold lg_transverse in G0, G1. rewrite z_foc_ok in G0, G1. cbn [bind] in G0, G1.
  assert (X0 : g0 = lg_trans_at w0 p m (zf0 * l / (PI * w0 ^ 2))) by congruence. assert (X1 : g1 = lg_trans_at w1 p m (zf1 * l / (PI * w1 ^ 2))) by congruence. rewrite X0, X1. clear X0 X1 G0 G1.
  set (z0 := zf0 * l / (PI * w0 ^ 2)) in *. set (z1 := zf1 * l / (PI * w1 ^ 2)) in *. clearbody z0 z1.
  set (q := IZR (2 * Z.of_nat p + m)). set (p0 := angle (1, - z0)). set (p1 := angle (1, - z1)).
  exists (Cmult (kfac z0 z1) (cis (q * p1 - q * p0))). split.
  { rewrite !Cmod_mult, (kfac_mod w0 w1) by assumption.
    replace (Cmod (cis _)) with 1 by (rewrite Cmod_Cnorm2, Cnorm2_cis, sqrt_1; reflexivity). ring. }
  intros x y w'. unfold lg_trans_at, kfac. cbv zeta. fold p0 p1 q. rewrite (d_ratio _ _ _ _ H0 H1 HV).
  set (ps := if Z.ltb 0 m then ((x, - y) : C) else ((x, y) : C)).
  assert (Hs : Cmod ps ^ 2 = x ^ 2 + y ^ 2) by (unfold ps; rewrite Cmod_sq; unfold Cnorm2; destruct (Z.ltb 0 m); cbn [fst snd]; ring).
  set (P := cpow _ _). set (LL := RtoC (genlaguerre _ _ _)).
  set (E0 := Cdiv _ (Cmult (RtoC (w0 ^ 2)) _)). set (E1 := Cdiv _ (Cmult (RtoC (w1 ^ 2)) _)).
  assert (EE : Cmult (parabolic_mirror f x y (2 * PI * c_light / l) w') (cexp E0) = cexp E1) by exact (mirror_phase l f _ w0 w1 z0 z1 x y w' Hl Hf H0 H1 Hs HV Hz).
  assert (GO : forall X p, cexp (Cminus X (Cmult (Cmult Ci (RtoC q)) (RtoC p))) = Cmult (cexp X) (cis (- (q * p)))).
  { intros X p'. rewrite <- cexp_imag, <- cexp_plus. f_equal. unfold Cminus. f_equal. unfold Cmult, Ci, RtoC, Copp; cbn [fst snd]. f_equal; ring. }
  rewrite !GO, <- EE. set (M := parabolic_mirror _ _ _ _ _).
  replace (cis (- (q * p0))) with (Cmult (cis (q * p1 - q * p0)) (cis (- (q * p1)))) by (rewrite <- cis_plus; f_equal; ring).
  unfold Cdiv. set (CC := cis (q * p1 - q * p0)). set (C1 := cis (- (q * p1))). set (E := cexp E0).
  transitivity (Cmult (Cmult (Cmult (Cmult M E) (Cmult CC C1)) (Cmult P LL)) (Cmult (Cinv (1, - z0)) (Cmult (1, - z1) (Cinv (1, - z1))))); [rewrite Cinv_r by apply dfac_neq0; ring|ring].
Qed.
(** Every beam has an image. *)
Lemma lens_image l f w0 zf0 : 0 < l -> f <> 0 -> 0 < w0 -> exists w1 zf1, 0 < w1 /\ lens_law f (beam_q l w0 zf0) (beam_q l w1 zf1).
Proof.
  intros Hl Hf H0. pose proof PI_RGT_0 as HP. pose proof (beam_inv l w0 zf0 Hl H0) as E0. cbn zeta in E0.
  set (z0 := zf0 * l / (PI * w0 ^ 2)) in *. clearbody z0.
  assert (A0 : 0 < w0 ^ 2 * (1 + z0 ^ 2)) by (pose proof (pow2_ge_0 z0); pose proof (pow_lt w0 2 H0); apply Rmult_lt_0_compat; lra).
  set (V := w0 ^ 2 * (1 + z0 ^ 2)) in *. clearbody V.
  set (z1 := z0 + PI * V / (l * f)). assert (B : 0 < 1 + z1 ^ 2) by (pose proof (pow2_ge_0 z1); lra).
  exists (sqrt (V / (1 + z1 ^ 2))), (z1 * PI * (V / (1 + z1 ^ 2)) / l).
  assert (Hw : 0 < V / (1 + z1 ^ 2)) by (apply Rdiv_lt_0_compat; lra).
  assert (H1 : 0 < sqrt (V / (1 + z1 ^ 2))) by (apply sqrt_lt_R0; exact Hw). split; [exact H1|].
  unfold lens_law. rewrite (beam_inv _ _ _ Hl H1), E0. rewrite (pow2_sqrt (V / (1 + z1 ^ 2))) by lra.
  replace (z1 * PI * (V / (1 + z1 ^ 2)) / l * l / (PI * (V / (1 + z1 ^ 2)))) with z1 by (field; repeat split; lra).
  replace (V / (1 + z1 ^ 2) * (1 + z1 ^ 2)) with V by (field; lra).
  unfold Cminus, Cplus, Copp, RtoC; cbn [fst snd]. f_equal; [|ring]. unfold z1. field. lra.
Qed.
Lemma collimated_image l f w0 : 0 < l -> f <> 0 -> 0 < w0 -> let zR := PI * w0 ^ 2 / l in
  lens_law f (beam_q l w0 0) (beam_q l (w0 / sqrt (1 + (zR / f) ^ 2)) (f / (1 + (f / zR) ^ 2))).
Proof.
  intros Hl Hf H0 zR. pose proof PI_RGT_0 as HP. pose proof (beam_q_pos l w0 0 Hl H0) as HzR. fold zR in HzR.
  assert (B : 0 < 1 + (zR / f) ^ 2) by (pose proof (pow2_ge_0 (zR / f)); lra).
  assert (D : f ^ 2 + zR ^ 2 <> 0) by (pose proof (pow2_ge_0 f); pose proof (pow_lt zR 2 HzR); lra).
  unfold lens_law, beam_q.
  replace ((w0 / sqrt (1 + (zR / f) ^ 2)) ^ 2) with (w0 ^ 2 * / (1 + (zR / f) ^ 2)) by (unfold Rdiv at 2; rewrite Rpow_mult_distr, pow_inv, pow2_sqrt by lra; reflexivity).
  replace (PI * (w0 ^ 2 * / (1 + (zR / f) ^ 2)) / l) with (zR * / (1 + (zR / f) ^ 2)) by (unfold zR at 1; unfold Rdiv; ring).
  replace (PI * w0 ^ 2 / l) with zR by reflexivity. clearbody zR.
  replace (zR * / (1 + (zR / f) ^ 2)) with (zR * (f ^ 2 / (f ^ 2 + zR ^ 2))) by (field; repeat split; try lra; try exact D; intros X; apply D; lra).
  replace (f / (1 + (f / zR) ^ 2)) with (f * (zR ^ 2 / (f ^ 2 + zR ^ 2))) by (field; repeat split; try lra; try exact D; intros X; apply D; lra).
  unfold Cinv, Cminus, Cplus, Copp, RtoC; cbn [fst snd]. 
  replace ((- (f * (zR ^ 2 / (f ^ 2 + zR ^ 2)))) ^ 2 + (zR * (f ^ 2 / (f ^ 2 + zR ^ 2))) ^ 2) with (f ^ 2 * zR ^ 2 / (f ^ 2 + zR ^ 2)) by (field; exact D).
  f_equal; field; repeat split; try lra; exact D.
Qed.
