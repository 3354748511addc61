From Coquelicot Require Import Coquelicot.
From Verif Require Import PyBase CSum LaserModel AnalyticProofs OpticsModel ParaxialSpec RaySpec.
Open Scope R_scope.

Lemma cis_neq0 a : cis a <> RtoC 0.
Proof. intros H. pose proof (Cnorm2_cis a) as E. rewrite H, Cnorm2_0 in E. lra. Qed.
Lemma derive_cis phi x l : is_derive phi x l -> is_derive_C (fun t => cis (phi t)) x (Cmult (Cmult Ci (RtoC l)) (cis (phi x))).
Proof.
  intros H. split.
  - apply (is_derive_ext (fun t => cos (phi t))); [intros; reflexivity|].
    assert (E : fst (Cmult (Cmult Ci (RtoC l)) (cis (phi x))) = l * (- sin (phi x))) by (unfold Cmult, Ci, RtoC, cis; cbn [fst snd]; ring).
    rewrite E. apply (is_derive_comp cos phi x (- sin (phi x)) l); [|exact H]. auto_derive; [exact I|ring].
  - apply (is_derive_ext (fun t => sin (phi t))); [intros; reflexivity|].
    assert (E : snd (Cmult (Cmult Ci (RtoC l)) (cis (phi x))) = l * cos (phi x)) by (unfold Cmult, Ci, RtoC, cis; cbn [fst snd]; ring).
    rewrite E. apply (is_derive_comp sin phi x (cos (phi x)) l); [|exact H]. auto_derive; [exact I|ring].
Qed.
(** The ray is unique. *)
Lemma ray_unique T w w0 x y sx sy sx' sy' : w <> 0 -> ray_slope T w w0 x y sx sy -> ray_slope T w w0 x y sx' sy' -> sx = sx' /\ sy = sy'.
Proof.
  intros Hw (H0 & Hx & Hy) (_ & Hx' & Hy'). pose proof c_light_pos as Hc.
  assert (K : forall s s' (g : R -> C) u, is_derive_C g u (Cmult (Cmult Ci (RtoC (w / c_light * s))) (T x y w w0)) ->
     is_derive_C g u (Cmult (Cmult Ci (RtoC (w / c_light * s'))) (T x y w w0)) -> s = s').
  { intros s s' g u (A1 & A2) (B1 & B2). pose proof (is_derive_unique _ _ _ A1) as U1. rewrite (is_derive_unique _ _ _ B1) in U1.
    pose proof (is_derive_unique _ _ _ A2) as U2. rewrite (is_derive_unique _ _ _ B2) in U2.
    set (t := T x y w w0) in *. unfold Cmult, Ci, RtoC in U1, U2. cbn [fst snd] in U1, U2.
    assert (E1 : w / c_light * (s - s') * snd t = 0) by lra. assert (E2 : w / c_light * (s - s') * fst t = 0) by lra.
    assert (Hk : w / c_light <> 0) by (unfold Rdiv; apply Rmult_integral_contrapositive; split; [exact Hw|apply Rinv_neq_0_compat; lra]).
    destruct (Req_dec s s') as [|N]; [assumption|]. exfalso. apply H0.
    assert (M : w / c_light * (s - s') <> 0) by (apply Rmult_integral_contrapositive; split; [exact Hk|lra]).
    apply Rmult_integral in E1, E2. destruct E1 as [E1|E1]; [contradiction|]. destruct E2 as [E2|E2]; [contradiction|].
    rewrite (surjective_pairing t), E1, E2. reflexivity. }
  split; [exact (K _ _ _ _ Hx Hx')|exact (K _ _ _ _ Hy Hy')].
Qed.
Lemma focus_unique T w w0 x y d d' : w <> 0 -> (x <> 0 \/ y <> 0) -> ray_focus T w w0 x y d -> ray_focus T w w0 x y d' -> d = d'.
Proof.
  intros Hw Hxy (sx & sy & HS & Ex & Ey) (sx' & sy' & HS' & Ex' & Ey').
  destruct (ray_unique _ _ _ _ _ _ _ _ _ Hw HS HS') as (<- & <-).
  assert (F1 : (d - d') * sx = 0) by lra. assert (F2 : (d - d') * sy = 0) by lra.
  destruct (Req_dec d d') as [|N]; [assumption|]. exfalso. apply Rmult_integral in F1, F2.
  destruct F1 as [F1|F1]; [lra|]. destruct F2 as [F2|F2]; [lra|]. subst. destruct Hxy; lra.
Qed.

(** ** Parabolic mirror *)
Lemma mirror_ray f w w0 x y : f <> 0 -> ray_slope (parabolic_mirror f) w w0 x y (- x / f) (- y / f).
Proof.
  intros Hf. pose proof c_light_pos as Hc. split; [apply cis_neq0|]. unfold parabolic_mirror. split.
  - apply (derive_cis (fun x' => - (w * (x' ^ 2 + y ^ 2) / (2 * c_light * f)))). auto_derive; [exact I|]. field. lra.
  - apply (derive_cis (fun y' => - (w * (x ^ 2 + y' ^ 2) / (2 * c_light * f)))). auto_derive; [exact I|]. field. lra.
Qed.
Lemma mirror_focus f w w0 x y : f <> 0 -> ray_focus (parabolic_mirror f) w w0 x y f.
Proof. intros Hf. exists (- x / f), (- y / f). split; [apply mirror_ray; exact Hf|]. split; field; exact Hf. Qed.

(** ** Axicon *)
Lemma axicon_ray g w w0 x y : x <> 0 \/ y <> 0 -> let r := sqrt (x ^ 2 + y ^ 2) in
  ray_slope (axicon g) w w0 x y (- (2 * tan (g / 2)) * (x / r)) (- (2 * tan (g / 2)) * (y / r)).
Proof.
  intros Hxy r. pose proof c_light_pos as Hc.
  assert (P : 0 < x ^ 2 + y ^ 2) by (pose proof (pow2_ge_0 x); pose proof (pow2_ge_0 y); destruct Hxy as [N|N]; [pose proof (pow2_gt_0 x N)|pose proof (pow2_gt_0 y N)]; lra).
  assert (Hr : 0 < r) by (apply sqrt_lt_R0; exact P). unfold axicon. replace (/ 2 * g) with (g / 2) by (unfold Rdiv; ring). set (t := tan (g / 2)). clearbody t.
  split; [apply cis_neq0|]. split.
  - apply (derive_cis (fun x' => - (2 * (w / c_light) * sqrt (x' ^ 2 + y ^ 2) * t))). auto_derive; [simpl in P |- *; lra|].
    replace (x * (x * 1) + y * (y * 1)) with (x ^ 2 + y ^ 2) by ring. fold r. field. split; lra.
  - apply (derive_cis (fun y' => - (2 * (w / c_light) * sqrt (x ^ 2 + y' ^ 2) * t))). auto_derive; [simpl in P |- *; lra|].
    replace (x * (x * 1) + y * (y * 1)) with (x ^ 2 + y ^ 2) by ring. fold r. field. split; lra.
Qed.
Lemma axicon_between g : 0 < g < PI / 2 -> sin g < 2 * tan (g / 2) < tan g.
Proof.
  intros Hg. pose proof PI_RGT_0. assert (C0 : 0 < cos (g / 2)) by (apply cos_gt_0; lra). assert (S0 : 0 < sin (g / 2)) by (apply sin_gt_0; lra).
  assert (Cg : 0 < cos g) by (apply cos_gt_0; lra).
  assert (Es : sin g = 2 * sin (g / 2) * cos (g / 2)) by (replace g with (2 * (g / 2)) at 1 by field; apply sin_2a).
  assert (Ec : cos g = cos (g / 2) * cos (g / 2) - sin (g / 2) * sin (g / 2)) by (replace g with (2 * (g / 2)) at 1 by field; apply cos_2a).
  pose proof (sin2_cos2 (g / 2)) as E1. unfold Rsqr in E1. unfold tan. set (s := sin (g / 2)) in *. set (c := cos (g / 2)) in *. clearbody s c. split.
  - rewrite Es. apply (Rmult_lt_reg_r c); [lra|]. replace (2 * (s / c) * c) with (2 * s) by (field; lra).
    replace (2 * s * c * c) with (2 * s * (1 - s * s)) by (rewrite <- E1; ring). pose proof (Rmult_lt_0_compat _ _ S0 S0). pose proof (Rmult_lt_0_compat _ _ S0 H0). lra.
  - apply (Rmult_lt_reg_r (c * cos g)); [apply Rmult_lt_0_compat; lra|]. replace (2 * (s / c) * (c * cos g)) with (2 * s * cos g) by (field; lra).
    replace (sin g / cos g * (c * cos g)) with (sin g * c) by (field; lra). rewrite Es, Ec.
    pose proof (Rmult_lt_0_compat _ _ S0 S0). pose proof (Rmult_lt_0_compat _ _ S0 H0). lra.
Qed.

(** ** Axiparabola *)
Definition axi_inv (f0 delta Rad u : R) : R :=
  1 / f0 - delta * u / (f0 ^ 2 * Rad ^ 2) + delta * (Rad ^ 2 + 8 * f0 * delta) * u ^ 2 / (8 * f0 ^ 4 * Rad ^ 4).
Lemma axi_ray f0 delta Rad w w0 x y : f0 <> 0 -> Rad <> 0 -> x ^ 2 + y ^ 2 < Rad ^ 2 ->
  let m := axi_inv f0 delta Rad (x ^ 2 + y ^ 2) in ray_slope (axiparabola f0 delta Rad) w w0 x y (- x * m) (- y * m).
Proof.
  intros Hf HR Hin m. pose proof c_light_pos as Hc.
  assert (E : axiparabola f0 delta Rad x y w w0 = cis (- (2 * (w / c_light) * axiparabola_sag f0 delta Rad (x ^ 2 + y ^ 2)))).
  { unfold axiparabola. destruct (Rltb (Rad ^ 2) (x ^ 2 + y ^ 2)) eqn:B; [|reflexivity]. apply Rltb_true in B. lra. }
  split; [rewrite E; apply cis_neq0|]. rewrite E.
  assert (LX : locally x (fun x' => x' ^ 2 + y ^ 2 < Rad ^ 2)).
  { assert (CT : continuous (fun x' => x' ^ 2 + y ^ 2) x) by (apply (ex_derive_continuous (fun x' => x' ^ 2 + y ^ 2)); auto_derive; exact I).
    apply (CT (fun v => v < Rad ^ 2)). apply open_lt. exact Hin. }
  assert (LY : locally y (fun y' => x ^ 2 + y' ^ 2 < Rad ^ 2)).
  { assert (CT : continuous (fun y' => x ^ 2 + y' ^ 2) y) by (apply (ex_derive_continuous (fun y' => x ^ 2 + y' ^ 2)); auto_derive; exact I).
    apply (CT (fun v => v < Rad ^ 2)). apply open_lt. exact Hin. }
  assert (EQ : forall x y, x ^ 2 + y ^ 2 < Rad ^ 2 -> axiparabola f0 delta Rad x y w w0 = cis (- (2 * (w / c_light) * axiparabola_sag f0 delta Rad (x ^ 2 + y ^ 2)))).
  { intros x' y' H. unfold axiparabola. destruct (Rltb (Rad ^ 2) (x' ^ 2 + y' ^ 2)) eqn:B; [|reflexivity]. apply Rltb_true in B. lra. }
  split.
  - assert (D : is_derive_C (fun x' => cis (- (2 * (w / c_light) * axiparabola_sag f0 delta Rad (x' ^ 2 + y ^ 2)))) x
      (Cmult (Cmult Ci (RtoC (w / c_light * (- x * m)))) (cis (- (2 * (w / c_light) * axiparabola_sag f0 delta Rad (x ^ 2 + y ^ 2)))))).
    { apply (derive_cis (fun x' => - (2 * (w / c_light) * axiparabola_sag f0 delta Rad (x' ^ 2 + y ^ 2)))). unfold axiparabola_sag, m, axi_inv. auto_derive; [exact I|]. field. repeat split; lra. }
    destruct D as (D1 & D2). split; (eapply is_derive_ext_loc; [|first [exact D1|exact D2]]).
    + generalize LX. apply filter_imp. intros x' H. cbn beta. rewrite (EQ _ _ H). reflexivity.
    + generalize LX. apply filter_imp. intros x' H. cbn beta. rewrite (EQ _ _ H). reflexivity.
  - assert (D : is_derive_C (fun y' => cis (- (2 * (w / c_light) * axiparabola_sag f0 delta Rad (x ^ 2 + y' ^ 2)))) y
      (Cmult (Cmult Ci (RtoC (w / c_light * (- y * m)))) (cis (- (2 * (w / c_light) * axiparabola_sag f0 delta Rad (x ^ 2 + y ^ 2)))))).
    { apply (derive_cis (fun y' => - (2 * (w / c_light) * axiparabola_sag f0 delta Rad (x ^ 2 + y' ^ 2)))). unfold axiparabola_sag, m, axi_inv. auto_derive; [exact I|]. field. repeat split; lra. }
    destruct D as (D1 & D2). split; (eapply is_derive_ext_loc; [|first [exact D1|exact D2]]).
    + generalize LY. apply filter_imp. intros y' H. cbn beta. rewrite (EQ _ _ H). reflexivity.
    + generalize LY. apply filter_imp. intros y' H. cbn beta. rewrite (EQ _ _ H). reflexivity.
Qed.
Lemma axi_focus f0 delta Rad w w0 x y : f0 <> 0 -> Rad <> 0 -> x ^ 2 + y ^ 2 < Rad ^ 2 -> axi_inv f0 delta Rad (x ^ 2 + y ^ 2) <> 0 ->
  ray_focus (axiparabola f0 delta Rad) w w0 x y (/ axi_inv f0 delta Rad (x ^ 2 + y ^ 2)).
Proof.
  intros Hf HR Hin Hm. exists (- x * axi_inv f0 delta Rad (x ^ 2 + y ^ 2)), (- y * axi_inv f0 delta Rad (x ^ 2 + y ^ 2)).
  split; [apply axi_ray; assumption|]. split; field; exact Hm.
Qed.
Lemma axi_focus_eq f0 delta Rad w w0 x y d : f0 <> 0 -> Rad <> 0 -> w <> 0 -> 0 < x ^ 2 + y ^ 2 < Rad ^ 2 ->
  ray_focus (axiparabola f0 delta Rad) w w0 x y d -> d * axi_inv f0 delta Rad (x ^ 2 + y ^ 2) = 1.
Proof.
  intros Hf HR Hw [P Hin] (sx & sy & HS & Ex & Ey).
  destruct (ray_unique _ _ _ _ _ _ _ _ _ Hw HS (axi_ray f0 delta Rad w w0 x y Hf HR Hin)) as (-> & ->).
  set (m := axi_inv _ _ _ _) in *. clearbody m.
  assert (Fx : x * (1 - d * m) = 0) by lra. assert (Fy : y * (1 - d * m) = 0) by lra.
  destruct (Req_dec (d * m) 1) as [|N]; [assumption|]. exfalso. apply Rmult_integral in Fx, Fy.
  destruct Fx as [->|Fx]; [|lra]. destruct Fy as [->|Fy]; [|lra]. lra.
Qed.
Lemma axi_rim f0 delta Rad : f0 <> 0 -> Rad <> 0 ->
  (f0 + delta) * axi_inv f0 delta Rad (Rad ^ 2) = 1 + (delta / f0) ^ 3 + (1 + delta / f0) * (delta * Rad ^ 2 / (8 * f0 ^ 3)).
Proof. intros Hf HR. unfold axi_inv. field. split; assumption. Qed.
Lemma axi_decr f0 delta Rad u v : 0 < f0 -> 0 < delta -> 0 < Rad -> Rad ^ 2 + 8 * f0 * delta <= 4 * f0 ^ 2 ->
  0 <= u -> u < v -> v <= Rad ^ 2 -> axi_inv f0 delta Rad v < axi_inv f0 delta Rad u.
Proof.
  intros Hf Hd HR HC H0 Huv Hv. unfold axi_inv.
  assert (HR2 : 0 < Rad ^ 2) by (apply pow_lt; exact HR). assert (Hf2 : 0 < f0 ^ 2) by (apply pow_lt; exact Hf).
  apply (Rminus_lt). replace (1 / f0 - delta * v / (f0 ^ 2 * Rad ^ 2) + delta * (Rad ^ 2 + 8 * f0 * delta) * v ^ 2 / (8 * f0 ^ 4 * Rad ^ 4) -
    (1 / f0 - delta * u / (f0 ^ 2 * Rad ^ 2) + delta * (Rad ^ 2 + 8 * f0 * delta) * u ^ 2 / (8 * f0 ^ 4 * Rad ^ 4)))
    with (delta * (v - u) / (f0 ^ 2 * Rad ^ 2) * ((Rad ^ 2 + 8 * f0 * delta) * (u + v) / (8 * f0 ^ 2 * Rad ^ 2) - 1)) by (field; split; lra).
  assert (P : 0 < delta * (v - u) / (f0 ^ 2 * Rad ^ 2)) by (apply Rdiv_lt_0_compat; apply Rmult_lt_0_compat; lra).
  assert (Q : (Rad ^ 2 + 8 * f0 * delta) * (u + v) / (8 * f0 ^ 2 * Rad ^ 2) < 1).
  { apply (Rmult_lt_reg_r (8 * f0 ^ 2 * Rad ^ 2)); [apply Rmult_lt_0_compat; lra|].
    replace ((Rad ^ 2 + 8 * f0 * delta) * (u + v) / (8 * f0 ^ 2 * Rad ^ 2) * (8 * f0 ^ 2 * Rad ^ 2)) with ((Rad ^ 2 + 8 * f0 * delta) * (u + v)) by (field; split; lra).
    assert (P0 : 0 < Rad ^ 2 + 8 * f0 * delta) by (pose proof (Rmult_lt_0_compat _ _ Hf Hd); lra).
    apply Rle_lt_trans with (4 * f0 ^ 2 * (u + v)); [apply Rmult_le_compat_r; lra|].
    replace (1 * (8 * f0 ^ 2 * Rad ^ 2)) with (4 * f0 ^ 2 * (2 * Rad ^ 2)) by ring. apply Rmult_lt_compat_l; lra. }
  set (A := delta * (v - u) / (f0 ^ 2 * Rad ^ 2)) in *. set (B := (Rad ^ 2 + 8 * f0 * delta) * (u + v) / (8 * f0 ^ 2 * Rad ^ 2)) in *. clearbody A B.
  assert (0 < A * (1 - B)) by (apply Rmult_lt_0_compat; lra). lra.
Qed.
Definition axi_dR (f0 delta Rad : R) : R :=
  (f0 + delta) / (1 + (delta / f0) ^ 3 + (1 + delta / f0) * (delta * Rad ^ 2 / (8 * f0 ^ 3))).
Lemma axi_rim_pos f0 delta Rad : 0 < f0 -> 0 < delta -> 0 < Rad ->
  0 < (delta / f0) ^ 3 + (1 + delta / f0) * (delta * Rad ^ 2 / (8 * f0 ^ 3)).
Proof.
  intros Hf Hd HR. assert (E : 0 < delta / f0) by (apply Rdiv_lt_0_compat; lra). pose proof (pow_lt _ 3 E).
  assert (0 < Rad ^ 2) by (apply pow_lt; lra). assert (0 < f0 ^ 3) by (apply pow_lt; lra).
  assert (0 < delta * Rad ^ 2 / (8 * f0 ^ 3)) by (apply Rdiv_lt_0_compat; [apply Rmult_lt_0_compat; lra|lra]).
  assert (0 < (1 + delta / f0) * (delta * Rad ^ 2 / (8 * f0 ^ 3))) by (apply Rmult_lt_0_compat; lra). lra.
Qed.
Lemma axi_dR_inv f0 delta Rad : 0 < f0 -> 0 < delta -> 0 < Rad -> axi_inv f0 delta Rad (Rad ^ 2) = / axi_dR f0 delta Rad /\ 0 < axi_dR f0 delta Rad < f0 + delta.
Proof.
  intros Hf Hd HR. pose proof (axi_rim_pos _ _ _ Hf Hd HR) as P. pose proof (axi_rim f0 delta Rad ltac:(lra) ltac:(lra)) as E. unfold axi_dR.
  set (D := (delta / f0) ^ 3 + (1 + delta / f0) * (delta * Rad ^ 2 / (8 * f0 ^ 3))) in *.
  replace (1 + (delta / f0) ^ 3 + (1 + delta / f0) * (delta * Rad ^ 2 / (8 * f0 ^ 3))) with (1 + D) in * by (unfold D; ring). clearbody D.
  split; [|split].
  - apply (Rmult_eq_reg_l (f0 + delta)); [|lra]. rewrite E. field. lra.
  - apply Rdiv_lt_0_compat; lra.
  - apply (Rmult_lt_reg_r (1 + D)); [lra|]. replace ((f0 + delta) / (1 + D) * (1 + D)) with (f0 + delta) by (field; lra).
    assert (0 < (f0 + delta) * D) by (apply Rmult_lt_0_compat; lra). lra.
Qed.
Lemma axi_order f0 delta Rad w w0 x y x' y' d d' : 0 < f0 -> 0 < delta -> 0 < Rad -> Rad ^ 2 + 8 * f0 * delta <= 4 * f0 ^ 2 -> w <> 0 ->
  0 < x ^ 2 + y ^ 2 -> x ^ 2 + y ^ 2 < x' ^ 2 + y' ^ 2 -> x' ^ 2 + y' ^ 2 < Rad ^ 2 ->
  ray_focus (axiparabola f0 delta Rad) w w0 x y d -> ray_focus (axiparabola f0 delta Rad) w w0 x' y' d' ->
  f0 < d /\ d < d' /\ d' < axi_dR f0 delta Rad /\ axi_dR f0 delta Rad < f0 + delta.
Proof.
  intros Hf Hd HR HC Hw P1 P2 P3 F F'.
  apply axi_focus_eq in F; [|lra|lra|exact Hw|split; lra]. apply axi_focus_eq in F'; [|lra|lra|exact Hw|split; lra].
  destruct (axi_dR_inv f0 delta Rad Hf Hd HR) as (ER & D0 & D1).
  pose proof (axi_decr f0 delta Rad 0 (x ^ 2 + y ^ 2) Hf Hd HR HC ltac:(lra) P1 ltac:(lra)) as M1.
  pose proof (axi_decr f0 delta Rad (x ^ 2 + y ^ 2) (x' ^ 2 + y' ^ 2) Hf Hd HR HC ltac:(lra) P2 ltac:(lra)) as M2.
  pose proof (axi_decr f0 delta Rad (x' ^ 2 + y' ^ 2) (Rad ^ 2) Hf Hd HR HC ltac:(lra) P3 ltac:(lra)) as M3.
  assert (E0 : axi_inv f0 delta Rad 0 = / f0) by (unfold axi_inv; field; lra). rewrite E0 in M1. rewrite ER in M3.
  set (m := axi_inv f0 delta Rad (x ^ 2 + y ^ 2)) in *. set (m' := axi_inv f0 delta Rad (x' ^ 2 + y' ^ 2)) in *. clearbody m m'.
  assert (K : 0 < / axi_dR f0 delta Rad) by (apply Rinv_0_lt_compat; exact D0).
  assert (Ed : d = / m) by (apply (Rmult_eq_reg_r m); [rewrite F; field; lra|lra]).
  assert (Ed' : d' = / m') by (apply (Rmult_eq_reg_r m'); [rewrite F'; field; lra|lra]).
  split; [|split; [|split; [|exact D1]]].
  - rewrite Ed, <- (Rinv_inv f0). apply Rinv_lt_contravar; [apply Rmult_lt_0_compat; lra|exact M1].
  - rewrite Ed, Ed'. apply Rinv_lt_contravar; [apply Rmult_lt_0_compat; lra|exact M2].
  - rewrite Ed', <- (Rinv_inv (axi_dR _ _ _)). apply Rinv_lt_contravar; [apply Rmult_lt_0_compat; lra|exact M3].
Qed.
Lemma axi_limit f0 delta Rad u0 d0 : f0 <> 0 -> Rad <> 0 -> d0 * axi_inv f0 delta Rad u0 = 1 ->
  forall eps, 0 < eps -> exists eta, 0 < eta /\ forall w w0 x y d, w <> 0 -> 0 < x ^ 2 + y ^ 2 < Rad ^ 2 -> Rabs (x ^ 2 + y ^ 2 - u0) < eta ->
    ray_focus (axiparabola f0 delta Rad) w w0 x y d -> Rabs (d - d0) < eps.
Proof.
  intros Hf HR E0 eps Heps.
  assert (M0 : axi_inv f0 delta Rad u0 <> 0) by (intros Z; rewrite Z in E0; lra).
  assert (CT : continuous (fun u => / axi_inv f0 delta Rad u) u0).
  { apply (ex_derive_continuous (fun u => / axi_inv f0 delta Rad u)). unfold axi_inv in *. auto_derive. exact M0. }
  assert (Ed : d0 = / axi_inv f0 delta Rad u0) by (apply (Rmult_eq_reg_r (axi_inv f0 delta Rad u0)); [rewrite E0; field; exact M0|exact M0]).
  destruct (CT (fun v => Rabs (v - d0) < eps)) as (eta & Het).
  { rewrite Ed. exists (mkposreal eps Heps). intros v Hv. exact Hv. }
  exists (pos eta). split; [apply cond_pos|]. intros w w0 x y d Hw Hin Hu F. apply axi_focus_eq in F; try assumption.
  specialize (Het (x ^ 2 + y ^ 2) Hu). cbn beta in Het. replace d with (/ axi_inv f0 delta Rad (x ^ 2 + y ^ 2)); [exact Het|].
  set (m := axi_inv f0 delta Rad (x ^ 2 + y ^ 2)) in *. clearbody m. assert (m <> 0) by (intros ->; lra). apply (Rmult_eq_reg_r m); [rewrite F; field; assumption|assumption].
Qed.
