(** Property theorems C83: where the optical elements send the rays. *)
From Coquelicot Require Import Coquelicot.
From Verif Require Import PyBase LaserModel OpticsModel ParaxialSpec RaySpec RayProofs.
Open Scope R_scope.

(** A ray, and the point where it meets the axis, are unique (so the theorems below describe the only ray there is). *)
Theorem C83_unique :
  forall T w w0 x y, w <> 0 ->
  (forall sx sy sx' sy', ray_slope T w w0 x y sx sy -> ray_slope T w w0 x y sx' sy' -> sx = sx' /\ sy = sy') /\
  (x <> 0 \/ y <> 0 -> forall d d', ray_focus T w w0 x y d -> ray_focus T w w0 x y d' -> d = d').
Proof. intros T w w0 x y Hw. split; [intros; eapply ray_unique; eassumption|intros; eapply focus_unique; eassumption]. Qed.
Print Assumptions C83_unique.
(** C83: every ray leaving a parabolic mirror, at every frequency, crosses the axis at the distance f. *)
Theorem C83_mirror_partial : forall f w w0 x y, f <> 0 -> ray_focus (parabolic_mirror f) w w0 x y f.
Proof. exact mirror_focus. Qed.
Print Assumptions C83_mirror_partial.
(** C83: all rays leaving an axicon have the same inclination, 2 tan(gamma/2), towards the axis: a value strictly between
    sin gamma and tan gamma. *)
Theorem C83_axicon_partial :
  forall gamma w w0 x y, x <> 0 \/ y <> 0 -> let r := sqrt (x ^ 2 + y ^ 2) in
  ray_slope (axicon gamma) w w0 x y (- (2 * tan (gamma / 2)) * (x / r)) (- (2 * tan (gamma / 2)) * (y / r)) /\
  (0 < gamma < PI / 2 -> sin gamma < 2 * tan (gamma / 2) < tan gamma).
Proof. intros g w w0 x y H r. split; [exact (axicon_ray g w w0 x y H)|exact (axicon_between g)]. Qed.
Print Assumptions C83_axicon_partial.
(** REFUTED: "gamma is the angle the outgoing rays make with the axis" is true of no gamma in (0, pi/2), whether the inclination is
    read as a direction cosine (sin gamma) or as a slope (tan gamma). *)
Theorem C83_axicon_refuted :
  forall gamma w w0 x sx sy, 0 < gamma < PI / 2 -> w <> 0 -> x > 0 -> ray_slope (axicon gamma) w w0 x 0 sx sy ->
  sy = 0 /\ sx <> - sin gamma /\ sx <> - tan gamma.
Proof.
  intros g w w0 x sx sy Hg Hw Hx HS. assert (Hx0 : x <> 0) by lra. pose proof (axicon_ray g w w0 x 0 (or_introl Hx0)) as HA. cbn zeta in HA.
  replace (sqrt (x ^ 2 + 0 ^ 2)) with x in HA by (replace (x ^ 2 + 0 ^ 2) with (x ^ 2) by ring; symmetry; apply sqrt_pow2; lra).
  destruct (ray_unique _ _ _ _ _ _ _ _ _ Hw HS HA) as (-> & ->). destruct (axicon_between g Hg) as [B1 B2].
  replace (x / x) with 1 by (field; lra). split; [field; lra|]. split; intros Z; lra.
Qed.
Print Assumptions C83_axicon_refuted.
(** C83: the ray leaving an axiparabola at radius r < R crosses the axis at the inverse of an explicit polynomial. *)
Theorem C83_axiparabola_partial :
  forall f0 delta Rad w w0 x y, f0 <> 0 -> Rad <> 0 -> x ^ 2 + y ^ 2 < Rad ^ 2 ->
  let u := x ^ 2 + y ^ 2 in
  let m := 1 / f0 - delta * u / (f0 ^ 2 * Rad ^ 2) + delta * (Rad ^ 2 + 8 * f0 * delta) * u ^ 2 / (8 * f0 ^ 4 * Rad ^ 4) in
  m <> 0 -> ray_focus (axiparabola f0 delta Rad) w w0 x y (/ m).
Proof. exact axi_focus. Qed.
Print Assumptions C83_axiparabola_partial.
(** C83: the focal range: it starts at f0 (rays near the axis), the focal distance grows with the radius, and rays at the rim are focused at
    (f0 + delta) / (1 + (delta/f0)^3 + (1 + delta/f0) delta R^2 / (8 f0^3)), short of f0 + delta. *)
Theorem C83_focal_range_partial :
  forall f0 delta Rad, 0 < f0 -> 0 < delta -> 0 < Rad -> Rad ^ 2 + 8 * f0 * delta <= 4 * f0 ^ 2 ->
  let T := axiparabola f0 delta Rad in
  let dR := (f0 + delta) / (1 + (delta / f0) ^ 3 + (1 + delta / f0) * (delta * Rad ^ 2 / (8 * f0 ^ 3))) in
  (forall w w0 x y x' y' d d', w <> 0 -> 0 < x ^ 2 + y ^ 2 -> x ^ 2 + y ^ 2 < x' ^ 2 + y' ^ 2 -> x' ^ 2 + y' ^ 2 < Rad ^ 2 ->
     ray_focus T w w0 x y d -> ray_focus T w w0 x' y' d' -> f0 < d /\ d < d' /\ d' < dR /\ dR < f0 + delta) /\
  (forall eps, 0 < eps -> exists eta, 0 < eta /\ forall w w0 x y d, w <> 0 -> 0 < x ^ 2 + y ^ 2 < Rad ^ 2 -> x ^ 2 + y ^ 2 < eta ->
     ray_focus T w w0 x y d -> Rabs (d - f0) < eps) /\
  (forall eps, 0 < eps -> exists eta, 0 < eta /\ forall w w0 x y d, w <> 0 -> 0 < x ^ 2 + y ^ 2 < Rad ^ 2 -> Rad ^ 2 - eta < x ^ 2 + y ^ 2 ->
     ray_focus T w w0 x y d -> Rabs (d - dR) < eps).
Proof.
  intros f0 delta Rad Hf Hd HR HC T dR. split; [|split].
  - intros w w0 x y x' y' d d' Hw P1 P2 P3. exact (axi_order f0 delta Rad w w0 x y x' y' d d' Hf Hd HR HC Hw P1 P2 P3).
  - intros eps He. destruct (axi_limit f0 delta Rad 0 f0 ltac:(lra) ltac:(lra) ltac:(unfold axi_inv; field; lra) eps He) as (eta & Het & H).
    exists eta. split; [exact Het|]. intros w w0 x y d Hw Hin Hu. apply (H w w0 x y d Hw Hin). rewrite Rminus_0_r, Rabs_pos_eq; lra.
  - intros eps He. destruct (axi_dR_inv f0 delta Rad Hf Hd HR) as (E & D0 & _). change (axi_dR f0 delta Rad) with dR in *.
    destruct (axi_limit f0 delta Rad (Rad ^ 2) dR ltac:(lra) ltac:(lra) ltac:(rewrite E; field; lra) eps He) as (eta & Het & H).
    exists eta. split; [exact Het|]. intros w w0 x y d Hw Hin Hu. apply (H w w0 x y d Hw Hin). rewrite Rabs_left1; lra.
Qed.
Print Assumptions C83_focal_range_partial.
(** REFUTED: "rays coming from r = R focus at f0 + delta": with f0 = 4, delta = 1, R = 1 every ray is focused before 4.93. *)
Theorem C83_refuted :
  forall w w0 x y d, w <> 0 -> 0 < x ^ 2 + y ^ 2 < 1 -> ray_focus (axiparabola 4 1 1) w w0 x y d -> d < 4.93.
Proof.
  intros w w0 x y d Hw [P1 P2] F.
  destruct (axi_dR_inv 4 1 1 ltac:(lra) ltac:(lra) ltac:(lra)) as (E & D0 & D1).
  assert (P2' : x ^ 2 + y ^ 2 < 1 ^ 2) by lra.
  pose proof (axi_decr 4 1 1 (x ^ 2 + y ^ 2) (1 ^ 2) ltac:(lra) ltac:(lra) ltac:(lra) ltac:(lra) ltac:(lra) P2' ltac:(lra)) as M.
  apply axi_focus_eq in F; [|lra|lra|exact Hw|split; lra]. set (m := axi_inv 4 1 1 (x ^ 2 + y ^ 2)) in *. clearbody m.
  assert (EV : axi_inv 4 1 1 (1 ^ 2) = 1 / 4 - 1 / 16 + 33 / 2048) by (unfold axi_inv; field). rewrite EV in M.
  assert (Hm : 0 < m) by lra. apply (Rmult_lt_reg_r m); [exact Hm|]. rewrite F. lra.
Qed.
Print Assumptions C83_refuted.
(** Concrete rays. *)
Example C83_nonvacuous :
  4 ^ 2 * 4 >= 1 ^ 2 + 8 * 4 * 1 /\ (exists d, ray_focus (axiparabola 4 1 1) 1 1 (/ 2) 0 d) /\ (exists d, ray_focus (axiparabola 4 1 1) 1 1 0 (3 / 4) d) /\
  exists sx sy, ray_slope (axicon 1) 1 1 2 0 sx sy.
Proof.
  split; [lra|]. split; [|split].
  - eexists. apply (C83_axiparabola_partial 4 1 1 1 1 (/ 2) 0); lra.
  - eexists. apply (C83_axiparabola_partial 4 1 1 1 1 0 (3 / 4)); lra.
  - do 2 eexists. apply (C83_axicon_partial 1 1 1 2 0). left. lra.
Qed.
