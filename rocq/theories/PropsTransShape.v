(** Property theorems C76 (super-Gaussian and jinc transverse profiles). *)
From Coquelicot Require Import Coquelicot.
From Verif Require Import PyBase CSum AnalyticModel TransShapeSpec TransShapeProofs.
Open Scope R_scope.

(** C76: the super-Gaussian is 1 on the axis, 1/e at the radius w0 whatever the order, positive, axisymmetric and strictly
    decreasing with the radius. *)
Theorem C76_super_gaussian :
  forall w0 n, 0 < w0 -> 0 < n ->
  super_gaussian_trans w0 n 0 0 = RtoC 1 /\
  (forall x y, radius x y = w0 -> super_gaussian_trans w0 n x y = RtoC (exp (- 1))) /\
  (forall x y, Im (super_gaussian_trans w0 n x y) = 0 /\ 0 < Re (super_gaussian_trans w0 n x y)) /\
  (forall x y x' y', radius x y < radius x' y' -> Re (super_gaussian_trans w0 n x' y') < Re (super_gaussian_trans w0 n x y)) /\
  (forall x y x' y', radius x y = radius x' y' -> super_gaussian_trans w0 n x y = super_gaussian_trans w0 n x' y').
Proof. exact c76_super_gaussian. Qed.
Print Assumptions C76_super_gaussian.
(** C76: order 2 is the Gaussian profile in focus, order 1 the Laplace profile. *)
Theorem C76_orders :
  forall w0 x y, 0 < w0 ->
  super_gaussian_trans w0 2 x y = gaussian_trans_at w0 0 x y /\ super_gaussian_trans w0 1 x y = RtoC (exp (- (radius x y / w0))).
Proof. exact c76_orders. Qed.
Print Assumptions C76_orders.
(** C76: for growing order the profile tends to a top hat of radius w0. *)
Theorem C76_top_hat :
  forall w0 x y, 0 < w0 ->
  (radius x y < w0 -> is_lim_seq (fun n => Re (super_gaussian_trans w0 (INR (S n)) x y)) 1) /\
  (w0 < radius x y -> is_lim_seq (fun n => Re (super_gaussian_trans w0 (INR (S n)) x y)) 0).
Proof. exact c76_top_hat. Qed.
Print Assumptions C76_top_hat.
(** C76: the jinc profile is 1 on the axis and nowhere else, real, axisymmetric, bounded by 1, and its second- and
    fourth-order behaviour at the axis is that of 2 J1(u)/u with u = r/w0 (so it is continuous there). *)
Theorem C76_jinc :
  forall w0, 0 < w0 ->
  jinc_trans bessel_j1 w0 0 0 = RtoC 1 /\
  (forall x y x' y', radius x y = radius x' y' -> jinc_trans bessel_j1 w0 x y = jinc_trans bessel_j1 w0 x' y') /\
  (forall x y, Im (jinc_trans bessel_j1 w0 x y) = 0 /\ Cmod (jinc_trans bessel_j1 w0 x y) <= 1) /\
  (forall x y, (x, y) <> (0, 0) -> Re (jinc_trans bessel_j1 w0 x y) < 1) /\
  (forall x y, let u := radius x y / w0 in 1 - u ^ 2 / 8 <= Re (jinc_trans bessel_j1 w0 x y) <= 1 - u ^ 2 / 8 + u ^ 4 / 192).
Proof. exact c76_jinc. Qed.
Print Assumptions C76_jinc.
(** A point off the axis: the bounds say something there. *)
Example C76_nonvacuous : radius 3 4 = 5 /\ 1 - (radius 3 4 / 10) ^ 2 / 8 <= Re (jinc_trans bessel_j1 10 3 4) <= 1 - (radius 3 4 / 10) ^ 2 / 8 + (radius 3 4 / 10) ^ 4 / 192 /\
  Re (jinc_trans bessel_j1 10 3 4) < 97 / 100.
Proof.
  assert (E : radius 3 4 = 5) by (unfold radius; replace (3 ^ 2 + 4 ^ 2) with (5 ^ 2) by ring; apply sqrt_pow2; lra).
  destruct (c76_jinc 10) as (_ & _ & _ & _ & H); [lra|]. specialize (H 3 4). cbn zeta in H.
  split; [exact E|]. split; [exact H|]. rewrite E in H. lra.
Qed.
