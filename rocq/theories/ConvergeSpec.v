(** Specification vocabulary for C86: the energy of a continuous envelope. *)
From Coquelicot Require Import Coquelicot.
From Verif Require Import PyBase LaserSpec.
Open Scope R_scope.

(** The intensity |E|^2 of an envelope E(x,y,t) is Lipschitz on a box (which every continuously
    differentiable envelope is). *)
Definition lip_intensity (K x0 x1 y0 y1 t0 t1 : R) (E : R -> R -> R -> C) : Prop :=
  forall x x' y y' t t',
    x0 <= x <= x1 -> x0 <= x' <= x1 -> y0 <= y <= y1 -> y0 <= y' <= y1 -> t0 <= t <= t1 -> t0 <= t' <= t1 ->
    Rabs (Cnorm2 (E x y t) - Cnorm2 (E x' y' t')) <= K * (Rabs (x - x') + Rabs (y - y') + Rabs (t - t')).

(** Energy of the continuous envelope in a Cartesian box:
    (epsilon_0/2) int |E|^2 dx dy c dt. *)
Definition U_xyt (x0 x1 y0 y1 t0 t1 : R) (E : R -> R -> R -> C) : R :=
  eps0 / 2 * c_light * RInt (fun x => RInt (fun y => RInt (fun t => Cnorm2 (E x y t)) t0 t1) y0 y1) x0 x1.

(** Energy of the continuous envelope in a cylindrical shell r0 <= r <= r1:
    (epsilon_0/2) int |E|^2 r dr dtheta c dt. *)
Definition U_rt (r0 r1 t0 t1 : R) (E : R -> R -> R -> C) : R :=
  eps0 / 2 * c_light *
  RInt (fun r => RInt (fun t => RInt (fun theta => Cnorm2 (E (r * cos theta) (r * sin theta) t)) 0 (2 * PI) * r)
                   t0 t1) r0 r1.
