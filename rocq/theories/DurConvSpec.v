(** Specification vocabulary for C88: duration of a continuous pulse. *)
From Coquelicot Require Import Coquelicot.
From Verif Require Import PyBase LaserSpec.
Open Scope R_scope.

(** int phi(t) |E|^2 dx dy dt over a Cartesian box. *)
Definition moment_xyt (x0 x1 y0 y1 t0 t1 : R) (E : R -> R -> R -> C) (phi : R -> R) : R :=
  RInt (fun x => RInt (fun y => RInt (fun t => phi t * Cnorm2 (E x y t)) t0 t1) y0 y1) x0 x1.
(** int phi(t) |E|^2 r dr dtheta dt over a cylindrical shell. *)
Definition moment_rt (r0 r1 t0 t1 : R) (E : R -> R -> R -> C) (phi : R -> R) : R :=
  RInt (fun r => RInt (fun t => phi t * (RInt (fun theta => Cnorm2 (E (r * cos theta) (r * sin theta) t)) 0 (2 * PI) * r))
                   t0 t1) r0 r1.

(** The energy-weighted mean time and root-mean-square duration, given the moments. *)
Definition mean_time (I : (R -> R) -> R) : R := I (fun t => t) / I (fun _ => 1).
Definition rms_duration (I : (R -> R) -> R) : R := sqrt (I (fun t => (t - mean_time I) ^ 2) / I (fun _ => 1)).

(** No energy requested, or a positive one. *)
Definition positive_request (req : option (option R)) : Prop :=
  match req with Some (Some E) => 0 < E | _ => True end.
