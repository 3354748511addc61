(** Specification vocabulary for C90: the spectrum of a continuous pulse. *)
From Coquelicot Require Import Coquelicot.
From Verif Require Import PyBase CSum LaserSpec FullSpectrumSpec.
Open Scope R_scope.

(** The complex envelope E(x,y,t) is Lipschitz on a box (which every continuously differentiable envelope is). *)
Definition lip_field (K x0 x1 y0 y1 t0 t1 : R) (E : R -> R -> R -> C) : Prop :=
  forall x x' y y' t t',
    x0 <= x <= x1 -> x0 <= x' <= x1 -> y0 <= y <= y1 -> y0 <= y' <= y1 -> t0 <= t <= t1 -> t0 <= t' <= t1 ->
    Cmod (Cminus (E x y t) (E x' y' t')) <= K * (Rabs (x - x') + Rabs (y - y') + Rabs (t - t')).

(** int_t0^t1 e(t) exp(i v t) dt *)
Definition transform (t0 t1 : R) (e : R -> C) (v : R) : C :=
  (RInt (fun t => Re (Cmult (e t) (cis (v * t)))) t0 t1, RInt (fun t => Im (Cmult (e t) (cis (v * t)))) t0 t1).
(** Spectral energy (J per rad Hz) at the detuning v of the envelope E: the density of E/2 (the positive
    frequencies of Re(E exp(-i w0 t))) integrated over the transverse plane. *)
Definition spectrum_xyt (x0 x1 y0 y1 t0 t1 : R) (E : R -> R -> R -> C) (v : R) : R :=
  RInt (fun x => RInt (fun y => density (Cmult (RtoC (/ 2)) (transform t0 t1 (E x y) v))) y0 y1) x0 x1.
(** ... of an axisymmetric envelope, in the ring r0 <= r <= r1. *)
Definition spectrum_rt (r0 r1 t0 t1 : R) (E : R -> R -> R -> C) (v : R) : R :=
  RInt (fun r => 2 * PI * r * density (Cmult (RtoC (/ 2)) (transform t0 t1 (E r 0) v))) r0 r1.
(** The energy scale of the laser: 1 without a requested energy, else requested energy / energy of the profile. *)
Definition energy_scale (req : option (option R)) (U : R) : R :=
  match req with Some (Some E) => E / U | _ => 1 end.
Definition axisymmetric (E : R -> R -> R -> C) : Prop :=
  forall r t theta, E (r * cos theta) (r * sin theta) t = E r 0 t.
(** The spectrum of an ideal Gaussian pulse exp(-t^2/tau^2) of energy E: a Gaussian of the detuning v whose
    integral over v is E. *)
Definition gauss_spectrum (E tau v : R) : R := E * (tau / sqrt (2 * PI)) * exp (- (tau ^ 2 * v ^ 2 / 2)).
