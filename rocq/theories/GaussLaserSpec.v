(** Specification vocabulary for C89: the energy of an ideal Gaussian pulse. *)
From Verif Require Import PyBase LaserSpec.
Open Scope R_scope.

(** Energy, over all space and time, of the envelope exp(-r^2/w0^2) exp(-t^2/tau^2) of unit peak:
    (epsilon_0 c / 2) (pi w0^2 / 2) (tau sqrt(pi/2)). *)
Definition gauss_energy (w0 tau : R) : R := eps0 / 2 * c_light * (PI * w0 ^ 2 / 2) * (tau * sqrt (PI / 2)).
