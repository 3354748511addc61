(** Vocabulary for C76 (super-Gaussian and jinc transverse profiles). *)
From Coquelicot Require Import Coquelicot.
From Verif Require Import PyBase.
Open Scope R_scope.

(** The Bessel function J_1 (Bessel's integral, DLMF 10.9.2). *)
Definition bessel_j1 (u : R) : R := / PI * RInt (fun t => cos (t - u * sin t)) 0 PI.
(** Distance to the axis. *)
Definition radius (x y : R) : R := sqrt (x ^ 2 + y ^ 2).
