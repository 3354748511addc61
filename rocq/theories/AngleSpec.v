(** Specification vocabulary for C08: azimuthal components of a function of the angle. *)
From Verif Require Import PyBase.
Open Scope R_scope.

(** a-th of N equally spaced angles. *)
Definition angle_node (N a : nat) : R := 2 * PI / INR N * INR a.

(** The N-point average of F(theta) exp(i m theta): the discrete coefficient of exp(-i m theta). *)
Definition angle_mode (N : nat) (F : R -> C) (m : Z) : C :=
  Cmult (RtoC (/ INR N)) (csum N (fun a => Cmult (F (angle_node N a)) (cis (IZR m * angle_node N a)))).

(** Sum of the components A m', |m'| <= K, with m' congruent to m modulo N. *)
Definition folded (N K : nat) (A : Z -> C) (m : Z) : C :=
  csum (2 * K + 1) (fun q => let m' := (Z.of_nat q - Z.of_nat K)%Z in
    if Z.eqb ((m' - m) mod Z.of_nat N) 0 then A m' else RtoC 0).
