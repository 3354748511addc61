(** Vocabulary for C36, direct method: smooth functions of time, and minus the derivative of a complex function. *)
From Coquelicot Require Import Coquelicot.
From Verif Require Import PyBase.
Open Scope R_scope.

(** f has three derivatives everywhere and the third is bounded by M. *)
Definition thrice (f : R -> R) (M : R) : Prop :=
  (forall k, (k <= 3)%nat -> forall x, ex_derive_n f k x) /\ (forall x, Rabs (Derive_n f 3 x) <= M).
(** v = - (d/dt) A at time t. *)
Definition minus_derivative (A : R -> C) (t : R) (v : C) : Prop :=
  is_derive (fun s => Re (A s)) t (- Re v) /\ is_derive (fun s => Im (A s)) t (- Im v).
