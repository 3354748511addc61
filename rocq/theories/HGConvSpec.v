(** Vocabulary of C102: overlap integrals over the window of the decomposition. *)
From Coquelicot Require Import Coquelicot.
From Verif Require Import PyBase.
Open Scope R_scope.

(** On every square the field varies at a bounded rate. *)
Definition locally_lipschitz (f : R -> R -> C) : Prop := forall X, 0 < X -> exists K, forall x x' y y',
  Rabs x <= X -> Rabs x' <= X -> Rabs y <= X -> Rabs y' <= X ->
  Cmod (Cminus (f x y) (f x' y')) <= K * (Rabs (x - x') + Rabs (y - y')).
(** Real part of the integral of f * g over the square |x|, |y| <= a. *)
Definition square_overlap (f g : R -> R -> C) (a : R) : R :=
  RInt (fun x => RInt (fun y => Re (Cmult (f x y) (g x y))) (- a) a) (- a) a.
