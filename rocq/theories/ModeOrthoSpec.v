(** Vocabulary for C77 (orthonormality of the transverse modes). *)
From Coquelicot Require Import Coquelicot.
From Verif Require Import PyBase CSum AnalyticModel.
Open Scope R_scope.

(** Integral of a complex function over the square [-L, L] x [-L, L]. *)
Definition square_int (f : R -> R -> C) (L : R) : C :=
  (RInt (fun y => RInt (fun x => Re (f x y)) (- L) L) (- L) L, RInt (fun y => RInt (fun x => Im (f x y)) (- L) L) (- L) L).
(** The integral of f over the whole plane is v (limit over growing squares). *)
Definition plane_int (f : R -> R -> C) (v : C) : Prop :=
  is_lim (fun L => Re (square_int f L)) p_infty (Re v) /\ is_lim (fun L => Im (square_int f L)) p_infty (Im v).
(** The scalar product of two transverse profiles is v. *)
Definition overlap (f g : R -> R -> C) (v : C) : Prop := plane_int (fun x y => Cmult (f x y) (Cconj (g x y))) v.
(** A superposition of Hermite-Gauss modes with the given coefficients, in the plane at z Rayleigh lengths. *)
Definition hg_sum (w0 z : R) (N M : nat) (c : nat -> nat -> C) (x y : R) : C :=
  csum N (fun i => csum M (fun j => Cmult (c i j) (hg_trans_at w0 i j z x y))).
