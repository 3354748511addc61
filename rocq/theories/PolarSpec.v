(** Vocabulary for C79, C80: integrals over the plane in polar coordinates. *)
From Coquelicot Require Import Coquelicot.
From Verif Require Import PyBase CSum.
Open Scope R_scope.

(** The integral of f over the disc of radius L is v: first over the angle, then over the radius (with the Jacobian r). *)
Definition disc_int (f : R -> R -> C) (L : R) (v : C) : Prop := exists gr gi : R -> R,
  (forall r, 0 <= r -> is_RInt (fun th => Re (f (r * cos th) (r * sin th))) 0 (2 * PI) (gr r)) /\
  (forall r, 0 <= r -> is_RInt (fun th => Im (f (r * cos th) (r * sin th))) 0 (2 * PI) (gi r)) /\
  is_RInt (fun r => gr r * r) 0 L (Re v) /\ is_RInt (fun r => gi r * r) 0 L (Im v).
(** The integral of f over the plane is v: limit over growing discs. *)
Definition polar_int (f : R -> R -> C) (v : C) : Prop := exists I : R -> C,
  (forall L, 0 <= L -> disc_int f L (I L)) /\ is_lim (fun L => Re (I L)) p_infty (Re v) /\ is_lim (fun L => Im (I L)) p_infty (Im v).
(** The scalar product of two transverse profiles is v; the power of a profile. *)
Definition polar_overlap (f g : R -> R -> C) (v : C) : Prop := polar_int (fun x y => Cmult (f x y) (Cconj (g x y))) v.
Definition power (f : R -> R -> C) (v : R) : Prop := polar_overlap f f (RtoC v).
