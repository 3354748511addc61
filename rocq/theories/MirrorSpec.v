(** Vocabulary of C103: reflections of the transverse plane (x -> -x, y -> -y, or both: a half turn). *)
From Verif Require Import PyBase NumPy GridModel LaserModel LaserOps.
Open Scope R_scope.

(** Index, and coordinate, of the mirror image along one axis (when b is true). *)
Definition flip (b : bool) (n i : nat) : nat := if b then (n - 1 - i)%nat else i.
Definition sign (b : bool) (x : R) : R := if b then - x else x.
(** The mirror image of an optical element, and of a call. *)
Definition mirror_optic (bx bY : bool) (e : optic) : optic := fun x y w w0 => e (sign bx x) (sign bY y) w w0.
Definition mirror_op (bx bY : bool) (o : lop) : lop := match o with OpOptics e => OpOptics (mirror_optic bx bY e) | o => o end.
(** A Cartesian diffraction solver that treats mirror images alike. *)
Definition mirror_solver (bx bY : bool) (S : solvers) : Prop := forall p x w d,
  let nx := snd (fp_x p) in let ny := snd (fp_y p) in
  (forall k i j, (k < length (fp_k p))%nat -> (i < nx)%nat -> (j < ny)%nat -> w k i j = x k (flip bx nx i) (flip bY ny j)) ->
  forall k i j, (k < length (fp_k p))%nat -> (i < nx)%nat -> (j < ny)%nat -> step_xyt S p w d k i j = step_xyt S p x d k (flip bx nx i) (flip bY ny j).
