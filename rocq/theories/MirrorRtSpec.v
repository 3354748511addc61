(** Vocabulary of C105: reflection y -> -y of an azimuthally decomposed pulse. *)
From Verif Require Import PyBase NumPy GridModel LaserModel LaserOps.
Open Scope R_scope.

(** Storage position of mode -m, if mode m is stored at position i (n positions: modes 0 .. M-1, then -M+1 .. -1). *)
Definition opposite (n i : nat) : nat := if Nat.eqb i 0 then 0%nat else (n - i)%nat.
(** The diffraction solver of the opposite azimuthal order (same radii, wavenumbers and backend). *)
Definition opposite_prop (p : rt_prop) : rt_prop := mkRtProp (rp_r p) (rp_k p) (rp_rnew p) (- rp_mode p) (rp_backend p).
(** A cylindrical diffraction solver that treats the two senses of rotation alike. *)
Definition mirror_rt_solver (S : solvers) : Prop := forall p w x d, rp_rnew p = None ->
  (forall k j, (k < length (rp_k p))%nat -> (j < length (rp_r p))%nat -> w k j = x k j) ->
  forall k j, (k < length (rp_k p))%nat -> (j < length (rp_r p))%nat -> step_rt S (opposite_prop p) w d k j = step_rt S p x d k j.
