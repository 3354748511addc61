(** Specification vocabulary for the analysis functions. *)
From Verif Require Import PyBase NumPy GridModel GridObs.
Open Scope R_scope.

(** v is not a negative multiple of u (its phase differs from that of u by less than pi). *)
Definition not_opposite (u v : C) : Prop := forall r, 0 < r -> v <> Copp (Cmult (RtoC r) u).
(** Every transverse point is dark at all times, or nowhere dark and without phase jumps of exactly pi
    from one time sample to the next. *)
Definition phase_ok (f : ndarray) : Prop := forall i j, (i < dim0 f)%nat -> (j < dim1 f)%nat ->
  (forall k, (k < dim2 f)%nat -> at3 f i j k = RtoC 0) \/
  (forall k, (k < dim2 f)%nat -> at3 f i j k <> RtoC 0 /\ ((S k < dim2 f)%nat -> not_opposite (at3 f i j k) (at3 f i j (S k)))).
(** An axis with at least two points and a constant step. *)
Definition uniform (l : list R) : Prop :=
  (2 <= length l)%nat /\ exists d, forall i, (S i < length l)%nat -> vget l (S i) - vget l i = d.
(** Spectra are lists of (omega, density): strictly increasing in omega; sum of the densities. *)
Definition om_lt (x y : R * R) : Prop := fst x < fst y.
Definition lsum (l : list (R * R)) : R := fold_right Rplus 0 (map snd l).
(** g' gives the same answers as g to every query: metadata, temporal and spectral field. *)
Definition same_contents (g g' : grid) : Prop := same_meta g g' /\ tread g' = tread g /\ sread g' = sread g.

(** The entry of [om] for the point (i,j,k) of [f], when [om] has the axes of [f] without those of length 1. *)
Definition squeezed_entry (f om : ndarray) (i j k : nat) : C :=
  match Nat.eqb (dim0 f) 1, Nat.eqb (dim1 f) 1 with
  | true, true => at3 om k 0 0
  | true, false => at3 om j k 0
  | false, true => at3 om i k 0
  | false, false => at3 om i j k
  end.
(** A field with quadratic temporal phase (linear chirp): each transverse point is dark throughout, or has
    positive amplitude a and phase -(p0 + delta t + beta t^2/2), advancing by less than pi per sample. *)
Definition chirped (f : ndarray) (t : nat -> R) (a : nat -> nat -> nat -> R) (p0 delta beta : nat -> nat -> R) : Prop :=
  let psi i j q := p0 i j + delta i j * t q + beta i j * (t q * t q) / 2 in
  forall i j, (i < dim0 f)%nat -> (j < dim1 f)%nat ->
    (forall q, (S q < dim2 f)%nat -> Rabs (psi i j (S q) - psi i j q) < PI) /\
    (forall q, (q < dim2 f)%nat -> at3 f i j q = Cmult (RtoC (a i j q)) (cis (- psi i j q))) /\
    ((forall q, (q < dim2 f)%nat -> a i j q = 0) \/ (forall q, (q < dim2 f)%nat -> 0 < a i j q)).
