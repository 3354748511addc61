(** Models of the (non-FFT) numpy/Python built-ins that the lasy functions call.
    These are contracts of numpy in exact arithmetic, not lasy code. *)
From Verif Require Import PyBase.
Open Scope R_scope.

(** Python indexing of a sequence by an int (negative counts from the end). *)
Definition py_index (n : nat) (z : Z) : option nat :=
  if Z.leb 0 z then (if Z.ltb z (Z.of_nat n) then Some (Z.to_nat z) else None)
  else (if Z.leb 0 (z + Z.of_nat n) then Some (Z.to_nat (z + Z.of_nat n)) else None).
Definition py_nth {A} (l : list A) (z : Z) : res A :=
  match py_index (length l) z with
  | Some i => match nth_error l i with Some a => Ok a | None => Err IndexError end
  | None => Err IndexError
  end.
(** Python [l[z] = v] on a list. *)
Fixpoint set_nth {A} (l : list A) (i : nat) (v : A) : list A :=
  match l, i with
  | [], _ => []
  | _ :: t, O => v :: t
  | h :: t, S i => h :: set_nth t i v
  end.
Definition py_set {A} (l : list A) (z : Z) (v : A) : res (list A) :=
  match py_index (length l) z with
  | Some i => Ok (set_nth l i v)
  | None => Err IndexError
  end.
(** Start of a Python slice [l[z:]] on a length-n sequence (clipped). *)
Definition py_slice_start (n : nat) (z : Z) : nat :=
  if Z.leb 0 z then Nat.min (Z.to_nat z) n else Z.to_nat (Z.max 0 (z + Z.of_nat n)).

(** np.linspace(lo, hi, n) *)
Definition linspace (lo hi : R) (n : nat) : list R :=
  match n with
  | O => []
  | 1%nat => [lo]
  | _ => map (fun i => lo + INR i * ((hi - lo) / (INR n - 1))) (seq 0 n)
  end.

(** np.arange(a, b) for integers *)
Definition zarange (a b : Z) : list Z :=
  map (fun i => (a + Z.of_nat i)%Z) (seq 0 (Z.to_nat (b - a))).

(** 1-D array subscript with in-range natural index (default 0 never used in range). *)
Definition vget (l : list R) (i : nat) : R := nth i l 0.

(** max over a list (np.max; numpy raises ValueError on empty arrays) *)
Fixpoint rmaxl (l : list R) : R :=
  match l with
  | [] => 0
  | [x] => x
  | x :: t => Rmax x (rmaxl t)
  end.

(** All values f i j k, i<n0, j<n1, k<n2, in C order. *)
Definition flat3 {A} (n0 n1 n2 : nat) (f : nat -> nat -> nat -> A) : list A :=
  flat_map (fun i => flat_map (fun j => map (fun k => f i j k) (seq 0 n2)) (seq 0 n1)) (seq 0 n0).
