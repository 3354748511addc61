(** Vocabulary for C46-C48. *)
From Verif Require Import PyBase NumPy.
Open Scope R_scope.

(** v lies in the cell [x_i, x_(i+1)] of an axis. *)
Definition in_cell (x : list R) (i : nat) (v : R) : Prop := (S i < length x)%nat /\ vget x i <= v <= vget x (S i).
(** The axis increases or decreases strictly. *)
Definition strictly_monotone (x : list R) : Prop :=
  (forall i, (S i < length x)%nat -> vget x i < vget x (S i)) \/ (forall i, (S i < length x)%nat -> vget x (S i) < vget x i).
(** v lies between the neighbouring samples x_i and x_(i+1) of an axis in either order. *)
Definition between_nodes (x : list R) (i : nat) (v : R) : Prop :=
  (S i < length x)%nat /\ (vget x i <= v <= vget x (S i) \/ vget x (S i) <= v <= vget x i).
(** v lies below all samples of an axis, or above all of them. *)
Definition beyond (x : list R) (v : R) : Prop :=
  (0 < length x)%nat /\
  ((forall i, (i < length x)%nat -> v < vget x i) \/ (forall i, (i < length x)%nat -> vget x i < v)).
(** v lies outside the range of an (increasing) axis. *)
Definition off_axis (x : list R) (v : R) : Prop := v < vget x 0 \/ last x 0 < v.
(** a is the first of the indices where l is nearest to v. *)
Definition nearest (l : list R) (v : R) (a : nat) : Prop :=
  (a < length l)%nat /\
  (forall q, (q < length l)%nat -> Rabs (vget l a - v) <= Rabs (vget l q - v)) /\
  (forall q, (q < a)%nat -> Rabs (vget l a - v) < Rabs (vget l q - v)).
(** Phase of sample i; no phase given: zero. *)
Definition phase_at (ph : option (list R)) (i : nat) : R := match ph with Some p => vget p i | None => 0 end.
(** ** Images *)
From Verif Require Import DataModel.
Definition nonneg_image (f : image) : Prop := forall i j, (i < im_rows f)%nat -> (j < im_cols f)%nat -> 0 <= im_at f i j.
(** g shows the content of f moved by a columns and b rows; nothing of it is cut off, everything else is dark. *)
Definition moved (f g : image) (a b : nat) : Prop :=
  (forall i j, (i < im_rows f)%nat -> (j < im_cols f)%nat -> im_at f i j <> 0 ->
     (i + b < im_rows g)%nat /\ (j + a < im_cols g)%nat) /\
  (forall i j, (i + b < im_rows g)%nat -> (j + a < im_cols g)%nat -> (i < im_rows f)%nat -> (j < im_cols f)%nat ->
     im_at g (i + b) (j + a) = im_at f i j) /\
  (forall i j, (i < im_rows g)%nat -> (j < im_cols g)%nat ->
     ~ (exists i' j', i = (i' + b)%nat /\ j = (j' + a)%nat /\ (i' < im_rows f)%nat /\ (j' < im_cols f)%nat) -> im_at g i j = 0).
(** g is f with all values multiplied by s *)
Definition scaled_image (f g : image) (s : R) : Prop :=
  im_rows g = im_rows f /\ im_cols g = im_cols f /\
  forall i j, (i < im_rows f)%nat -> (j < im_cols f)%nat -> im_at g i j = s * im_at f i j.
(** rows and columns exchanged *)
Definition transposed (f g : image) : Prop :=
  im_rows g = im_cols f /\ im_cols g = im_rows f /\
  forall i j, (i < im_rows f)%nat -> (j < im_cols f)%nat -> im_at g j i = im_at f i j.
(** ** TransverseProfileFromData *)
From Verif Require Import NpMath AnalysisModel LaserSpec.
(** Where column (row) j of the data is placed. *)
Definition data_pos (center : bool) (lo hi : R) (n j : nat) : R :=
  if center then coord (- (hi - lo) / 2) ((hi - lo) / 2) n j else coord lo hi n j.
(** The number of columns and rows the image is moved by to the left and up (cyclically) when centred:
    the distance of the centre of mass from (columns/2, rows/2), rounded towards zero. *)
Definition pixel_shift (center : bool) (f : image) : Z * Z :=
  if center then (py_int (fst (find_center_of_mass f) - INR (im_cols f) / 2), py_int (snd (find_center_of_mass f) - INR (im_rows f) / 2)) else (0, 0)%Z.
(** The pixel of the data that ends up at row i, column j. *)
Definition source_pixel (center : bool) (f : image) (i j : nat) : nat * nat :=
  (Z.to_nat ((Z.of_nat i + snd (pixel_shift center f)) mod Z.of_nat (im_rows f)),
   Z.to_nat ((Z.of_nat j + fst (pixel_shift center f)) mod Z.of_nat (im_cols f))).
(** Sum over the pixels of an image of the given size. *)
Definition pixel_sum (rows cols : nat) (F : nat -> nat -> R) : R := rsum rows (fun i => rsum cols (fun j => F i j)).
