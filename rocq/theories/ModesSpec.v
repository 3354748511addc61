(** Vocabulary for C55, C69, C70 (Hermite-Gauss decomposition). *)
From Verif Require Import PyBase NumPy AnalyticModel ModesModel.
Open Scope R_scope.

(** A profile object of an analytic class: it evaluates its formula at (x + x_offset, y + y_offset). *)
Definition analytic (f : R -> R -> C) (w0 xo yo : R) : tprofile := mkTp (Waist w0) xo yo (fun x y => f (x + xo) (y + yo)).
(** The n-point axis with spacing r centred on c. *)
Definition axis_point (c r : R) (n i : nat) : R := c + (INR i - (INR n - 1) / 2) * r.
(** Riemann sum, with cell area r^2, of Re (f * mode (i, j) of waist w) over the n x m points of two such axes. *)
Definition mode_weight (f : R -> R -> C) (cx cy r : R) (n m : nat) (w : R) (i j : nat) : R :=
  rsum m (fun b => rsum n (fun a => Re (Cmult (f (axis_point cx r n a) (axis_point cy r m b)) (hg_trans_at w i j 0 (axis_point cx r n a) (axis_point cy r m b))))) * r ^ 2.
(** A top-hat beam of half-width 5 w0. *)
Definition hat (w0 u v : R) : C := if andb (Rleb (Rabs u) (5 * w0)) (Rleb (Rabs v) (5 * w0)) then RtoC 1 else RtoC 0.

(** The D4sigma width, in pixels, of an N x M image I along the coordinate [pix]: four standard deviations of [pix] under the weights I. *)
Definition weighted (N M : nat) (I g : nat -> nat -> R) : R := rsum M (fun j => rsum N (fun i => I i j * g i j)).
Definition d4_width (N M : nat) (I pix : nat -> nat -> R) : R :=
  let tot := weighted N M I (fun _ _ => 1) in
  let mean := weighted N M I pix / tot in
  4 * sqrt (weighted N M I (fun i j => (pix i j - mean) ^ 2) / tot).
(** A quarter of the sum of the two D4sigma widths of the intensity, in metres: the estimate of the waist. *)
Definition estimated_waist (x y : list R) (f : R -> R -> C) (dx : R) : R :=
  let I := fun i j => Cmod (f (vget x i) (vget y j)) ^ 2 in
  (d4_width (length x) (length y) I (fun i _ => INR i) + d4_width (length x) (length y) I (fun _ j => INR j)) / 4 * dx.
