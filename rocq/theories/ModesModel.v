(** Model of lasy/utils/mode_decomposition.py (hermite_gauss_decomposition, estimate_best_HG_waist).
    The transverse profile is given by what the function reads of it: its spatial extent, its two
    offsets and its evaluate method.  nan appears in two places only (a field that is zero
    everywhere, a waist estimate of zero) and both are represented. *)
From Verif Require Import PyBase NumPy DataModel AnalyticModel SpeckleModel.
Open Scope R_scope.

(** np.argmax of a 1D array: the first position of the largest entry *)
Fixpoint argmax_from (l : list R) (k best : nat) (v : R) : nat :=
  match l with
  | [] => best
  | a :: l => if Rltb v a then argmax_from l (S k) k a else argmax_from l (S k) best v
  end.
Definition np_argmax (l : list R) : nat := match l with [] => 0%nat | a :: l => argmax_from l 1 0 a end.

(** What hermite_gauss_decomposition needs to know of the class of the profile: the grid of the
    interpolator of a TransverseProfileFromData (field_interp.grid[0] is the y axis, grid[1] the x
    axis, transverse_profile_from_data.py:77-82), the w0 of an analytic profile, or neither (sums and
    multiples of profiles have no attribute w0). *)
Inductive extent : Type := FromData (grid0 grid1 : list R) | Waist (w0 : R) | NoExtent.
Record tprofile : Type := mkTp { tp_extent : extent; tp_xoff : R; tp_yoff : R; tp_eval : R -> R -> C }.
Definition list_min (l : list R) : R := fold_left Rmin l (hd 0 l).
Definition list_max (l : list R) : R := fold_left Rmax l (hd 0 l).
(** mode_decomposition.py:56-68: lo[0], lo[1], hi[0], hi[1] *)
Definition hg_bounds (p : tprofile) : res ((R * R) * (R * R)) :=
  match tp_extent p with
  | FromData g0 g1 => Ok ((list_min g0 + tp_xoff p, list_min g1 + tp_xoff p), (list_max g0 + tp_yoff p, list_max g1 + tp_yoff p))
  | Waist w0 => Ok ((- w0 * 5 + tp_xoff p, - w0 * 5 + tp_xoff p), (w0 * 5 + tp_xoff p, w0 * 5 + tp_xoff p))
  | NoExtent => Err AttributeError
  end.
(** mode_decomposition.py:70-71 (float floor division; res = 0: int(nan) raises) *)
Definition hg_count (lo hi r : R) : Z := (Int_part ((hi - lo) / (2 * r)) * 2 + 2)%Z.
(** mode_decomposition.py:73-83; np.linspace raises for a negative number of points *)
Definition hg_axis (lo hi r : R) : res (list R) :=
  let n := hg_count lo hi r in
  if Z.ltb n 0 then Err ValueError
  else Ok (linspace ((lo + hi) / 2 - (IZR n - 1) / 2 * r) ((lo + hi) / 2 + (IZR n - 1) / 2 * r) (Z.to_nat n)).
(** x[1] - x[0] *)
Definition axis_step (x : list R) : res R := if (2 <=? length x)%nat then Ok (vget x 1 - vget x 0) else Err IndexError.
(** np.real(np.sum(f * g)) over the grid, both given by their values at a point *)
Definition grid_overlap (x y : list R) (f g : R -> R -> C) : R :=
  Re (csum (length y) (fun j => csum (length x) (fun i => Cmult (f (vget x i) (vget y j)) (g (vget x i) (vget y j))))).
(** np.abs(field)**2 as an image: rows are y *)
Definition intensity_image (x y : list R) (f : R -> R -> C) : image :=
  mkImg (length y) (length x) (fun j i => Cmod (f (vget x i) (vget y j)) ^ 2).
(** np.isclose(a, b, rtol=1e-10), atol at its default 1e-8 *)
Definition isclose_hg (a b : R) : bool := Rleb (Rabs (a - b)) (/ 10 ^ 8 + / 10 ^ 10 * Rabs b).
(** mode_decomposition.py:132-139; [None] is nan (a field that is zero on the grid) *)
Definition waist_estimate (x y : list R) (f : R -> R -> C) (dx : R) : option R :=
  let im := intensity_image x y f in
  if Reqb (im_sum im) 0 then None
  else let '(sx, sy) := find_d4sigma im in Some ((sx + sy) / 2 / 2 * dx).
(** mode_decomposition.py:109-155.  With a zero waist all overlaps are nan, argmax is 0, and
    waistTest[0] = 0. *)
Definition estimate_best_HG_waist (x y : list R) (f : R -> R -> C) : res (option R) :=
  do dx <- axis_step x;
  do dy <- axis_step y;
  do u <- pyassert (isclose_hg dx dy);
  match waist_estimate x y f dx with
  | None => Ok None
  | Some w =>
      if Reqb w 0 then Ok (Some 0)
      else let tests := linspace (w / 2) (w * (3 / 2)) 30 in
           Ok (Some (vget tests (np_argmax (map (fun wt => grid_overlap x y (hg_trans_at wt 0 0 0) f) tests))))
  end.
(** mode_decomposition.py:15-106: the weight of mode (i, j), for i < n_x_max and j < n_y_max, and the
    waist.  nan weights are replaced by 0. *)
Definition hermite_gauss_decomposition (p : tprofile) (n_x_max n_y_max : nat) (r : R)
    : res ((nat -> nat -> option R) * option R) :=
  if Reqb r 0 then Err ValueError else
  do b <- hg_bounds p;
  let '(lo, hi) := b in
  do x <- hg_axis (fst lo) (fst hi) r;
  do y <- hg_axis (snd lo) (snd hi) r;
  do dx <- axis_step x;
  do dy <- axis_step y;
  do w0 <- estimate_best_HG_waist x y (tp_eval p);
  Ok (fun i j => if andb (i <? n_x_max)%nat (j <? n_y_max)%nat
                 then Some (match w0 with
                            | Some w => if Reqb w 0 then 0 else grid_overlap x y (tp_eval p) (hg_trans_at w i j 0) * dx * dy
                            | None => 0
                            end)
                 else None, w0).
