(** Model of lasy/profiles/from_array_profile.py. *)
From Verif Require Import PyBase NumPy NpMath GridModel LaserModel.
Open Scope R_scope.

(** The two values of axes_order per geometry: lasy order, and time-first order. *)
Inductive axes_order : Type := SpaceTime | TimeSpace.

(** profiles/profile.py:45-50: omega0 = 2 pi c / wavelength; pol / norm(pol). *)
Definition norm_pol (p : C * C) : C * C :=
  let n := sqrt (Cmod (fst p) ^ 2 + Cmod (snd p) ^ 2) in
  (Cdiv (fst p) (RtoC n), Cdiv (snd p) (RtoC n)).

(** np.abs(array) + 1j * np.unwrap(np.angle(array), axis=-1): the two real arrays, array indexed
    (i, j, k) with k the last axis. *)
Definition amp (a : ndarray) (i j k : nat) : R := Cmod (at3 a i j k).
Definition pha (a : ndarray) (i j k : nat) : R := unwrap (fun q => angle (at3 a i j q)) k.

(** RegularGridInterpolator(...)(points) with bounds_error=False, fill_value=0 then
    np.abs(real) * exp(i imag)  (from_array_profile.py:98-108) *)
Definition eval_xyt (xs ys ts : list R) (a : ndarray) (x y t : R) : C :=
  if andb (in_axis_m xs x) (andb (in_axis_m ys y) (in_axis_m ts t)) then
    Cmult (RtoC (Rabs (interp3 xs ys ts (amp a) x y t))) (cis (interp3 xs ys ts (pha a) x y t))
  else RtoC 0.
(** rank-2 arrays: [at3 a i k _]; the last axis is the second one *)
Definition amp2 (a : ndarray) (i k : nat) : R := Cmod (at3 a i k 0%nat).
Definition pha2 (a : ndarray) (i k : nat) : R := unwrap (fun q => angle (at3 a i q 0%nat)) k.
Definition eval_rt (rs ts : list R) (a : ndarray) (x y t : R) : C :=
  let r := sqrt (x ^ 2 + y ^ 2) in
  if andb (in_axis_m rs r) (in_axis_m ts t) then
    Cmult (RtoC (Rabs (interp2 rs ts (amp2 a) r t))) (cis (interp2 rs ts (pha2 a) r t))
  else RtoC 0.

(** lines 83-89: np.concatenate(([array[0]], array)) *)
Definition mirror_axis (r : list R) : list R :=
  if Reqb (vget r 0) 0 then r else (- vget r 0) :: r.
Definition mirror_arr (r : list R) (a : ndarray) : ndarray :=
  if Reqb (vget r 0) 0 then a
  else mkArr [S (dim0 a); dim1 a] (dty a) (fun i k q => at3 a (i - 1)%nat k q).

Definition array_profile (wavelength : R) (pol : C * C) (ev : R -> R -> R -> C) : profile :=
  mkProfile (2 * PI * c_light / wavelength) wavelength (norm_pol pol) None Complex128 ev.

(** from_array_profile.py:49-96 __init__ for dim="xyt" and axes (x, y, t).  The swapped array is
    stored in self.array, but the interpolator is built from the array as passed. *)
Definition from_array_xyt (wavelength : R) (pol : C * C) (a : ndarray) (xs ys ts : list R)
           (o : axes_order) : res profile :=
  if negb (andb (monotone xs) (andb (monotone ys) (monotone ts))) then Err ValueError
  else if negb (shape_eqb (shp a) [length xs; length ys; length ts]) then Err ValueError
  else Ok (array_profile wavelength pol (eval_xyt xs ys ts a)).
(** dim="rt" and axes (r, t); np.swapaxes(array, 0, 2) raises (AxisError) on a rank-2 array. *)
Definition from_array_rt (wavelength : R) (pol : C * C) (a : ndarray) (rs ts : list R)
           (o : axes_order) : res profile :=
  match o with
  | TimeSpace => Err OtherException
  | SpaceTime =>
      let r := mirror_axis rs in
      let a' := mirror_arr rs a in
      if negb (andb (monotone r) (monotone ts)) then Err ValueError
      else if negb (shape_eqb (shp a') [length r; length ts]) then Err ValueError
      else Ok (array_profile wavelength pol (eval_rt r ts a'))
  end.
