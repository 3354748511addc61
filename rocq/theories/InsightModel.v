(** Model of lasy/profiles/from_insight_file.py.  The HDF5 file is given by the four datasets read from it. *)
From Verif Require Import PyBase NumPy NpMath GridModel LaserModel FromArrayModel ModesModel.
Open Scope R_scope.

(** np.gradient(f, x) (default edge_order=1) along one axis, n >= 2 samples: one-sided differences at the two
    ends, second-order differences with the actual spacings inside (numpy uses the uniform formula when all
    spacings are equal; the two agree in exact arithmetic). *)
Definition gradient1 (n : nat) (f x : nat -> R) (k : nat) : R :=
  if Nat.eqb k 0 then (f 1%nat - f 0%nat) / (x 1%nat - x 0%nat)
  else if Nat.eqb k (n - 1) then (f (n - 1)%nat - f (n - 2)%nat) / (x (n - 1)%nat - x (n - 2)%nat)
  else
    let d1 := x k - x (k - 1)%nat in let d2 := x (S k) - x k in
    - d2 / (d1 * (d1 + d2)) * f (k - 1)%nat + (d2 - d1) / (d1 * d2) * f k + d1 / (d2 * (d1 + d2)) * f (S k).

(** The argument omega0: the two strings, a float, anything else. *)
Inductive omega_choice : Type := Peak | Barycenter | OmegaIs (w : R) | OmegaOther.
Record insight_file : Type := mkInsight { if_data : ndarray; if_t : list R; if_x : list R; if_y : list R }.

(** from_insight_file.py:37-40: the axes in SI units *)
Definition insight_t (F : insight_file) : list R := map (fun v => v * / 10 ^ 15) (if_t F).
Definition insight_x (F : insight_file) : list R := map (fun v => v * / 10 ^ 3) (if_x F).
Definition insight_y (F : insight_file) : list R := map (fun v => v * / 10 ^ 3) (if_y F).
(** from_insight_file.py:43 *)
Definition onaxis (F : insight_file) (k : nat) : C := at3 (if_data F) (Nat.div (dim0 (if_data F)) 2) (Nat.div (dim1 (if_data F)) 2) k.
(** from_insight_file.py:44 *)
Definition omega_array (F : insight_file) (k : nat) : R :=
  - gradient1 (dim2 (if_data F)) (unwrap (fun q => angle (onaxis F q))) (vget (insight_t F)) k.
(** from_insight_file.py:47-54; np.average raises ZeroDivisionError (here OtherException) when the weights
    sum to zero *)
Definition insight_omega (F : insight_file) (o : omega_choice) : res R :=
  let nt := dim2 (if_data F) in
  match o with
  | Peak => Ok (omega_array F (np_argmax (map (fun k => Cmod (onaxis F k)) (seq 0 nt))))
  | Barycenter =>
      let s := rsum nt (fun k => Cmod (onaxis F k) ^ 2) in
      if Reqb s 0 then Err OtherException else Ok (rsum nt (fun k => omega_array F k * Cmod (onaxis F k) ^ 2) / s)
  | OmegaIs w => Ok w
  | OmegaOther => Err AssertionError
  end.
(** from_insight_file.py:30-80.  np.gradient raises ValueError for fewer than two times or a time axis of another
    length.  omega0 = 0 is outside the model (line 67: ZeroDivisionError for a Python float, an infinite
    wavelength for a numpy float); no theorem covers it. *)
Definition from_insight (F : insight_file) (pol : C * C) (o : omega_choice) : res profile :=
  match shp (if_data F) with
  | [nx; ny; nt] =>
      if orb (Nat.eqb nx 0) (Nat.eqb ny 0) then Err IndexError
      else if negb (Nat.eqb (length (if_t F)) nt) then Err ValueError
      else if Nat.ltb nt 2 then Err ValueError
      else
        do w <- insight_omega F o;
        let neg := Rltb w 0 in
        let w' := if neg then w * -1 else w in
        let d1 := if neg then (fun i j k => Cconj (at3 (if_data F) i j k)) else at3 (if_data F) in
        let a := mkArr [nx; ny; nt] Complex128 (fun i j k => Cmult (d1 i j k) (cis (w' * vget (insight_t F) k))) in
        from_array_xyt (2 * PI * c_light / w') pol a (insight_x F) (insight_y F) (insight_t F) SpaceTime
  | _ => Err IndexError
  end.
