(** Models of further numpy/scipy functions called by lasy (contracts in exact arithmetic):
    np.angle, np.unwrap, np.gradient, np.average, np.interp, scipy interp1d and
    RegularGridInterpolator (linear).  One-dimensional arrays are lists. *)
From Verif Require Import PyBase NumPy.
Open Scope R_scope.

(** np.angle: principal argument in (-pi, pi]; angle(0) = 0.  (IEEE negative zeros are not
    modelled.) *)
Definition angle (z : C) : R :=
  if Reqb (Cmod z) 0 then 0
  else if Rleb 0 (Im z) then acos (Re z / Cmod z) else - acos (Re z / Cmod z).

(** Mathematical floor, and numpy's mod with positive modulus. *)
Definition Rfloor (x : R) : Z := Int_part x.
Definition np_mod (x m : R) : R := x - m * IZR (Rfloor (x / m)).

(** np.unwrap(p) (default discont=None, period=2 pi, axis=-1), numpy/lib/function_base.py:
      dd = diff(p); ddmod = mod(dd + pi, 2 pi) - pi
      ddmod[(ddmod == -pi) & (dd > 0)] = pi
      ph_correct = ddmod - dd ; ph_correct[abs(dd) < pi] = 0
      up[1:] = p[1:] + ph_correct.cumsum() *)
Definition unwrap_correct (dd : R) : R :=
  let ddmod := np_mod (dd + PI) (2 * PI) - PI in
  let ddmod := if andb (Reqb ddmod (- PI)) (Rltb 0 dd) then PI else ddmod in
  if Rltb (Rabs dd) PI then 0 else ddmod - dd.
Definition unwrap (p : nat -> R) (k : nat) : R :=
  p k + rsum k (fun i => unwrap_correct (p (S i) - p i)).

(** np.gradient(f, x, edge_order=2) along one axis, n >= 3 samples: second-order differences with
    the actual spacings (numpy uses the uniform formula when all spacings are equal; the two agree
    in exact arithmetic). *)
Definition gradient2 {A : Type} (lin : R -> R -> R -> A -> A -> A -> A)
           (n : nat) (f : nat -> A) (x : nat -> R) (k : nat) : A :=
  if Nat.eqb k 0 then
    let d1 := x 1%nat - x 0%nat in let d2 := x 2%nat - x 1%nat in
    lin (- (2 * d1 + d2) / (d1 * (d1 + d2))) ((d1 + d2) / (d1 * d2)) (- d1 / (d2 * (d1 + d2)))
        (f 0%nat) (f 1%nat) (f 2%nat)
  else if Nat.eqb k (n - 1) then
    let d1 := x (n - 2)%nat - x (n - 3)%nat in let d2 := x (n - 1)%nat - x (n - 2)%nat in
    lin (d2 / (d1 * (d1 + d2))) (- (d2 + d1) / (d1 * d2)) ((2 * d2 + d1) / (d2 * (d1 + d2)))
        (f (n - 3)%nat) (f (n - 2)%nat) (f (n - 1)%nat)
  else
    let d1 := x k - x (k - 1)%nat in let d2 := x (S k) - x k in
    lin (- d2 / (d1 * (d1 + d2))) ((d2 - d1) / (d1 * d2)) (d1 / (d2 * (d1 + d2)))
        (f (k - 1)%nat) (f k) (f (S k)).
Definition lin3R (a b c : R) (u v w : R) : R := a * u + b * v + c * w.
Definition lin3C (a b c : R) (u v w : C) : C :=
  Cplus (Cplus (Cmult (RtoC a) u) (Cmult (RtoC b) v)) (Cmult (RtoC c) w).

(** Linear interpolation in one interval of a strictly increasing axis: index of the interval
    [x_i, x_{i+1}] used for an abscissa v in [x_0, x_{n-1}] (numpy searchsorted, clipped).  At an
    interior node either neighbouring interval may be used; the value is the same. *)
Fixpoint find_interval (x : list R) (v : R) : nat :=
  match x with
  | a :: ((b :: (_ :: _)) as t) => if Rltb v b then 0%nat else S (find_interval t v)
  | _ => 0%nat
  end.
Definition lerp (x0 x1 y0 y1 v : R) : R := y0 + (y1 - y0) * ((v - x0) / (x1 - x0)).
(** Piecewise-linear interpolant of samples y over the axis x, inside the axis range. *)
Definition interp1 (x : list R) (y : nat -> R) (v : R) : R :=
  let i := find_interval x v in
  lerp (vget x i) (vget x (S i)) (y i) (y (S i)) v.
(** min(axis) <= v <= max(axis) for an ascending axis. *)
Definition in_axis (x : list R) (v : R) : bool := andb (Rleb (vget x 0) v) (Rleb v (last x 0)).
Fixpoint ascending (x : list R) : bool :=
  match x with a :: ((b :: _) as t) => andb (Rltb a b) (ascending t) | _ => true end.
Fixpoint descending (x : list R) : bool :=
  match x with a :: ((b :: _) as t) => andb (Rltb b a) (descending t) | _ => true end.
(** scipy RegularGridInterpolator: every axis must be strictly ascending or strictly descending
    (otherwise ValueError); a descending axis is flipped, together with the values. *)
Definition monotone (x : list R) : bool := orb (ascending x) (descending x).
Definition interp1m (x : list R) (y : nat -> R) (v : R) : R :=
  if ascending x then interp1 x y v else interp1 (rev x) (fun i => y (length x - 1 - i)%nat) v.
Definition in_axis_m (x : list R) (v : R) : bool :=
  if ascending x then in_axis x v else in_axis (rev x) v.
(** Multilinear interpolation is iterated linear interpolation. *)
Definition interp2 (xs ts : list R) (f : nat -> nat -> R) (x t : R) : R :=
  interp1m xs (fun i => interp1m ts (fun k => f i k) t) x.
Definition interp3 (xs ys ts : list R) (f : nat -> nat -> nat -> R) (x y t : R) : R :=
  interp1m xs (fun i => interp1m ys (fun j => interp1m ts (fun k => f i j k) t) y) x.
