(** Model of lasy/utils/zernike.py. *)
From Verif Require Import PyBase NumPy NpMath AnalysisModel.
Open Scope R_scope.

(** np.ceil, as an int *)
Definition py_ceil (x : R) : Z := (- Rfloor (- x))%Z.
(** zernike.py:6-25 get_zernike_nm for an index j >= 0; returns (m, n) in this order. *)
Definition get_zernike_nm (j : Z) : Z * Z :=
  let n := py_ceil ((-3 + sqrt (9 + 8 * IZR j)) / 2) in
  let m := (2 * j - n * (n + 2))%Z in
  (m, n).
(** math.factorial (ValueError on negative arguments), as a real number *)
Definition py_fact (z : Z) : res R := if Z.ltb z 0 then Err ValueError else Ok (INR (fact (Z.to_nat z))).
(** Lines 115-123: the loop body for index i, given rho; integer powers of rho (never negative here
    unless factorial has raised before). *)
Definition rmn_term (n m : Z) (rho : R) (i : nat) : res R :=
  let iz := Z.of_nat i in
  do a <- py_fact (n - iz);
  do b <- py_fact iz;
  do c <- py_fact ((n + m) / 2 - iz);
  do d <- py_fact ((n - m) / 2 - iz);
  Ok ((-1) ^ i * a / (b * c * d) * powerRZ rho (n - 2 * iz)).
Fixpoint rmn_loop (n m : Z) (rho : R) (count : nat) : res R :=
  match count with
  | O => Ok 0
  | S k => do s <- rmn_loop n m rho k; do t <- rmn_term n m rho k; Ok (s + t)
  end.
(** zernike.py:80-134 RmnGenerator at one point.  [rank] is the number of dimensions of rho: only 1
    and 2 are unpacked successfully.  np.linspace raises on a negative number of samples. *)
Definition RmnGenerator (rank : nat) (n m : Z) (rho : R) : res R :=
  if negb (orb (rank =? 1)%nat (rank =? 2)%nat) then
    (* np.linspace(..., num) is evaluated before the shape is unpacked; both raise ValueError *)
    Err ValueError
  else if Z.eqb n 0 then Ok 1
  else if Z.eqb ((n - m) mod 2) 0 then
    let K := ((n - m) / 2)%Z in
    if Z.ltb (K + 1) 0 then Err ValueError
    else rmn_loop n m rho (Z.to_nat (K + 1))
  else Ok 0.
(** zernike.py:28-77 zernike at one point of an array with [rank] dimensions; np.arctan2 is [angle]. *)
Definition zernike (rank : nat) (x y : R) (pupil : R * R * R) (j : Z) : res R :=
  let '(cgx, cgy, r) := pupil in
  let rho := sqrt ((x - cgx) ^ 2 + (y - cgy) ^ 2) / r in
  let theta := angle (x - cgx, y - cgy) in
  let '(m, n) := get_zernike_nm j in
  do R0 <- RmnGenerator rank n (Z.abs m) rho;
  let Z0 := if Z.ltb m 0 then R0 * sin (- IZR m * theta) else R0 * cos (IZR m * theta) in
  let scaling := if Z.eqb n 0 then 1 else if Z.eqb m 0 then sqrt (IZR n + 1) else sqrt (2 * (IZR n + 1)) in
  Ok (Z0 * scaling).
