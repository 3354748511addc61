(** Double-precision model of the time window of a laser: np.linspace at construction and the shift made by propagate.
    [b64] is IEEE-754 binary64 rounding to nearest even (Flocq), with gradual underflow; overflow is outside the model. *)
From Flocq Require Import Core.
From Verif Require Import PyBase NumPy.
Open Scope R_scope.

Definition exp64 : Z -> Z := FLT_exp (-1074) 53.
Definition b64 (x : R) : R := round radix2 exp64 ZnearestE x.
Definition is_b64 (x : R) : Prop := generic_format radix2 exp64 x.

(** numpy.linspace(lo, hi, n) in double precision (numpy/core/function_base.py:
      delta = stop - start; step = delta / div; y = arange(0, num) * step   (step <> 0)
                                                y = (arange(0, num) / div) * delta   (step = 0)
      y += start; if num > 1: y[-1] = stop). *)
Definition linspace64 (lo hi : R) (n : nat) : list R :=
  let div := INR (n - 1) in
  let delta := b64 (hi - lo) in
  let step := b64 (delta / div) in
  let offset i := if Reqb step 0 then b64 (b64 (INR i / div) * delta) else b64 (INR i * step) in
  match n with
  | O => []
  | 1%nat => [b64 (0 + lo)]
  | _ => map (fun i => if Nat.eqb i (n - 1) then hi else b64 (offset i + lo)) (seq 0 n)
  end.

(** The time information of a Grid: grid.lo[-1], grid.hi[-1], grid.axes[-1]. *)
Record window : Type := mkWin { win_lo : R; win_hi : R; win_axis : list R }.
(** grid.py:46-53 *)
Definition window_init (lo hi : R) (n : nat) : window := mkWin lo hi (linspace64 lo hi n).
(** laser.py:343, 356-358: translate_time = distance / c, then lo, hi and the whole axis += translate_time *)
Definition window_shift (w : window) (d : R) : window :=
  let s := b64 (d / c_light) in
  mkWin (b64 (win_lo w + s)) (b64 (win_hi w + s)) (map (fun v => b64 (v + s)) (win_axis w)).
(** A history: the distances of the successful propagate calls (nothing else writes to these attributes). *)
Definition window_run (w : window) (ds : list R) : window := fold_left window_shift ds w.
