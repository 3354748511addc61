(** Heap-level model of several Laser and Grid objects (laser.py, grid.py): which object holds a
    reference to which.  Field buffers belong to one Grid each (GridHeap.v); what can be shared is a
    Grid object (laser.py:263 [self.grid = grid]) and a time-axis array (laser.py:257
    [grid.axes[-1] = self.grid.axes[-1]], mutated in place by line 358 [axes[-1] += ...]).
    The lists lo and hi are copied by the constructor (grid.py:46-47), the other axes are never
    written to. *)
From Verif Require Import PyBase NumPy GridModel GridSpec GridProofs EnergyModel LaserModel LaserOps.
Open Scope R_scope.

Definition upd {A} (f : nat -> A) (a : nat) (v : A) : nat -> A := fun b => if Nat.eqb b a then v else f b.
(** Objects are numbered in the order of their creation. *)
Record world : Type := mkW {
  w_ax : nat -> list R;      (* time-axis arrays: contents *)
  w_gr : nat -> grid;        (* Grid objects: attributes (the contents of axes[-1] are in w_ax) *)
  w_ta : nat -> nat;         (* Grid objects: which array axes[-1] is *)
  w_la : nat -> laser;       (* Laser objects: attributes (the grid is given by w_lg) *)
  w_lg : nat -> nat;         (* Laser objects: which Grid self.grid is *)
  w_na : nat; w_ng : nat; w_nl : nat   (* how many of each exist *)
}.
Definition put_last {A} (l : list A) (v : A) : list A := match l with [] => [] | _ => removelast l ++ [v] end.
(** The current value of a Grid / of a Laser: all its attributes, references followed. *)
Definition grid_at (w : world) (g : nat) : grid :=
  let v := w_gr w g in with_domain v (g_lo v) (g_hi v) (put_last (g_axes v) (w_ax w (w_ta w g))).
Definition laser_at (w : world) (l : nat) : laser := set_grid (w_la w l) (grid_at w (w_lg w l)).

(** Storing the attributes of Grid g; the contents of axes[-1] go, in place, into the array it is. *)
Definition store_grid (w : world) (g : nat) (v : grid) : world :=
  mkW (upd (w_ax w) (w_ta w g) (time_axis v)) (upd (w_gr w) g v) (w_ta w) (w_la w) (w_lg w) (w_na w) (w_ng w) (w_nl w).
(** The methods of Grid (grid.py:76-191) do not write to the axes. *)
Definition store_fields (w : world) (g : nat) (v : grid) : world :=
  mkW (w_ax w) (upd (w_gr w) g v) (w_ta w) (w_la w) (w_lg w) (w_na w) (w_ng w) (w_nl w).
(** [grid.axes[-1] = other.axes[-1]]: the same array from now on. *)
Definition share_axis (w : world) (g g0 : nat) : world :=
  mkW (w_ax w) (w_gr w) (upd (w_ta w) g (w_ta w g0)) (w_la w) (w_lg w) (w_na w) (w_ng w) (w_nl w).
(** Storing the attributes of Laser l, whose grid attribute is Grid g. *)
Definition store_laser (w : world) (l : nat) (L : laser) (g : nat) : world :=
  mkW (w_ax w) (w_gr w) (w_ta w) (upd (w_la w) l L) (upd (w_lg w) l g) (w_na w) (w_ng w) (w_nl w).
Definition add_grid (w : world) (v : grid) : world :=
  mkW (upd (w_ax w) (w_na w) (time_axis v)) (upd (w_gr w) (w_ng w) v) (upd (w_ta w) (w_ng w) (w_na w)) (w_la w) (w_lg w)
      (S (w_na w)) (S (w_ng w)) (w_nl w).
Definition add_laser (w : world) (L : laser) : world :=
  let w1 := add_grid w (l_grid L) in
  mkW (w_ax w1) (w_gr w1) (w_ta w1) (upd (w_la w1) (w_nl w) L) (upd (w_lg w1) (w_nl w) (w_ng w)) (w_na w1) (w_ng w1) (S (w_nl w)).

(** What a program can do: create lasers and grids, call a method of a Grid, call a method of a Laser. *)
Inductive wop : Type :=
| NewLaser (d : pydim) (lo hi : list R) (np : list nat) (p : profile) (nm : Z) (nte : option Z)
| NewGrid (d : pydim) (lo hi : list R) (np : list nat) (nm : option Z) (env : bool)
| CallGrid (g : nat) (o : gop)
| CallPropagate (l : nat) (dist : R) (nr : option pynum) (g : option nat) (b : backend_t)
| CallOptics (l : nat) (o : optic)
| CallNormalize (l : nat) (v : option R) (k : norm_kind)
| CallWrite (l : nat) (f : nat -> grid -> ndarray -> res unit).

(** A method call that keeps self.grid the same object: propagate without resampling, apply_optics,
    normalize, write_to_file. *)
Definition call_laser (S : solvers) (w : world) (l : nat) (o : lop) : world * res unit :=
  let r := lstep S (laser_at w l) o in
  (store_laser (store_grid w (w_lg w l) (l_grid (fst r))) l (fst r) (w_lg w l), snd r).
(** propagate(..., grid=g) in rt geometry.  laser.py:231-249 act on the Grid the laser has; lines
    255-263 make the time axis of g the array of the old grid and g the grid of the laser; the rest
    (lines 264-358, here the by-value [propagate] without boundary, whose first steps find the
    spectral field already there) acts on g. *)
Definition call_resample (S : solvers) (w : world) (l : nat) (dist : R) (nr : option pynum) (g : nat) (b : backend_t)
  : world * res unit :=
  let g0 := w_lg w l in
  let L := laser_at w l in
  if negb (g_isenv (l_grid L)) then (w, Err AssertionError)
  else
    let a := absorb_boundary Rt nr (l_grid L) in
    let w1 := store_fields w g0 (fst a) in
    match snd a with
    | Err e => (w1, Err e)
    | Ok _ =>
        let r := get_spectral_field (fst a) in
        let w2 := store_fields w1 g0 (fst r) in
        match snd r with
        | Err e => (w2, Err e)
        | Ok _ =>
            let q := propagate S (laser_at w2 l) dist None (Some (grid_at w2 g)) b in
            let w3 := share_axis w2 g g0 in
            (store_laser (store_grid w3 g (l_grid (fst q))) l (fst q) g, snd q)
        end
    end.
Definition wstep (S : solvers) (w : world) (o : wop) : world * res unit :=
  match o with
  | NewLaser d lo hi np p nm nte =>
      match laser_init d lo hi np p nm nte with Ok L => (add_laser w L, Ok tt) | Err e => (w, Err e) end
  | NewGrid d lo hi np nm env =>
      match grid_init d lo hi np nm env with Ok v => (add_grid w v, Ok tt) | Err e => (w, Err e) end
  | CallGrid g o =>
      if Nat.ltb g (w_ng w) then (store_fields w g (fst (gstep (grid_at w g) o)), Ok tt) else (w, Err OtherException)
  | CallPropagate l dist nr g b =>
      if negb (Nat.ltb l (w_nl w)) then (w, Err OtherException)
      else match g, l_dim (w_la w l) with
      | Some g, Rt => if Nat.ltb g (w_ng w) then call_resample S w l dist nr g b else (w, Err OtherException)
      | _, _ => call_laser S w l (OpPropagate dist nr None b)
      end
  | CallOptics l e => if Nat.ltb l (w_nl w) then call_laser S w l (OpOptics e) else (w, Err OtherException)
  | CallNormalize l v k => if Nat.ltb l (w_nl w) then call_laser S w l (OpNormalize v k) else (w, Err OtherException)
  | CallWrite l f => if Nat.ltb l (w_nl w) then call_laser S w l (OpWrite f) else (w, Err OtherException)
  end.
Fixpoint wrun (S : solvers) (w : world) (h : list wop) : world :=
  match h with [] => w | o :: t => wrun S (fst (wstep S w o)) t end.
(** Nothing created yet (the contents of the maps are never looked at). *)
Definition no_grid : grid := mkGrid [] [] [] [] [] None None [] true Complex128 (zeros [] Complex128) false (zeros [] Complex128) false.
Definition no_laser : laser := mkLaser OtherDim no_grid (mkProfile 0 0 (RtoC 0, RtoC 0) None Complex128 (fun _ _ _ => RtoC 0)) 0 [] None.
Definition empty_world : world := mkW (fun _ => []) (fun _ => no_grid) (fun _ => 0%nat) (fun _ => no_laser) (fun _ => 0%nat) 0 0 0.
