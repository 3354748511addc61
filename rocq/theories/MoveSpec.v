(** Vocabulary of C107: the whole experiment (window, pulse, optical elements) moved by (a, b) across and by c in time. *)
From Verif Require Import PyBase NumPy GridModel LaserModel LaserOps.
Open Scope R_scope.

Definition move3 (a b c : R) (l : list R) : list R := match l with [x; y; t] => [x + a; y + b; t + c] | _ => l end.
Definition move_axes (a b c : R) (l : list (list R)) : list (list R) :=
  match l with [x; y; t] => [map (fun u => u + a) x; map (fun u => u + b) y; map (fun u => u + c) t] | _ => l end.
(** The same grid and field elsewhere. *)
Definition move_grid (a b c : R) (g : grid) : grid :=
  mkGrid (move3 a b c (g_lo g)) (move3 a b c (g_hi g)) (g_npoints g) (move_axes a b c (g_axes g)) (g_dx g) (g_nmodes g) (g_modes g)
         (g_shape g) (g_isenv g) (g_dtype g) (g_tf g) (g_tv g) (g_sf g) (g_sv g).
(** The same pulse elsewhere. *)
Definition move_profile (a b c : R) (p : profile) : profile :=
  mkProfile (p_omega0 p) (p_lambda0 p) (p_pol p) (p_energy p) (p_dtype p) (fun x y t => p_eval p (x - a) (y - b) (t - c)).
(** The corresponding call (the new grid of a resampling is ignored by Cartesian lasers). *)
Definition move_op (a b c : R) (o : lop) : lop :=
  match o with
  | OpOptics e => OpOptics (fun x y w w0 => e (x - a) (y - b) w w0)
  | OpWrite w => OpWrite (fun n g f => w n (move_grid (- a) (- b) (- c) g) f)
  | o => o
  end.
(** A Cartesian diffraction solver that looks only at the samples it is given. *)
Definition local_solver (S : solvers) : Prop := forall p x w d,
  (forall k i j, (k < length (fp_k p))%nat -> (i < snd (fp_x p))%nat -> (j < snd (fp_y p))%nat -> w k i j = x k i j) ->
  forall k i j, (k < length (fp_k p))%nat -> (i < snd (fp_x p))%nat -> (j < snd (fp_y p))%nat -> step_xyt S p w d k i j = step_xyt S p x d k i j.
