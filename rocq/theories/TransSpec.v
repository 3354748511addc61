(** Vocabulary of C106: exchanging the roles of x and y. *)
From Verif Require Import PyBase NumPy GridModel LaserModel LaserOps.
Open Scope R_scope.

(** The first two entries of a per-direction list exchanged. *)
Definition swap12 {A} (l : list A) : list A := match l with a :: b :: r => b :: a :: r | _ => l end.
Definition transpose_profile (p : profile) : profile :=
  mkProfile (p_omega0 p) (p_lambda0 p) (p_pol p) (p_energy p) (p_dtype p) (fun x y t => p_eval p y x t).
Definition transpose_arr (a : ndarray) : ndarray := mkArr (swap12 (shp a)) (dty a) (fun i j k => at3 a j i k).
Definition transpose_grid (g : grid) : grid :=
  mkGrid (swap12 (g_lo g)) (swap12 (g_hi g)) (swap12 (g_npoints g)) (swap12 (g_axes g)) (swap12 (g_dx g)) (g_nmodes g) (g_modes g)
         (swap12 (g_shape g)) (g_isenv g) (g_dtype g) (transpose_arr (g_tf g)) (g_tv g) (transpose_arr (g_sf g)) (g_sv g).
(** The corresponding call (the new grid of a resampling is ignored by Cartesian lasers). *)
Definition transpose_op (o : lop) : lop :=
  match o with
  | OpOptics e => OpOptics (fun x y w w0 => e y x w w0)
  | OpWrite w => OpWrite (fun n g a => w n (transpose_grid g) (transpose_arr a))
  | o => o
  end.
(** A Cartesian diffraction solver that treats x and y alike. *)
Definition transpose_solver (S : solvers) : Prop := forall p x d k i j,
  step_xyt S (mkFft2Prop (fp_y p) (fp_x p) (fp_k p) (fp_backend p)) (fun k i j => x k j i) d k i j = step_xyt S p x d k j i.
