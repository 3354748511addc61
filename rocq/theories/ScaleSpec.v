(** Vocabulary of C104: all lengths and all times multiplied by s (frequencies divided by s, energies multiplied by s^3,
    fields and phases unchanged). *)
From Verif Require Import PyBase NumPy GridModel EnergyModel LaserModel LaserOps.
Open Scope R_scope.

(** The same grid, every coordinate multiplied by s. *)
Definition scale_grid (s : R) (g : grid) : grid :=
  mkGrid (map (Rmult s) (g_lo g)) (map (Rmult s) (g_hi g)) (g_npoints g) (map (map (Rmult s)) (g_axes g)) (map (Rmult s) (g_dx g))
         (g_nmodes g) (g_modes g) (g_shape g) (g_isenv g) (g_dtype g) (g_tf g) (g_tv g) (g_sf g) (g_sv g).
(** The same pulse, s times as long and as wide, with s times the wavelength and s^3 times the energy. *)
Definition scale_profile (s : R) (p : profile) : profile :=
  mkProfile (p_omega0 p / s) (s * p_lambda0 p) (p_pol p) (option_map (option_map (Rmult (s ^ 3))) (p_energy p)) (p_dtype p)
    (fun x y t => p_eval p (x / s) (y / s) (t / s)).
Definition scale_optic (s : R) (e : optic) : optic := fun x y w w0 => e (x / s) (y / s) (s * w) (s * w0).
(** The corresponding call: distances and new grids scaled, requested energies times s^3, requested fields and intensities kept. *)
Definition scale_op (s : R) (o : lop) : lop :=
  match o with
  | OpPropagate d nr ng b => OpPropagate (s * d) nr (option_map (scale_grid s) ng) b
  | OpOptics e => OpOptics (scale_optic s e)
  | OpNormalize v KEnergy => OpNormalize (option_map (Rmult (s ^ 3)) v) KEnergy
  | OpNormalize v k => OpNormalize v k
  | OpWrite w => OpWrite (fun n g a => w n (scale_grid (/ s) g) a)
  end.
(** A diffraction solver without a built-in length: same samples for the scaled problem. *)
Definition scale_rt_prop (s : R) (p : rt_prop) : rt_prop :=
  mkRtProp (map (Rmult s) (rp_r p)) (map (fun k => k / s) (rp_k p)) (option_map (map (Rmult s)) (rp_rnew p)) (rp_mode p) (rp_backend p).
Definition scale_fft2_prop (s : R) (p : fft2_prop) : fft2_prop :=
  mkFft2Prop (s * fst (fp_x p), snd (fp_x p)) (s * fst (fp_y p), snd (fp_y p)) (map (fun k => k / s) (fp_k p)) (fp_backend p).
Definition scale_free (S : solvers) : Prop := forall s, 0 < s ->
  (forall p x d k j, step_rt S (scale_rt_prop s p) x (s * d) k j = step_rt S p x d k j) /\
  (forall p x d k i j, step_xyt S (scale_fft2_prop s p) x (s * d) k i j = step_xyt S p x d k i j).
