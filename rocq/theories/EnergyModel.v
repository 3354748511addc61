(** Model of lasy/utils/laser_utils.py: cell volumes, energy and the three normalizations. *)
From Verif Require Import PyBase NumPy GridModel.
Open Scope R_scope.

(** Python [l[-1]] on the (non-empty) per-direction lists of a Grid. *)
Definition lastR (l : list R) : R := last l 0.

(** laser_utils.py:613-637 get_grid_cell_volume, xyt branch (a scalar). *)
Definition cell_volume_xyt (g : grid) : R :=
  vget (g_dx g) 0 * vget (g_dx g) 1 * (lastR (g_dx g) * c_light).
(** laser_utils.py:613-637 get_grid_cell_volume, other branch (entry j of the 1-D array). *)
Definition cell_volume_rt (g : grid) (j : nat) : R :=
  let r := vget (nth 0 (g_axes g) []) j in
  let dr := vget (g_dx g) 0 in
  PI * ((r + / 2 * dr) ^ 2 - (r - / 2 * dr) ^ 2) * (lastR (g_dx g) * c_light).
(** The factor multiplying |E|^2 at transverse index (i,j) in the two branches of
    laser_utils.py:46-51. *)
Definition cell_volume (d : pydim) (g : grid) (j : nat) : R :=
  match d with Xyt => cell_volume_xyt g | _ => cell_volume_rt g j end.

(** laser_utils.py:42-56: the energy of the array [env] on the metadata of [g]. *)
Definition energy_of (d : pydim) (g : grid) (env : ndarray) : R :=
  let e := rsum3 (dim0 env) (dim1 env) (dim2 env)
             (fun i j k => cell_volume d g j * eps0 * Cmod (at3 env i j k) ^ 2) in
  if g_isenv g then e * / 2 else e.

(** laser_utils.py:11-56 compute_laser_energy *)
Definition compute_laser_energy (d : pydim) (g : grid) : grid * res R :=
  let r := get_temporal_field g in
  match snd r with
  | Err e => (fst r, Err e)
  | Ok env => (fst r, Ok (energy_of d (fst r) env))
  end.

(** In-place [field *= s] on a copy: numpy keeps the array's dtype (for a float64 array and a
    real factor the product is real anyway). *)
Definition scale_arr (s : R) (a : ndarray) : ndarray := amap (fun z => Cmult (RtoC s) z) a.

(** laser_utils.py:59-89 normalize_energy.  [(energy/current)**0.5] is modelled by sqrt;
    a negative requested energy (NaN in numpy) is outside the model. *)
Definition normalize_energy (d : pydim) (energy : option R) (g : grid) : grid * res unit :=
  match energy with
  | None => (g, Ok tt)
  | Some en =>
      let r := compute_laser_energy d g in
      match snd r with
      | Err e => (fst r, Err e)
      | Ok cur =>
          if Reqb cur 0 then (fst r, Ok tt)
          else
            let f := get_temporal_field (fst r) in
            match snd f with
            | Err e => (fst f, Err e)
            | Ok field => set_temporal_field (fst f) (scale_arr (sqrt (en / cur)) field)
            end
      end
  end.

(** np.abs(field).max() *)
Definition abs_max (a : ndarray) : R :=
  rmaxl (flat3 (dim0 a) (dim1 a) (dim2 a) (fun i j k => Cmod (at3 a i j k))).

(** laser_utils.py:92-111 normalize_peak_field_amplitude *)
Definition normalize_peak_field_amplitude (amplitude : option R) (g : grid) : grid * res unit :=
  match amplitude with
  | None => (g, Ok tt)
  | Some am =>
      let f := get_temporal_field g in
      match snd f with
      | Err e => (fst f, Err e)
      | Ok field =>
          let mx := abs_max field in
          if Reqb mx 0 then (fst f, Ok tt)
          else set_temporal_field (fst f) (scale_arr (am / mx) field)
      end
  end.

(** laser_utils.py:114-133 normalize_peak_intensity.  Line 133 passes the scalar
    np.sqrt(peak/input_peak), a numpy float64 with shape (), to set_temporal_field. *)
Definition normalize_peak_intensity (peak : option R) (g : grid) : grid * res unit :=
  match peak with
  | None => (g, Ok tt)
  | Some pk =>
      let f := get_temporal_field g in
      match snd f with
      | Err e => (fst f, Err e)
      | Ok field =>
          let mx := rmaxl (flat3 (dim0 field) (dim1 field) (dim2 field)
             (fun i j k => Cmod (Cmult (RtoC (eps0 / 2 * c_light))
                                  (Cmult (at3 field i j k) (at3 field i j k))))) in
          if Reqb mx 0 then (fst f, Ok tt)
          else set_temporal_field (fst f) (np_float_scalar (sqrt (pk / mx)))
      end
  end.

(** laser.py:148-167 the [kind] argument of Laser.normalize *)
Inductive norm_kind : Type := KEnergy | KField | KIntensity | KOther.
Definition normalize_grid (d : pydim) (value : option R) (kind : norm_kind) (g : grid)
  : grid * res unit :=
  match kind with
  | KEnergy => normalize_energy d value g
  | KField => normalize_peak_field_amplitude value g
  | KIntensity => normalize_peak_intensity value g
  | KOther => (g, Err ValueError)
  end.
