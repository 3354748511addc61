(** Model of lasy/utils/laser_utils.py get_spectrum with all its options (AnalysisModel.get_spectrum_sum
    is the default call on an envelope grid). *)
From Verif Require Import PyBase NpFFT NumPy NpMath GridModel EnergyModel LaserModel AnalysisModel DataModel.
Open Scope R_scope.

(** The argument method: the three documented strings or any other. *)
Inductive spmethod : Type := MSum | MOnAxis | MRaw | MOther.
(** The spectrum returned: 1-D array, or array with the transverse dimensions of the field. *)
Inductive spout : Type := Sp1 (l : list R) | Sp3 (a : ndarray).

(** np.argsort(omega) and the reindexed frequencies: pairs (omega, index) in increasing order.  (numpy
    does not specify the order of equal frequencies; they are distinct.) *)
Fixpoint insert_key (x : R * nat) (l : list (R * nat)) : list (R * nat) :=
  match l with [] => [x] | y :: t => if Rleb (fst x) (fst y) then x :: y :: t else y :: insert_key x t end.
Fixpoint sort_key (l : list (R * nat)) : list (R * nat) :=
  match l with [] => [] | x :: t => insert_key x (sort_key t) end.
(** laser_utils.py:301-302 *)
Definition spectrum_freq (g : grid) (k : nat) : R :=
  2 * PI * fftfreq (lastN (g_shape g)) (vget (time_axis g) 1 - vget (time_axis g) 0) k.
(** laser_utils.py:316-328: the kept (frequency, fft index) pairs for an envelope ... *)
Definition kept_env (g : grid) (f : ndarray) (w0 : R) : list (R * nat) :=
  filter (fun x => Rleb 0 (fst x)) (sort_key (map (fun k => (w0 - spectrum_freq g k, k)) (seq 0 (dim2 f)))).
(** ... and for a real field (lines 329-334) *)
Definition kept_real (g : grid) (f : ndarray) : list (R * nat) :=
  map (fun k => (spectrum_freq g k, k)) (seq 0 (dim2 f / 2)).
(** laser_utils.py:319, 330: the transform of the envelope / of the field at one transverse point *)
Definition sp_raw (g : grid) (f : ndarray) (i j k : nat) : C :=
  let X := fft1 (dim2 f) (fun q => at3 f i j q) k in
  let dt := lastR (g_dx g) in
  if g_isenv g then Cmult (Cmult (RtoC (/ 2)) X) (RtoC dt) else Cmult X (RtoC dt).
(** laser_utils.py:337-338 *)
Definition sp_density (g : grid) (f : ndarray) (i j k : nat) : R :=
  Cmod (sp_raw g f i j k) ^ 2 * eps0 * c_light / PI.
(** laser_utils.py:306-311, 337-347: the spectrum at the kept indices *)
Definition sp_values (d : pydim) (g : grid) (f : ndarray) (m : spmethod) (kept : list nat) : spout :=
  let dz := lastR (g_dx g) * c_light in
  match m with
  | MRaw => Sp3 (mkArr [dim0 f; dim1 f; length kept] Complex128 (fun i j q => sp_raw g f i j (nth q kept 0%nat)))
  | MOther => Sp3 (mkArr [dim0 f; dim1 f; length kept] Float64 (fun i j q => RtoC (sp_density g f i j (nth q kept 0%nat))))
  | MOnAxis =>
      Sp1 (map (match d with
                | Xyt => sp_density g f (dim0 f / 2) (dim1 f / 2)
                | _ => sp_density g f 0 0
                end) kept)
  | MSum =>
      Sp1 (map (fun k => match d with
                | Xyt => rsum (dim0 f) (fun i => rsum (dim1 f) (fun j => sp_density g f i j k * cell_volume_xyt g / dz))
                | _ => rsum (dim1 f) (fun j => sp_density g f 0 j k * cell_volume_rt g j / dz)
                end) kept)
  end.
(** laser_utils.py:350-353 *)
Definition sp_range (range : option (R * R)) (bins : nat) (v : spout) (om : list R) : res (spout * list R) :=
  match range, v with
  | Some (a, b), Sp1 l =>
      let oi := linspace a b bins in
      do r <- seq_res (map (np_interp om l) oi);
      Ok (Sp1 r, oi)
  | _, _ => Ok (v, om)
  end.
(** laser_utils.py:226-355 get_spectrum *)
Definition get_spectrum (d : pydim) (g : grid) (range : option (R * R)) (bins : nat) (omega0 : option R) (m : spmethod)
    : grid * res (spout * list R) :=
  with_field g (fun g f =>
    do kept <- (if g_isenv g then match omega0 with None => Err AssertionError | Some w0 => Ok (kept_env g f w0) end
                else Ok (kept_real g f));
    sp_range range bins (sp_values d g f m (map snd kept)) (map fst kept)).
