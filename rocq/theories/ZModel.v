(** Model of lasy/utils/laser_utils.py export_to_z and import_from_z.  The axiprop objects they use are given by what is asked
    of them (axiprop is not part of /repo). *)
From Verif Require Import PyBase NpFFT NumPy NpMath GridModel EnergyModel LaserModel AnalysisModel.
Open Scope R_scope.

(** - [z_kfreq k0 t]: ScalarFieldEnvelope(k0, t).k_freq; [z_ft k0 t u]: its Field_ft after import_field, for the time
      series u at one transverse point;
    - [z_t2z_rt r ks m F z z0 t0]: PropagatorResampling(r, ks, mode=m).t2z(F, z, z0=z0, t0=t0) as an array (iz, ir), where F
      is an array (ik, ir); [z_z2t_rt] the same for z2t, with the times in the place of z;
    - [z_t2z_xy], [z_z2t_xy]: PropagatorFFT2((Lx, Nx), (Ly, Ny), ks) likewise, arrays (ik, ix, iy).
    backend is not modelled. *)
Record zaxiprop : Type := mkZ {
  z_kfreq : R -> list R -> list R;
  z_ft : R -> list R -> (nat -> C) -> nat -> C;
  z_t2z_rt : list R -> list R -> Z -> (nat -> nat -> C) -> list R -> R -> R -> nat -> nat -> C;
  z_t2z_xy : R * nat -> R * nat -> list R -> (nat -> nat -> nat -> C) -> list R -> R -> R -> nat -> nat -> nat -> C;
  z_z2t_rt : list R -> list R -> Z -> (nat -> nat -> C) -> list R -> R -> R -> nat -> nat -> C;
  z_z2t_xy : R * nat -> R * nat -> list R -> (nat -> nat -> nat -> C) -> list R -> R -> R -> nat -> nat -> nat -> C
}.

(** laser_utils.py:764, 784: np.exp(-1j * (z_axis / c + t0) * omega0) at one z *)
Definition export_phase (omega0 t0 z : R) : C := cis (- ((z / c_light + t0) * omega0)).
(** laser_utils.py:698-786.  In rt the result has the dtype of the field, and the in-place product with a complex array raises
    TypeError (UFuncTypeError) for a real field. *)
Definition export_to_z (A : zaxiprop) (d : pydim) (g : grid) (omega0 : R) (z_axis : option (list R)) (z0 t0 : R) : grid * res ndarray :=
  with_field g (fun g f =>
    let t := time_axis g in
    let z := match z_axis with None => map (fun v => v * c_light) t | Some z => z end in
    let k0 := omega0 / c_light in
    let ks := z_kfreq A k0 t in
    match d with
    | Rt =>
        match g_modes g with
        | None => Err AttributeError
        | Some modes =>
            match dty f with
            | Float64 => Err TypeError
            | Complex128 =>
                if Nat.ltb (dim0 f) (length modes) then Err IndexError
                else Ok (mkArr [dim0 f; dim1 f; length z] Complex128 (fun i j q =>
                  if Nat.ltb i (length modes)
                  then Cmult (z_t2z_rt A (nth 0 (g_axes g) []) ks (nth i modes 0%Z) (fun k j => z_ft A k0 t (fun n => at3 f i j n) k) z z0 t0 q j)
                             (export_phase omega0 t0 (vget z q))
                  else RtoC 0))
            end
        end
    | _ =>
        let lx := vget (g_hi g) 0 - vget (g_lo g) 0 in
        let ly := vget (g_hi g) 1 - vget (g_lo g) 1 in
        Ok (mkArr [dim0 f; dim1 f; length z] Complex128 (fun i j q =>
          Cmult (z_t2z_xy A (lx, dim0 f) (ly, dim1 f) ks (fun k i j => z_ft A k0 t (fun n => at3 f i j n) k) z z0 t0 q i j)
                (export_phase omega0 t0 (vget z q))))
    end).

(** laser_utils.py:828: np.fft.fft(field_z, axis=-1, norm="forward") *)
Definition fft_forward (f : ndarray) (i j k : nat) : C := Cmult (RtoC (/ INR (dim2 f))) (fft1 (dim2 f) (fun q => at3 f i j q) k).
(** laser_utils.py:831-832 *)
Definition import_omega (omega0 : R) (z : list R) (k : nat) : R :=
  2 * PI * fftfreq (length z) ((vget z 1 - vget z 0) / c_light) k + omega0.
Definition import_ks (omega0 : R) (z : list R) : list R := map (fun k => import_omega omega0 z k / c_light) (seq 0 (length z)).
(** laser_utils.py:852, 872 *)
Definition import_shift (omega0 : R) (z : list R) (k : nat) : C :=
  cis (- (vget z 0 * (import_omega omega0 z k / c_light - omega0 / c_light))).
(** laser_utils.py:854, 874: np.exp(1j * (z0 / c + t_axis) * omega0) at one t *)
Definition import_phase (omega0 z0 t : R) : C := cis ((z0 / c_light + t) * omega0).
(** laser_utils.py:789-875.  z_axis[1] raises IndexError for fewer than two points; an axis of another length than the last
    axis of field_z fails in the product of lines 852/872.  axiprop is assumed to reject (with ValueError) a field whose
    transverse size is not that of the grid.  field_z has rank 3. *)
Definition import_from_z (A : zaxiprop) (d : pydim) (g : grid) (omega0 : R) (fz : ndarray) (z : list R) (z0 t0 : R) : grid * res unit :=
  let t := time_axis g in
  if Nat.ltb (length z) 2 then (g, Err IndexError)
  else if negb (Nat.eqb (dim2 fz) (length z)) then (g, Err ValueError)
  else
    let T i j k := Cmult (fft_forward fz i j k) (import_shift omega0 z k) in
    let ks := import_ks omega0 z in
    match d with
    | Rt =>
        match g_modes g with
        | None => (g, Err AttributeError)
        | Some modes =>
            if Nat.ltb (dim0 fz) (length modes) then (g, Err IndexError)
            else if negb (Nat.eqb (dim1 fz) (length (nth 0 (g_axes g) []))) then (g, Err ValueError)
            else set_temporal_field g (mkArr (g_shape g) Complex128 (fun i j n =>
              if Nat.ltb i (length modes)
              then Cmult (z_z2t_rt A (nth 0 (g_axes g) []) ks (nth i modes 0%Z) (fun k j => T i j k) t z0 t0 n j) (import_phase omega0 z0 (vget t n))
              else RtoC 0))
        end
    | _ =>
        match g_npoints g with
        | [nx; ny; _] =>
            let lx := vget (g_hi g) 0 - vget (g_lo g) 0 in
            let ly := vget (g_hi g) 1 - vget (g_lo g) 1 in
            if orb (negb (Nat.eqb (dim0 fz) nx)) (negb (Nat.eqb (dim1 fz) ny)) then (g, Err ValueError)
            else set_temporal_field g (mkArr [nx; ny; length t] Complex128 (fun i j n =>
              Cmult (z_z2t_xy A (lx, nx) (ly, ny) ks (fun k i j => T i j k) t z0 t0 n i j) (import_phase omega0 z0 (vget t n))))
        | _ => (g, Err ValueError)
        end
    end.
