(** Model of lasy/laser.py (class Laser). *)
From Verif Require Import PyBase NpFFT NumPy GridModel EnergyModel.
Open Scope R_scope.

(** ** Profiles, as seen by Laser.
    profiles/profile.py: attributes omega0, lambda0, pol; optional attribute laser_energy
    (None = attribute absent; Some None = set to Python None).  [p_eval] is evaluate at one
    point: Laser only ever calls evaluate on meshgrids and lasy profiles are element-wise
    (except SpeckleProfile, modelled separately).  [p_dtype] is the dtype of the result. *)
Record profile : Type := mkProfile {
  p_omega0 : R;
  p_lambda0 : R;
  p_pol : C * C;
  p_energy : option (option R);
  p_dtype : dtype;
  p_eval : R -> R -> R -> C
}.

(** optical_elements/optical_element.py: amplitude_multiplier(x, y, omega, omega0), element-wise. *)
Definition optic : Type := R -> R -> R -> R -> C.

(** ** axiprop propagator objects: the constructor arguments (laser.py:272-281, 289-297, 329-334). *)
Definition backend_t : Type := nat.      (* the backend string, abstracted *)
Record rt_prop : Type := mkRtProp {
  rp_r : list R;                 (* radial axis of the data *)
  rp_k : list R;                 (* omega_1d / c *)
  rp_rnew : option (list R);     (* resampled radial axis, if any *)
  rp_mode : Z;
  rp_backend : backend_t
}.
Record fft2_prop : Type := mkFft2Prop {
  fp_x : R * nat;                (* (Lx, Nx) *)
  fp_y : R * nat;
  fp_k : list R;
  fp_backend : backend_t
}.
(** The attribute self.prop: a list (rt) or a single object (xyt). *)
Inductive prop_attr : Type := PropRt (l : list rt_prop) | PropXyt (p : fft2_prop).

(** The solvers themselves: PropagatorResampling.step(data, d) on data of shape (Nk, Nr), and
    PropagatorFFT2.step(data, d, overwrite=True) (result left in data) of shape (Nk, Nx, Ny). *)
Record solvers : Type := mkSolvers {
  step_rt : rt_prop -> (nat -> nat -> C) -> R -> nat -> nat -> C;
  step_xyt : fft2_prop -> (nat -> nat -> nat -> C) -> R -> nat -> nat -> nat -> C
}.

Record laser : Type := mkLaser {
  l_dim : pydim;
  l_grid : grid;
  l_prof : profile;
  l_iter : nat;                  (* output_iteration *)
  l_omega : list R;              (* omega_1d *)
  l_prop : option prop_attr      (* None: no attribute [prop] *)
}.
Definition set_grid (L : laser) (g : grid) : laser :=
  mkLaser (l_dim L) g (l_prof L) (l_iter L) (l_omega L) (l_prop L).
Definition set_prop (L : laser) (p : option prop_attr) : laser :=
  mkLaser (l_dim L) (l_grid L) (l_prof L) (l_iter L) (l_omega L) p.

(** Python [l[-1]] for a shape. *)
Definition lastN (l : list nat) : nat := last l 0%nat.
Definition axis_at (g : grid) (q : nat) (i : nat) : R := vget (nth q (g_axes g) []) i.
Definition time_axis (g : grid) : list R := last (g_axes g) [].

(** laser.py:114-116: omega_1d = 2 pi fftfreq(Nt, dt) + omega0 *)
Definition omega_axis (g : grid) (omega0 : R) : list R :=
  let Nt := lastN (g_shape g) in
  map (fun k => 2 * PI * fftfreq Nt (lastR (g_dx g)) k + omega0) (seq 0 Nt).

(** laser.py:119-121: evaluation on the xyt meshgrid (indexing="ij"). *)
Definition sample_xyt (g : grid) (p : profile) : ndarray :=
  mkArr [length (nth 0 (g_axes g) []); length (nth 1 (g_axes g) []); length (nth 2 (g_axes g) [])]
        (p_dtype p)
        (fun i j k => p_eval p (axis_at g 0 i) (axis_at g 1 j) (axis_at g 2 k)).

(** laser.py:129-134: evaluation on the (theta, r, t) meshgrid. *)
Definition sample_rt (g : grid) (p : profile) (nth_ : nat) : ndarray :=
  mkArr [nth_; length (nth 0 (g_axes g) []); length (nth 1 (g_axes g) [])] (p_dtype p)
        (fun a j k =>
           let theta := 2 * PI / INR nth_ * INR a in
           let r := axis_at g 0 j in
           p_eval p (r * cos theta) (r * sin theta) (axis_at g 1 k)).

(** laser.py:136-141: azimuthal_modes[:M], then (if M>1) azimuthal_modes[-M+1:] appended. *)
Definition take_modes (a : ndarray) (M : Z) : ndarray :=
  let n := dim0 a in
  let n1 := Nat.min (Z.to_nat M) n in
  let s := py_slice_start n (- M + 1) in
  let n2 := if Z.ltb 1 M then (n - s)%nat else 0%nat in
  mkArr [(n1 + n2)%nat; dim1 a; dim2 a] (dty a)
        (fun i j k => if Nat.ltb i n1 then at3 a i j k else at3 a (s + (i - n1)) j k).

(** laser.py:144-146 *)
Definition init_normalize (L : laser) : res laser :=
  match p_energy (l_prof L) with
  | None => Ok L
  | Some v =>
      let r := normalize_energy (l_dim L) v (l_grid L) in
      match snd r with Ok _ => Ok (set_grid L (fst r)) | Err e => Err e end
  end.

(** laser.py:105-146 Laser.__init__.  [nm] is n_azimuthal_modes, [nte] is n_theta_evals. *)
Definition laser_init (d : pydim) (lo hi : list R) (np : list nat) (p : profile)
           (nm : Z) (nte : option Z) : res laser :=
  do g <- grid_init d lo hi np (Some nm) true;
  let mk g := mkLaser d g p 0%nat (omega_axis g (p_omega0 p)) None in
  match d with
  | Xyt =>
      let r := set_temporal_field g (sample_xyt g p) in
      match snd r with
      | Err e => Err e
      | Ok _ => init_normalize (mk (fst r))
      end
  | Rt =>
      let nt := match nte with None => (2 * nm - 1)%Z | Some n => n end in
      if Z.ltb nt (2 * nm - 1) then Err AssertionError
      else
        let modes := np_ifft_first (sample_rt g p (Z.to_nat nt)) in
        let r := set_temporal_field g (take_modes modes nm) in
        match snd r with
        | Err e => Err e
        | Ok _ => init_normalize (mk (fst r))
        end
  | OtherDim => Err AssertionError   (* unreachable: grid_init already failed *)
  end.

(** laser.py:148-167 *)
Definition normalize (L : laser) (value : option R) (kind : norm_kind) : laser * res unit :=
  let r := normalize_grid (l_dim L) value kind (l_grid L) in
  (set_grid L (fst r), snd r).

(** laser.py:169-203 apply_optics *)
Definition optic_factor (L : laser) (o : optic) (i j k : nat) : C :=
  let g := l_grid L in
  let w := vget (l_omega L) k in
  match l_dim L with
  | Rt => o (axis_at g 0 j) 0 w (p_omega0 (l_prof L))
  | _ => o (axis_at g 0 i) (axis_at g 1 j) w (p_omega0 (l_prof L))
  end.
Definition apply_optics (L : laser) (o : optic) : laser * res unit :=
  let r := get_spectral_field (l_grid L) in
  match snd r with
  | Err e => (set_grid L (fst r), Err e)
  | Ok s =>
      let s' := mkArr (shp s) (dty s)
                  (fun i j k => Cmult (at3 s i j k) (optic_factor L o i j k)) in
      let q := set_spectral_field (fst r) s' in
      (set_grid L (fst q), snd q)
  end.

(** ** propagate *)
(** The nr_boundary argument when not None: an int, or an object of another type. *)
Inductive pynum : Type := PyInt (z : Z) | PyOther.

(** laser.py:235-237: absorb_layer_shape[i]; numpy's cos(pi/2) is a tiny positive number whose
    square root is then overwritten by 0. *)
Definition absorb_shape (n i : nat) : R :=
  if Nat.eqb i (n - 1) then 0 else sqrt (cos (vget (linspace 0 (PI / 2) n) i)).
(** factor applied at position p of an axis of length N by [a[-n:] *= shape] *)
Definition absorb_hi (n N p : nat) : R :=
  if Nat.leb (N - n) p then absorb_shape n (p - (N - n)) else 1.
(** factor applied by [a[:n] *= shape[::-1]] *)
Definition absorb_lo (n p : nat) : R :=
  if Nat.ltb p n then absorb_shape n (n - 1 - p) else 1.

(** laser.py:238-246 (n is at most the transverse size, otherwise numpy raises ValueError). *)
Definition absorb_field (d : pydim) (n : nat) (f : ndarray) : res ndarray :=
  match d with
  | Rt =>
      if Nat.ltb (dim1 f) n then Err ValueError
      else Ok (mkArr (shp f) (dty f)
             (fun i j k => Cmult (at3 f i j k) (RtoC (absorb_hi n (dim1 f) j))))
  | _ =>
      if Nat.ltb (dim0 f) n then Err ValueError
      else if Nat.ltb (dim1 f) n then Err ValueError
      else Ok (mkArr (shp f) (dty f)
             (fun i j k =>
                Cmult (Cmult (Cmult (Cmult (at3 f i j k)
                   (RtoC (absorb_hi n (dim0 f) i))) (RtoC (absorb_lo n i)))
                   (RtoC (absorb_hi n (dim1 f) j))) (RtoC (absorb_lo n j))))
  end.

(** laser.py:233-246 *)
Definition absorb_boundary (d : pydim) (nr : option pynum) (g : grid) : grid * res unit :=
  match nr with
  | None => (g, Ok tt)
  | Some PyOther => (g, Err AssertionError)
  | Some (PyInt z) =>
      if Z.leb z 0 then (g, Err AssertionError)
      else
        let r := get_temporal_field g in
        match snd r with
        | Err e => (fst r, Err e)
        | Ok f =>
            match absorb_field d (Z.to_nat z) f with
            | Err e => (fst r, Err e)
            | Ok f' => set_temporal_field (fst r) f'
            end
        end
  end.

(** replace the last element *)
Definition set_last {A} (l : list A) (v : A) : list A := removelast l ++ [v].

(** laser.py:255-257: the time information of the current grid is written into the new grid. *)
Definition overwrite_time (gn g : grid) : grid :=
  with_domain gn (set_last (g_lo gn) (lastR (g_lo g))) (set_last (g_hi gn) (lastR (g_hi g)))
              (set_last (g_axes gn) (time_axis g)).

(** laser.py:271-281 / 288-297 *)
Definition build_rt (r : list R) (om : list R) (rn : option (list R)) (modes : list Z)
           (b : backend_t) : list rt_prop :=
  map (fun m => mkRtProp r (map (fun w => w / c_light) om) rn m b) modes.
(** laser.py:325-334 *)
Definition build_xyt (g : grid) (om : list R) (b : backend_t) : fft2_prop :=
  mkFft2Prop (vget (g_hi g) 0 - vget (g_lo g) 0, nth 0 (g_shape g) 0%nat)
             (vget (g_hi g) 1 - vget (g_lo g) 1, nth 1 (g_shape g) 0%nat)
             (map (fun w => w / c_light) om) b.

(** laser.py:350-352 multiplication by exp(-i (omega - omega0) d/c) *)
Definition time_phase (om : list R) (omega0 dist : R) (k : nat) : C :=
  cis (- ((vget om k - omega0) * (dist / c_light))).
Definition apply_phase (om : list R) (omega0 dist : R) (s : ndarray) : ndarray :=
  mkArr (shp s) (dty s) (fun i j k => Cmult (at3 s i j k) (time_phase om omega0 dist k)).

(** laser.py:356-358 *)
Definition shift_domain (g : grid) (dist : R) : grid :=
  let tau := dist / c_light in
  with_domain g (set_last (g_lo g) (lastR (g_lo g) + tau)) (set_last (g_hi g) (lastR (g_hi g) + tau))
              (set_last (g_axes g) (map (fun t => t + tau) (time_axis g))).

(** laser.py:342-358: common tail of both branches. *)
Definition finish (L : laser) (dist : R) (s : ndarray) : laser * res unit :=
  let q := set_spectral_field (l_grid L) (apply_phase (l_omega L) (p_omega0 (l_prof L)) dist s) in
  match snd q with
  | Err e => (set_grid L (fst q), Err e)
  | Ok _ => (set_grid L (shift_domain (fst q) dist), Ok tt)
  end.

(** laser.py:299-314 one azimuthal component: transpose, step, transpose back. *)
Definition step_mode (S : solvers) (ps : list rt_prop) (s : ndarray) (dist : R)
           (im j k : nat) : C :=
  match nth_error ps im with
  | Some p => step_rt S p (fun kk jj => at3 s im jj kk) dist k j
  | None => RtoC 0      (* self.prop[i_m] out of range: guarded in propagate *)
  end.

(** laser.py:205-358 propagate *)
Definition propagate (S : solvers) (L : laser) (dist : R) (nr : option pynum)
           (newgrid : option grid) (b : backend_t) : laser * res unit :=
  if negb (g_isenv (l_grid L)) then (L, Err AssertionError)
  else
  let a := absorb_boundary (l_dim L) nr (l_grid L) in
  match snd a with
  | Err e => (set_grid L (fst a), Err e)
  | Ok _ =>
    let r := get_spectral_field (fst a) in
    let L1 := set_grid L (fst r) in
    match snd r with
    | Err e => (L1, Err e)
    | Ok s =>
      match l_dim L with
      | Rt =>
        match newgrid with
        | Some gn =>
            let g := l_grid L1 in
            let gn' := overwrite_time gn g in
            let L2 := set_grid L1 gn' in
            match g_modes gn' with
            | None => (L2, Err AttributeError)      (* the new grid is not an rt grid *)
            | Some modes =>
                let ps := build_rt (nth 0 (g_axes g) []) (l_omega L)
                                   (Some (nth 0 (g_axes gn') [])) modes b in
                let L3 := set_prop L2 (Some (PropRt ps)) in
                if negb (shape_eqb [length (nth 0 (g_axes gn') []); dim2 s]
                                   [nth 0 (g_npoints gn') 0%nat; nth 1 (g_npoints gn') 0%nat])
                then (L3, Err ValueError)
                else if Nat.ltb (dim0 s) (length modes) then (L3, Err IndexError)
                else
                  let s' := mkArr [length modes; nth 0 (g_npoints gn') 0%nat; nth 1 (g_npoints gn') 0%nat]
                                  Complex128 (step_mode S ps s dist) in
                  finish (set_prop L3 None) dist s'
            end
        | None =>
            match g_modes (l_grid L1) with
            | None => (L1, Err AttributeError)
            | Some modes =>
                let ps := match l_prop L with
                          | Some (PropRt l) => l
                          | Some (PropXyt _) => []
                          | None => build_rt (nth 0 (g_axes (l_grid L1)) []) (l_omega L) None modes b
                          end in
                let L2 := set_prop L1 (Some (PropRt ps)) in
                if Nat.ltb (length ps) (length modes) then (L2, Err IndexError)
                else
                  finish L2 dist (mkArr (shp s) (dty s) (step_mode S ps s dist))
            end
        end
      | _ =>
          let p := match l_prop L with
                   | Some (PropXyt p) => p
                   | _ => build_xyt (l_grid L1) (l_omega L) b
                   end in
          let L2 := set_prop L1 (Some (PropXyt p)) in
          finish L2 dist
            (mkArr (shp s) (dty s)
               (fun i j k => step_xyt S p (fun kk ii jj => at3 s ii jj kk) dist k i j))
      end
    end
  end.

(** laser.py:360-396 write_to_file.  openpmd_output.py:62 first reads the temporal field; [write]
    stands for the rest of write_to_openpmd_file (file-system and openPMD library calls): its
    outcome given the iteration number, the grid metadata and the array.  The counter advances
    only if it does not raise. *)
Definition write_to_file (L : laser) (write : nat -> grid -> ndarray -> res unit) : laser * res unit :=
  let r := get_temporal_field (l_grid L) in
  let L1 := set_grid L (fst r) in
  match snd r with
  | Err e => (L1, Err e)
  | Ok a =>
      match write (l_iter L) (fst r) a with
      | Err e => (L1, Err e)
      | Ok _ => (mkLaser (l_dim L1) (l_grid L1) (l_prof L1) (l_iter L1 + 1) (l_omega L1) (l_prop L1), Ok tt)
      end
  end.
