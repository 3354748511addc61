(** Model of the analysis functions of lasy/utils/laser_utils.py and of Laser.show. *)
From Verif Require Import PyBase NpFFT NumPy NpMath GridModel EnergyModel LaserModel.
Open Scope R_scope.

(** Result of a function that reads the temporal field of the grid (which may fill its cache). *)
Definition with_field {A} (g : grid) (k : grid -> ndarray -> res A) : grid * res A :=
  let r := get_temporal_field g in
  (fst r, match snd r with Err e => Err e | Ok a => k (fst r) a end).

(** ** laser_utils.py:358-464 get_frequency, envelope branch (lines 420-424).
    np.average raises ZeroDivisionError (here OtherException) when the weights sum to 0;
    np.gradient with edge_order=2 raises ValueError on fewer than 3 samples. *)
Definition local_omega (g : grid) (f : ndarray) (omega0 : R) (i j k : nat) : R :=
  omega0 + gradient2 lin3R (dim2 f) (fun q => - unwrap (fun q => angle (at3 f i j q)) q)
                     (fun q => vget (time_axis g) q) k.
(** np.average(v, weights=w) over all entries *)
Definition average3 (n0 n1 n2 : nat) (v w : nat -> nat -> nat -> R) : res R :=
  let s := rsum3 n0 n1 n2 w in
  if Reqb s 0 then Err OtherException
  else Ok (rsum3 n0 n1 n2 (fun i j k => v i j k * w i j k) / s).
(** lines 459-462 *)
Definition clip_freq (lb ub c : R) (w : R) : R := Rmin (Rmax w (lb * c)) (ub * c).
(** A real-valued array of the shape of the field. *)
Definition real_arr (s : list nat) (v : nat -> nat -> nat -> R) : ndarray :=
  mkArr s Float64 (fun i j k => RtoC (v i j k)).

Definition frequency_env (g : grid) (f : ndarray) (omega0 : option R) (lb ub : R) : res (ndarray * R) :=
  match omega0 with
  | None => Err AssertionError
  | Some w0 =>
      if Nat.ltb (dim2 f) 3 then Err ValueError
      else
        do c <- average3 (dim0 f) (dim1 f) (dim2 f) (local_omega g f w0) (fun i j k => Cmod (at3 f i j k));
        Ok (real_arr (shp f) (fun i j k => clip_freq lb ub c (local_omega g f w0 i j k)), c)
  end.

(** np.squeeze of a three-dimensional array whose last axis is longer than 1. *)
Definition squeeze (a : ndarray) : ndarray :=
  mkArr (filter (fun n => negb (Nat.eqb n 1)) (shp a)) (dty a)
    (if Nat.eqb (dim0 a) 1
     then if Nat.eqb (dim1 a) 1 then fun k _ _ => at3 a 0 0 k else fun j k _ => at3 a 0 j k
     else if Nat.eqb (dim1 a) 1 then fun i k _ => at3 a i 0 k else at3 a).
(** Non-envelope branch, lines 425-457, with phase_unwrap_nd=False.  Line 431 overwrites [h] by the
    (real) field itself, with its length-1 axes dropped: the local frequencies come out squeezed
    (squeezing commutes with what is done along the time axis and with the averages).
    When is_hilbert is False, hilbert_transform(grid) subscripts a Grid: TypeError. *)
Definition frequency_field (d : pydim) (g : grid) (f : ndarray) (is_hilbert : bool) (lb ub : R) : res (ndarray * R) :=
  match d with
  | OtherDim => Err AssertionError
  | _ =>
    if negb is_hilbert then Err TypeError
    else if Nat.ltb (dim2 f) 3 then Err ValueError
    else
      let w := fun i j k =>
        match d with
        | Xyt => Cmod (at3 f i j k)
        | _ => vget (nth 0 (g_axes g) []) j * Cmod (at3 f i j k)
        end in
      do c <- average3 (dim0 f) (dim1 f) (dim2 f) (local_omega g f 0) w;
      Ok (squeeze (real_arr (shp f) (fun i j k => clip_freq lb ub c (local_omega g f 0 i j k))), c)
  end.

Definition get_frequency (g : grid) (d : pydim) (is_hilbert : bool) (omega0 : option R) (lb ub : R)
  : grid * res (ndarray * R) :=
  with_field g (fun g f =>
    if g_isenv g then frequency_env g f omega0 lb ub else frequency_field d g f is_hilbert lb ub).
(** Default bounds (signature, lines 364-365). *)
Definition lb_default : R := / 5.
Definition ub_default : R := 5.

(** ** laser_utils.py:494-517 field_to_vector_potential (get_frequency does not change what the
    second get_temporal_field returns). *)
Definition vecpot_of (f : ndarray) (om : ndarray) : ndarray :=
  mkArr (shp f) Complex128 (fun i j k =>
    Cdiv (Cmult (Cmult (Copp Ci) (RtoC e_charge)) (at3 f i j k))
         (Cmult (Cmult (RtoC m_e) (at3 om i j k)) (RtoC c_light))).
Definition field_to_vector_potential (g : grid) (omega0 : R) : grid * res ndarray :=
  if negb (g_isenv g) then (g, Err AssertionError)
  else
    let r := get_frequency g OtherDim false (Some omega0) lb_default ub_default in
    match snd r with
    | Err e => (fst r, Err e)
    | Ok (om, _) => with_field (fst r) (fun _ f => Ok (vecpot_of f om))
    end.

(** ** laser_utils.py:520-552 vector_potential_to_field *)
Definition vector_potential_to_field (g : grid) (omega0 : R) (direct : bool) : grid * res ndarray :=
  if negb (g_isenv g) then (g, Err AssertionError)
  else
    let r := get_temporal_field g in
    match snd r with
    | Err e => (fst r, Err e)
    | Ok f =>
        if direct then
          if Nat.ltb (dim2 f) 3 then (fst r, Err ValueError)
          else (fst r, Ok (mkArr (shp f) Complex128 (fun i j k =>
             Cmult (RtoC (m_e * c_light / e_charge))
               (Cplus (Copp (gradient2 lin3C (dim2 f) (fun q => at3 f i j q) (fun q => vget (time_axis g) q) k))
                      (Cmult (Cmult Ci (RtoC omega0)) (at3 f i j k))))))
        else
          let q := get_frequency (fst r) OtherDim false (Some omega0) lb_default ub_default in
          match snd q with
          | Err e => (fst q, Err e)
          | Ok (om, _) =>
              (fst q, Ok (mkArr (shp f) Complex128 (fun i j k =>
                 Cdiv (Cmult (Cmult (Cmult (Cmult Ci (RtoC m_e)) (at3 om i j k)) (RtoC c_light)) (at3 f i j k))
                      (RtoC e_charge))))
          end
    end.

(** ** laser_utils.py:467-491 get_duration, 640-657 weighted_std *)
Definition average1 (n : nat) (v w : nat -> R) : res R :=
  if Reqb (rsum n w) 0 then Err OtherException else Ok (rsum n (fun k => v k * w k) / rsum n w).
Definition weighted_std (n : nat) (v w : nat -> R) : res R :=
  do m <- average1 n v w;
  do s <- average1 n (fun k => (v k - m) ^ 2) w;
  Ok (sqrt s).
Definition duration_weight (d : pydim) (g : grid) (f : ndarray) (k : nat) : R :=
  rsum (dim0 f) (fun i => rsum (dim1 f) (fun j => Cmod (at3 f i j k) ^ 2 * cell_volume d g j)).
Definition get_duration (d : pydim) (g : grid) : grid * res R :=
  with_field g (fun g f => weighted_std (dim2 f) (fun k => vget (time_axis g) k) (duration_weight d g f)).

(** ** laser_utils.py:226-355 get_spectrum for an envelope grid, method "sum", without [range]
    (lines 301-347): the list of (omega, spectral energy density) pairs, sorted by omega and
    restricted to omega >= 0. *)
Fixpoint insert_om (x : R * R) (l : list (R * R)) : list (R * R) :=
  match l with [] => [x] | y :: t => if Rleb (fst x) (fst y) then x :: y :: t else y :: insert_om x t end.
Fixpoint sort_om (l : list (R * R)) : list (R * R) :=
  match l with [] => [] | x :: t => insert_om x (sort_om t) end.
(** lines 316-321, 324, 328, 337-347: entry k (before sorting) of the transversally summed spectrum;
    in rt only spectrum[0] (mode 0) is used. *)
Definition spectrum_raw (f : ndarray) (dt : R) (i j k : nat) : C :=
  Cmult (Cmult (RtoC (/ 2)) (fft1 (dim2 f) (fun q => at3 f i j q) k)) (RtoC dt).
Definition spectrum_density (f : ndarray) (dt : R) (i j k : nat) : R :=
  Cmod (spectrum_raw f dt i j k) ^ 2 * eps0 * c_light / PI.
Definition spectrum_sum (d : pydim) (g : grid) (f : ndarray) (k : nat) : R :=
  let dt := lastR (g_dx g) in
  let dz := dt * c_light in
  match d with
  | Xyt => rsum (dim0 f) (fun i => rsum (dim1 f) (fun j =>
             spectrum_density f dt i j k * cell_volume_xyt g / dz))
  | _ => rsum (dim1 f) (fun j => spectrum_density f dt 0 j k * cell_volume_rt g j / dz)
  end.
Definition spectrum_pairs (d : pydim) (g : grid) (f : ndarray) (omega0 : R) : list (R * R) :=
  let dt_axis := vget (time_axis g) 1 - vget (time_axis g) 0 in
  map (fun k => (omega0 - 2 * PI * fftfreq (lastN (g_shape g)) dt_axis k, spectrum_sum d g f k)) (seq 0 (dim2 f)).
Definition get_spectrum_sum (d : pydim) (g : grid) (omega0 : option R) : grid * res (list (R * R)) :=
  with_field g (fun g f =>
    match omega0 with
    | None => Err AssertionError
    | Some w0 => Ok (filter (fun x => Rleb 0 (fst x)) (sort_om (spectrum_pairs d g f w0)))
    end).

(** ** laser_utils.py:136-223 get_full_field with Nt=None *)
Inductive slice_ax : Type := SliceX | SliceY | SliceOther.
(** lines 174-181: rows of the reconstructed envelope in rt geometry *)
Definition azimuthal_sum (modes : list Z) (f : ndarray) (s theta : R) (j k : nat) : C :=
  csum (dim0 f) (fun i => Cmult (at3 f i j k) (cis (s * IZR (nth i modes 0%Z) * theta))).
Definition full_env_rt (modes : list Z) (f : ndarray) (theta : R) (p k : nat) : C :=
  let Nr := dim1 f in
  if Nat.ltb p (Nr - 1) then azimuthal_sum modes f 1 theta (Nr - 1 - p) k
  else azimuthal_sum modes f (- 1) theta (p - (Nr - 1)) k.
(** Python int(x): truncation toward zero *)
Definition py_int (x : R) : Z := if Rleb 0 x then Rfloor x else (- Rfloor (- x))%Z.
(** lines 183-188: int((1 + slice) * (N // 2 - 1)) *)
Definition slice_index (N : nat) (s : R) : Z := py_int ((1 + s) * (IZR (Z.of_nat N / 2 - 1))).
(** lines 208-209: real part with the carrier *)
Definition with_carrier (omega0 : R) (t : R) (z : C) : C := RtoC (Re (Cmult z (cis (- (omega0 * t))))).
(** The return value: None, or (2-D array, extent [tmin, tmax, xmin, xmax]). *)
Definition full_extent (d : pydim) (g : grid) : list R :=
  match d with
  | Rt => [lastR (g_lo g); lastR (g_hi g); - vget (g_hi g) 0; vget (g_hi g) 0]
  | _ => [lastR (g_lo g); lastR (g_hi g); vget (g_lo g) 0; vget (g_hi g) 0]
  end.
Definition full_field (L : laser) (theta s : R) (sa : slice_ax) (g : grid) (f : ndarray) : res (option (ndarray * list R)) :=
  let w0 := p_omega0 (l_prof L) in
  let t k := vget (time_axis g) k in
  if negb (g_isenv g) then Err AssertionError
  else match l_dim L with
  | Rt =>
      match g_modes g with
      | None => Err AttributeError
      | Some modes =>
          Ok (Some (mkArr [(dim1 f - 1 + dim1 f)%nat; dim2 f] Float64
                      (fun p k _ => with_carrier w0 (t k) (full_env_rt modes f theta p k)), full_extent Rt g))
      end
  | d =>
      match sa with
      | SliceX =>
          match py_index (dim0 f) (slice_index (dim0 f) s) with
          | None => Err IndexError
          | Some q => Ok (Some (mkArr [dim1 f; dim2 f] Float64
                            (fun p k _ => with_carrier w0 (t k) (at3 f q p k)), full_extent d g))
          end
      | SliceY =>
          match py_index (dim1 f) (slice_index (dim1 f) s) with
          | None => Err IndexError
          | Some q => Ok (Some (mkArr [dim0 f; dim2 f] Float64
                            (fun p k _ => with_carrier w0 (t k) (at3 f p q k)), full_extent d g))
          end
      | SliceOther => Ok None
      end
  end.
Definition get_full_field (L : laser) (theta s : R) (sa : slice_ax) : laser * res (option (ndarray * list R)) :=
  let r := with_field (l_grid L) (full_field L theta s sa) in (set_grid L (fst r), snd r).

(** ** laser.py:398-440 show: the image passed to imshow and its extent.
    temporal_field[m] with m taken from azimuthal_modes: a negative m indexes from the end. *)
Definition show_rt_env (modes : list Z) (f : ndarray) (p k : nat) : C :=
  let Nr := dim1 f in
  csum (length modes) (fun a =>
    let m := nth a modes 0%Z in
    let i := match py_index (dim0 f) m with Some i => i | None => 0%nat end in
    if Nat.ltb p Nr then Cmult (RtoC (powerRZ (-1) m)) (at3 f i (Nr - 1 - p) k) else at3 f i (p - Nr) k).
Definition show_image (L : laser) : laser * res (ndarray * list R) :=
  let r := with_field (l_grid L) (fun g f =>
    match l_dim L with
    | Rt =>
        match g_modes g with
        | None => Err AttributeError
        | Some modes =>
            if forallb (fun m => match py_index (dim0 f) m with Some _ => true | None => false end) modes
            then Ok (mkArr [(dim1 f + dim1 f)%nat; dim2 f] Float64 (fun p k _ => RtoC (Cmod (show_rt_env modes f p k))),
                     full_extent Rt g)
            else Err IndexError
        end
    | d => Ok (mkArr [dim0 f; dim2 f] Float64 (fun p k _ => RtoC (Cmod (at3 f p (Nat.div (dim1 f) 2) k))), full_extent d g)
    end) in
  (set_grid L (fst r), snd r).

(** ** laser_utils.py:598-610 hilbert_transform and 555-595 field_to_envelope.
    [hilb] is scipy.signal.hilbert along the last axis on n samples. *)
Definition hilbert_transform (hilb : nat -> (nat -> C) -> nat -> C) (f : ndarray) : ndarray :=
  mkArr (shp f) Complex128 (fun i j k => hilb (dim2 f) (fun q => at3 f i j (dim2 f - 1 - q)) (dim2 f - 1 - k)%nat).
Definition field_to_envelope (hilb : nat -> (nat -> C) -> nat -> C) (d : pydim) (g : grid) : grid * res R :=
  if g_isenv g then (g, Err AssertionError)
  else
    let r := get_temporal_field g in
    match snd r with
    | Err e => (fst r, Err e)
    | Ok f =>
        let h := hilbert_transform hilb f in
        let q := get_frequency (fst r) d true None lb_default ub_default in
        match snd q with
        | Err e => (fst q, Err e)
        | Ok (_, w) =>
            let env := mkArr (shp h) Complex128 (fun i j k =>
              Cmult (at3 h i j k) (cis (w * vget (time_axis g) k))) in
            let g1 := set_is_envelope (fst q) true in
            let s := set_temporal_field g1 env in
            match snd s with Err e => (fst s, Err e) | Ok _ => (fst s, Ok w) end
        end
    end.

(** ** laser_utils.py:660-695 create_grid.  [ax] are the axes (x,y,t) or (r,t). *)
(** lines 683-684, 692: np.all(grid.axes[i] == axes[..]) *)
Definition axis_eqb (a b : list R) : bool := if list_eq_dec Req_EM_T a b then true else false.
(** lines 685, 693: np.allclose(grid.axes[-1], axes["t"], rtol=1e-14), atol at its default 1e-8 *)
Definition allclose_t (a b : list R) : bool :=
  forallb (fun x => Rleb (Rabs (fst x - snd x)) (/ 10 ^ 8 + / 10 ^ 14 * Rabs (snd x))) (combine a b).
Definition axes_match (ga ax : list (list R)) : bool :=
  andb (forallb (fun x => axis_eqb (fst x) (snd x)) (combine (removelast ga) (removelast ax))) (allclose_t (last ga []) (last ax [])).
Definition create_grid (d : pydim) (a : ndarray) (ax : list (list R)) (isenv : bool) : res grid :=
  let lo := map (fun l => vget l 0) ax in
  let hi := map (fun l => last l 0) ax in
  let np := map (@length R) ax in
  match d with
  | Xyt =>
      do g <- grid_init Xyt lo hi np None isenv;
      do _ <- pyassert (axes_match (g_axes g) ax);
      let s := set_temporal_field g a in
      match snd s with Err e => Err e | Ok _ => Ok (fst s) end
  | _ =>
      do g <- grid_init Rt lo hi np (Some 1%Z) isenv;
      do _ <- pyassert (axes_match (g_axes g) ax);
      let s := set_temporal_field g a in
      match snd s with Err e => Err e | Ok _ => Ok (fst s) end
  end.
