(** lasy/utils/laser_utils.py get_frequency and field_to_envelope, profiles/from_openpmd_profile.py, with the argument
    phase_unwrap_nd.  [sk] is skimage.restoration.unwrap_phase on a real array, [None] when scikit-image is not
    installed. *)
From Verif Require Import PyBase CSum NpFFT NumPy NpMath GridModel EnergyModel LaserModel AnalysisModel FromArrayModel OpenPMDModel OpenPMDProfileModel.
Open Scope R_scope.

Definition unwrapper : Type := option (ndarray -> ndarray).
(** The entry of np.squeeze(a) that comes from the indices (i,j,k) of the rank-3 array a. *)
Definition squeezed_at {A} (a : ndarray) (v : nat -> nat -> nat -> A) (i j k : nat) : A :=
  if Nat.eqb (dim0 a) 1
  then if Nat.eqb (dim1 a) 1 then v k 0%nat 0%nat else v j k 0%nat
  else if Nat.eqb (dim1 a) 1 then v i k 0%nat else v i j k.
(** laser_utils.py:434-447: h = np.squeeze(field); phase = unwrap_phase(np.angle(h)) *)
Definition nd_phase (u : ndarray -> ndarray) (f : ndarray) (i j k : nat) : R :=
  Re (squeezed_at f (at3 (u (squeeze (real_arr (shp f) (fun i j k => angle (at3 f i j k)))))) i j k).
(** line 450 *)
Definition nd_omega (u : ndarray -> ndarray) (g : grid) (f : ndarray) (i j k : nat) : R :=
  gradient2 lin3R (dim2 f) (fun q => - nd_phase u f i j q) (fun q => vget (time_axis g) q) k.
(** laser_utils.py:425-462, phase_unwrap_nd=True *)
Definition frequency_field_nd (sk : unwrapper) (d : pydim) (g : grid) (f : ndarray) (is_hilbert : bool) (lb ub : R) : res (ndarray * R) :=
  match d with
  | OtherDim => Err AssertionError
  | _ =>
    if negb is_hilbert then Err TypeError
    else match sk with
    | None => Err AssertionError
    | Some u =>
      if Nat.ltb (dim2 f) 3 then Err ValueError
      else
        let w := fun i j k =>
          match d with
          | Xyt => Cmod (at3 f i j k)
          | _ => vget (nth 0 (g_axes g) []) j * Cmod (at3 f i j k)
          end in
        do c <- average3 (dim0 f) (dim1 f) (dim2 f) (nd_omega u g f) w;
        Ok (squeeze (real_arr (shp f) (fun i j k => clip_freq lb ub c (nd_omega u g f i j k))), c)
    end
  end.
(** laser_utils.py:358-464: for an envelope (lines 424-428) phase_unwrap_nd is not looked at. *)
Definition get_frequency_nd (sk : unwrapper) (nd : bool) (g : grid) (d : pydim) (is_hilbert : bool) (omega0 : option R) (lb ub : R)
  : grid * res (ndarray * R) :=
  with_field g (fun g f =>
    if g_isenv g then frequency_env g f omega0 lb ub
    else if nd then frequency_field_nd sk d g f is_hilbert lb ub
    else frequency_field d g f is_hilbert lb ub).
(** laser_utils.py:555-595 *)
Definition field_to_envelope_nd (sk : unwrapper) (nd : bool) (hilb : nat -> (nat -> C) -> nat -> C) (d : pydim) (g : grid) : grid * res R :=
  if g_isenv g then (g, Err AssertionError)
  else
    let r := get_temporal_field g in
    match snd r with
    | Err e => (fst r, Err e)
    | Ok f =>
        let h := hilbert_transform hilb f in
        let q := get_frequency_nd sk nd (fst r) d true None lb_default ub_default in
        match snd q with
        | Err e => (fst q, Err e)
        | Ok (_, w) =>
            let env := mkArr (shp h) Complex128 (fun i j k =>
              Cmult (at3 h i j k) (cis (w * vget (time_axis g) k))) in
            let g1 := set_is_envelope (fst q) true in
            let s := set_temporal_field g1 env in
            match snd s with Err e => (fst s, Err e) | Ok _ => (fst s, Ok w) end
        end
    end.
(** from_openpmd_profile.py:70-126 *)
Definition from_openpmd_nd (sk : unwrapper) (nd : bool) (hilb : nat -> (nat -> C) -> nat -> C) (F : ndarray) (md : field_md) (theta : option R)
    (is_envelope : option bool) (file_omega : res R) (pol : C * C) : res profile :=
  let isenv := match is_envelope with
               | Some b => b
               | None => match dty F with Complex128 => true | Float64 => false end
               end in
  let d := match theta with None => Xyt | Some _ => Rt end in
  do fa <- match d with Xyt => reorder_array_xyt F md | _ => reorder_array_rt F md end;
  do aw <- (if isenv then do w <- file_omega; Ok (fst fa, w)
            else
              do g <- create_grid d (fst fa) (snd fa) false;
              let r := field_to_envelope_nd sk nd hilb d g in
              match snd r with
              | Err e => Err e
              | Ok w => do b <- snd (get_temporal_field (fst r)); do c <- first_slice b; Ok (c, w)
              end);
  match d, snd fa with
  | Xyt, [xs; ys; ts] => from_array_xyt (2 * PI * c_light / snd aw) pol (fst aw) xs ys ts SpaceTime
  | Rt, [rs; ts] => from_array_rt (2 * PI * c_light / snd aw) pol (fst aw) rs ts SpaceTime
  | _, _ => Err OtherException
  end.
