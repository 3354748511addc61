(** Model of lasy/profiles/from_openpmd_profile.py with all its options; the argument phase_unwrap_nd is in UnwrapModel. *)
From Verif Require Import PyBase CSum NpFFT NumPy NpMath GridModel LaserModel AnalysisModel FromArrayModel OpenPMDModel.
Open Scope R_scope.

(** array[0] of a rank-3 array *)
Definition first_slice (a : ndarray) : res ndarray :=
  match shp a with
  | S _ :: s => Ok (mkArr s (dty a) (fun i k _ => at3 a 0 i k))
  | _ => Err IndexError
  end.
(** from_openpmd_profile.py:70-126.  [F], [md]: what OpenPMDTimeSeries.get_field returns; [theta] None means a full
    Cartesian array; [file_omega]: the attribute angularFrequency read with openpmd_api (or the exception, for
    instance when no prefix is given); [hilb]: scipy.signal.hilbert. *)
Definition from_openpmd (hilb : nat -> (nat -> C) -> nat -> C) (F : ndarray) (md : field_md) (theta : option R)
    (is_envelope : option bool) (file_omega : res R) (pol : C * C) : res profile :=
  let isenv := match is_envelope with
               | Some b => b
               | None => match dty F with Complex128 => true | Float64 => false end
               end in
  let d := match theta with None => Xyt | Some _ => Rt end in
  do fa <- match d with Xyt => reorder_array_xyt F md | _ => reorder_array_rt F md end;
  do aw <- (if isenv then do w <- file_omega; Ok (fst fa, w)
            else
              do g <- create_grid d (fst fa) (snd fa) false;
              let r := field_to_envelope hilb d g in
              match snd r with
              | Err e => Err e
              | Ok w => do b <- snd (get_temporal_field (fst r)); do c <- first_slice b; Ok (c, w)
              end);
  match d, snd fa with
  | Xyt, [xs; ys; ts] => from_array_xyt (2 * PI * c_light / snd aw) pol (fst aw) xs ys ts SpaceTime
  | Rt, [rs; ts] => from_array_rt (2 * PI * c_light / snd aw) pol (fst aw) rs ts SpaceTime
  | _, _ => Err OtherException
  end.

(** What openpmd_viewer returns for a thetaMode mesh written by lasy (labels t, r) and a plane of observation [theta]:
    the modes summed at the angle theta (upper half of the r axis) and theta + pi (lower half, mirrored); the r axis is
    mirrored too.  External library: this is the documented meaning of get_field(theta=...). *)
Definition viewer_sum (m : mesh) (M r t : nat) (theta : R) : C :=
  Cplus (at3 (ms_data m) 0 t r) (csum (M - 1) (fun q =>
    Cplus (Cmult (RtoC (cos (INR (S q) * theta))) (at3 (ms_data m) (2 * S q - 1) t r))
          (Cmult (RtoC (sin (INR (S q) * theta))) (at3 (ms_data m) (2 * S q) t r)))).
Definition viewer_plane (m : mesh) (theta : R) : ndarray :=
  let nt := dim1 (ms_data m) in let nr := dim2 (ms_data m) in
  let M := Nat.div (dim0 (ms_data m) + 1) 2 in
  mkArr [nt; (2 * nr)%nat] (dty (ms_data m)) (fun k q _ =>
    if Nat.ltb q nr then viewer_sum m M (nr - 1 - q) k (theta + PI) else viewer_sum m M (q - nr) k theta).
Definition viewer_md_rt (m : mesh) : field_md :=
  let ax q n := viewer_axis (vget (ms_offset m) q) (vget (ms_spacing m) q) n in
  mkMd (ms_labels m)
       (fun l => match l with
                 | AxT => ax 0%nat (dim1 (ms_data m))
                 | AxR => let r := ax 1%nat (dim2 (ms_data m)) in map Ropp (rev r) ++ r
                 | _ => []
                 end).
