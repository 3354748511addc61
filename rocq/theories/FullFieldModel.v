(** Model of lasy/utils/laser_utils.py get_full_field with all its options ([full_field] of AnalysisModel is the
    case Nt=None). *)
From Verif Require Import PyBase NpFFT NumPy NpMath GridModel EnergyModel LaserModel AnalysisModel.
Open Scope R_scope.

(** laser_utils.py:168-190: the number of rows and the complex envelope in the chosen plane; None is the
    early [return None]. *)
Definition plane_env (L : laser) (theta s : R) (sa : slice_ax) (g : grid) (f : ndarray) : res (option (nat * (nat -> nat -> C))) :=
  match l_dim L with
  | Rt =>
      match g_modes g with
      | None => Err AttributeError
      | Some modes => Ok (Some ((dim1 f - 1 + dim1 f)%nat, full_env_rt modes f theta))
      end
  | _ =>
      match sa with
      | SliceX =>
          match py_index (dim0 f) (slice_index (dim0 f) s) with
          | None => Err IndexError
          | Some q => Ok (Some (dim1 f, fun p k => at3 f q p k))
          end
      | SliceY =>
          match py_index (dim1 f) (slice_index (dim1 f) s) with
          | None => Err IndexError
          | Some q => Ok (Some (dim0 f, fun p k => at3 f p q k))
          end
      | SliceOther => Ok None
      end
  end.
(** scipy.interpolate.interp1d(x, y)(v): linear; outside the range of x it raises ValueError.  interp1d
    sorts x first; the time axes are strictly monotone, and for these sorting means flipping a descending
    axis (and the values). *)
Definition interp1d_ok (x new : list R) : bool := forallb (in_axis_m x) new.
(** laser_utils.py:197-202: one row of the envelope on the new times *)
Definition resample_row (x : list R) (row : nat -> C) (v : R) : C :=
  Cmult (RtoC (interp1m x (fun k => Cmod (row k)) v)) (cis (interp1m x (fun k => unwrap (fun q => angle (row q)) k) v)).
(** laser_utils.py:136-223.  [Nt] = None keeps the time axis.  With no row at all the interpolators are
    not called. *)
Definition full_field_nt (L : laser) (theta s : R) (sa : slice_ax) (Nt : option nat) (g : grid) (f : ndarray)
    : res (option (ndarray * list R)) :=
  let w0 := p_omega0 (l_prof L) in
  let x := time_axis g in
  if negb (g_isenv g) then Err AssertionError
  else
    do pe <- plane_env L theta s sa g f;
    match pe with
    | None => Ok None
    | Some (rows, env) =>
        match Nt with
        | None => Ok (Some (mkArr [rows; dim2 f] Float64 (fun p k _ => with_carrier w0 (vget x k) (env p k)), full_extent (l_dim L) g))
        | Some n =>
            let new := linspace (lastR (g_lo g)) (lastR (g_hi g)) n in
            if orb (Nat.eqb rows 0) (interp1d_ok x new)
            then Ok (Some (mkArr [rows; n] Float64 (fun p k _ => with_carrier w0 (vget new k) (resample_row x (env p) (vget new k))),
                           full_extent (l_dim L) g))
            else Err ValueError
        end
    end.
Definition get_full_field_nt (L : laser) (theta s : R) (sa : slice_ax) (Nt : option nat) : laser * res (option (ndarray * list R)) :=
  let r := with_field (l_grid L) (full_field_nt L theta s sa Nt) in (set_grid L (fst r), snd r).
