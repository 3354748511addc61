(** Model of lasy/utils/openpmd_output.py, lasy/utils/openpmd_input.py and
    lasy/profiles/from_openpmd_profile.py. *)
From Coq Require Import String Ascii DecimalString.
From Verif Require Import PyBase NpFFT NumPy NpMath GridModel EnergyModel LaserModel AnalysisModel FromArrayModel.
Open Scope R_scope.

Inductive axlabel : Type := AxX | AxY | AxZ | AxT | AxR.

(** What is stored for the mesh "laserEnvelope" (openpmd_output.py:75-134). *)
Record mesh : Type := mkMesh {
  ms_geom : pydim;              (* cartesian / thetaMode *)
  ms_labels : list axlabel;
  ms_spacing : list R;
  ms_offset : list R;
  ms_omega : R;                 (* angularFrequency *)
  ms_pol : C * C;
  ms_vec : bool;                (* envelopeField = normalized_vector_potential *)
  ms_data : ndarray
}.

(** openpmd_output.py:105-109 np.transpose of a rank-3 array *)
Definition transpose3 (a : ndarray) : ndarray :=
  mkArr [dim2 a; dim1 a; dim0 a] (dty a) (fun p q s => at3 a s q p).
(** openpmd_output.py:110-125: conversion of the azimuthal modes, then (m,r,t) -> (m,t,r).
    array[-mode] is array[n0 - mode].  [data] has the dtype of the field, and numpy drops the imaginary
    part when a complex row is stored in a real array. *)
Definition mode_data (a : ndarray) (q r t : nat) : C :=
  if Nat.eqb q 0 then at3 a 0 r t
  else
    let m := Nat.div (q + 1) 2 in
    if Nat.odd q then Cplus (at3 a m r t) (at3 a (dim0 a - m)%nat r t)
    else Cplus (Cmult (Copp Ci) (at3 a m r t)) (Cmult Ci (at3 a (dim0 a - m)%nat r t)).
Definition theta_data (M : nat) (np : list nat) (a : ndarray) : ndarray :=
  mkArr [(2 * M - 1)%nat; nth 1 np 0%nat; nth 0 np 0%nat] (dty a) (fun q t r => cast (dty a) (mode_data a q r t)).

(** openpmd_output.py:76-80 *)
Fixpoint spacings (hi lo : list R) (np : list nat) : list R :=
  match hi, lo, np with
  | h :: hs, l :: ls, n :: ns => (h - l) / (INR n - 1) :: spacings hs ls ns
  | _, _, _ => []
  end.

(** openpmd_output.py:12-136 without the file-system calls: the mesh built from the grid. *)
Definition build_mesh (d : pydim) (g : grid) (wavelength : R) (pol : C * C) (save_a : bool) : grid * res mesh :=
  let r := get_temporal_field g in
  match snd r with
  | Err e => (fst r, Err e)
  | Ok a0 =>
      let w := 2 * PI * c_light / wavelength in
      let q := if save_a then field_to_vector_potential (fst r) w else (fst r, Ok a0) in
      match snd q with
      | Err e => (fst q, Err e)
      | Ok a =>
          let sp := rev (spacings (g_hi g) (g_lo g) (g_npoints g)) in
          let off := rev (g_lo g) in
          match d with
          | Rt =>
              match g_nmodes g with
              | None => (fst q, Err AttributeError)
              | Some M => (fst q, Ok (mkMesh Rt [AxT; AxR] sp off w pol save_a (theta_data M (g_npoints g) a)))
              end
          | _ => (fst q, Ok (mkMesh Xyt [AxT; AxY; AxX] sp off w pol save_a (transpose3 a)))
          end
      end
  end.

(** File names, openpmd_output.py:65-67: os.path.join(write_dir, "{}_%05T.{}"); the openPMD
    library expands %05T to the iteration number, zero-padded to at least 5 digits. *)
Fixpoint zeros_str (n : nat) : string := match n with O => ""%string | S k => String "0"%char (zeros_str k) end.
Definition digits (n : nat) : string := NilZero.string_of_uint (Nat.to_uint n).
Definition pad5 (n : nat) : string := (zeros_str (5 - String.length (digits n)) ++ digits n)%string.
Definition file_name (prefix fmt : string) (iteration : nat) : string :=
  (prefix ++ "_" ++ pad5 iteration ++ "." ++ fmt)%string.
Fixpoint last_char (s : string) : option ascii :=
  match s with EmptyString => None | String c EmptyString => Some c | String _ t => last_char t end.
(** posixpath.join *)
Definition path_join (d f : string) : string :=
  match f with
  | String "/" _ => f
  | _ => match last_char d with
         | None => f
         | Some "/"%char => (d ++ f)%string
         | Some _ => (d ++ "/" ++ f)%string
         end
  end.
Definition file_path (dir prefix fmt : string) (iteration : nat) : string :=
  path_join dir (file_name prefix fmt iteration).

(** The file system, seen through the openPMD library: at most one mesh per path.  [io] is the
    effect of creating the series, storing the mesh and closing (openpmd_output.py:68-75,127-136);
    without a mesh (None): an exception is raised after the series was created (in
    field_to_vector_potential, openpmd_output.py:102-103), so the file may already have been touched. *)
Definition fsys : Type := string -> option mesh.
Definition io_t : Type := fsys -> string -> option mesh -> fsys * res unit.

(** laser.py:360-396 write_to_file, with its effect on the file system. *)
Definition write_file (io : io_t) (L : laser) (fs : fsys) (dir prefix fmt : string) (save_a : bool)
  : laser * fsys * res unit :=
  let r := build_mesh (l_dim L) (l_grid L) (p_lambda0 (l_prof L)) (p_pol (l_prof L)) save_a in
  let L1 := set_grid L (fst r) in
  match snd r with
  | Err e =>
      match snd (get_temporal_field (l_grid L)) with
      | Err _ => (L1, fs, Err e)
      | Ok _ => (L1, fst (io fs (file_path dir prefix fmt (l_iter L)) None), Err e)
      end
  | Ok m =>
      let q := io fs (file_path dir prefix fmt (l_iter L)) (Some m) in
      match snd q with
      | Err e => (L1, fst q, Err e)
      | Ok _ => (mkLaser (l_dim L1) (l_grid L1) (l_prof L1) (l_iter L1 + 1) (l_omega L1) (l_prop L1), fst q, Ok tt)
      end
  end.

(** ** Reading: openpmd_viewer returns the stored array and, per axis, offset + i * spacing
    (mesh position 0). *)
Definition viewer_axis (off sp : R) (n : nat) : list R := map (fun i => off + INR i * sp) (seq 0 n).

(** The metadata used by reorder_array: axis labels in array order, and the coordinate arrays. *)
Record field_md : Type := mkMd { md_labels : list axlabel; md_axis : axlabel -> list R }.

Definition label_eqb (a b : axlabel) : bool :=
  match a, b with AxX, AxX | AxY, AxY | AxZ, AxZ | AxT, AxT | AxR, AxR => true | _, _ => false end.
Fixpoint labels_eqb (a b : list axlabel) : bool :=
  match a, b with
  | [], [] => true
  | x :: s, y :: t => andb (label_eqb x y) (labels_eqb s t)
  | _, _ => false
  end.

(** openpmd_input.py:55-61: (md.z - md.z[0]) / c *)
Definition z_to_t (z : list R) : list R := map (fun v => (v - vget z 0) / c_light) z.
(** np.flip(array, axis=-1) for rank 3 and rank 2 *)
Definition flip_last3 (a : ndarray) : ndarray := mkArr (shp a) (dty a) (fun i j k => at3 a i j (dim2 a - 1 - k)%nat).
Definition flip_last2 (a : ndarray) : ndarray := mkArr (shp a) (dty a) (fun i k q => at3 a i (dim1 a - 1 - k)%nat q).
(** array.swapaxes(0, 2) / swapaxes(0, 1) *)
Definition swap02 (a : ndarray) : ndarray := mkArr [dim2 a; dim1 a; dim0 a] (dty a) (fun i j k => at3 a k j i).
Definition swap01 (a : ndarray) : ndarray := mkArr [dim1 a; dim0 a] (dty a) (fun i k q => at3 a k i q).

(** openpmd_input.py:30-64 reorder_array_xyt: array and axes (x, y, t) *)
Definition reorder_array_xyt (a : ndarray) (md : field_md) : res (ndarray * list (list R)) :=
  let l := md_labels md in
  do _ <- pyassert (orb (orb (labels_eqb l [AxX; AxY; AxZ]) (labels_eqb l [AxZ; AxY; AxX]))
                        (orb (labels_eqb l [AxX; AxY; AxT]) (labels_eqb l [AxT; AxY; AxX])));
  let a1 := if orb (labels_eqb l [AxZ; AxY; AxX]) (labels_eqb l [AxT; AxY; AxX]) then swap02 a else a in
  if existsb (label_eqb AxZ) l
  then Ok (flip_last3 a1, [md_axis md AxX; md_axis md AxY; z_to_t (md_axis md AxZ)])
  else Ok (a1, [md_axis md AxX; md_axis md AxY; md_axis md AxT]).

(** openpmd_input.py:67-107 reorder_array_rt: array (r, t) and axes (r, t).  The sum of the two
    halves broadcasts: equal lengths, or the lower half of length 1; otherwise ValueError. *)
Definition reorder_array_rt (a : ndarray) (md : field_md) : res (ndarray * list (list R)) :=
  let l := md_labels md in
  do _ <- pyassert (orb (orb (labels_eqb l [AxR; AxZ]) (labels_eqb l [AxZ; AxR]))
                        (orb (labels_eqb l [AxR; AxT]) (labels_eqb l [AxT; AxR])));
  let a1 := if orb (labels_eqb l [AxZ; AxR]) (labels_eqb l [AxT; AxR]) then swap01 a else a in
  let a2 := if existsb (label_eqb AxZ) l then flip_last2 a1 else a1 in
  let t := if existsb (label_eqb AxZ) l then z_to_t (md_axis md AxZ) else md_axis md AxT in
  let rr := md_axis md AxR in
  let r := skipn (Nat.div (length rr) 2) rr in
  let n := dim0 a2 in
  let h := Nat.div n 2 in
  let up := fun i k => at3 a2 (h + i)%nat k 0%nat in
  let lowf := fun i k => at3 a2 (h - 1 - i)%nat k 0%nat in
  if Nat.eqb (n - h) h then
    Ok (mkArr [h; dim1 a2] (dty a2) (fun i k _ => Cmult (RtoC (/ 2)) (Cplus (up i k) (lowf i k))), [r; t])
  else if Nat.eqb h 1 then
    Ok (mkArr [(n - h)%nat; dim1 a2] (dty a2) (fun i k _ => Cmult (RtoC (/ 2)) (Cplus (up i k) (lowf 0%nat k))), [r; t])
  else if Nat.eqb (n - h) 1 then        (* n = 1: upper half of length 1 broadcasts to length 0 *)
    Ok (mkArr [h; dim1 a2] (dty a2) (fun i k _ => Cmult (RtoC (/ 2)) (Cplus (up 0%nat k) (lowf i k))), [r; t])
  else Err ValueError.

(** from_openpmd_profile.py:84-126 for an envelope stored in cartesian geometry (theta=None,
    is_envelope true): the mesh read back from [m]. *)
Definition md_of_xyt (m : mesh) : field_md :=
  let ax q n := viewer_axis (vget (ms_offset m) q) (vget (ms_spacing m) q) n in
  mkMd (ms_labels m)
       (fun l => match l with
                 | AxT => ax 0%nat (dim0 (ms_data m))
                 | AxY => ax 1%nat (dim1 (ms_data m))
                 | AxX => ax 2%nat (dim2 (ms_data m))
                 | _ => []
                 end).
Definition from_openpmd_xyt (m : mesh) (pol : C * C) : res profile :=
  do fa <- reorder_array_xyt (ms_data m) (md_of_xyt m);
  match snd fa with
  | [xs; ys; ts] => from_array_xyt (2 * PI * c_light / ms_omega m) pol (fst fa) xs ys ts SpaceTime
  | _ => Err OtherException
  end.
