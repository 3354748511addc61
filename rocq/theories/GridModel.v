(** Model of lasy/utils/grid.py. *)
From Verif Require Import PyBase NpFFT NumPy.
Open Scope R_scope.

(** The [dim] argument: the two accepted strings, or any other string. *)
Inductive pydim : Type := Rt | Xyt | OtherDim.

(** grid.py:6-73 (class Grid): the instance attributes.
    [g_nmodes]/[g_modes] are attributes only in rt geometry (None otherwise). *)
Record grid : Type := mkGrid {
  g_lo : list R;                  (* self.lo *)
  g_hi : list R;                  (* self.hi *)
  g_npoints : list nat;           (* self.npoints *)
  g_axes : list (list R);         (* self.axes *)
  g_dx : list R;                  (* self.dx *)
  g_nmodes : option nat;          (* self.n_azimuthal_modes *)
  g_modes : option (list Z);      (* self.azimuthal_modes *)
  g_shape : list nat;             (* self.shape *)
  g_isenv : bool;                 (* self.is_envelope *)
  g_dtype : dtype;                (* self.dtype *)
  g_tf : ndarray;                 (* self.temporal_field *)
  g_tv : bool;                    (* self.temporal_field_valid *)
  g_sf : ndarray;                 (* self.spectral_field *)
  g_sv : bool                     (* self.spectral_field_valid *)
}.

(** Functional record updates. *)
Definition with_t (g : grid) (tf : ndarray) (tv : bool) (sv : bool) : grid :=
  mkGrid (g_lo g) (g_hi g) (g_npoints g) (g_axes g) (g_dx g) (g_nmodes g) (g_modes g)
         (g_shape g) (g_isenv g) (g_dtype g) tf tv (g_sf g) sv.
Definition with_s (g : grid) (sf : ndarray) (sv : bool) (tv : bool) : grid :=
  mkGrid (g_lo g) (g_hi g) (g_npoints g) (g_axes g) (g_dx g) (g_nmodes g) (g_modes g)
         (g_shape g) (g_isenv g) (g_dtype g) (g_tf g) tv sf sv.
Definition with_domain (g : grid) (lo hi : list R) (axes : list (list R)) : grid :=
  mkGrid lo hi (g_npoints g) axes (g_dx g) (g_nmodes g) (g_modes g)
         (g_shape g) (g_isenv g) (g_dtype g) (g_tf g) (g_tv g) (g_sf g) (g_sv g).

(** grid.py:57-59: np.r_[np.arange(M), np.arange(-M+1, 0, 1)] *)
Definition azimuthal_modes (M : Z) : list Z := zarange 0 M ++ zarange (- M + 1) 0.

(** grid.py:76-92 dtype selection *)
Definition dtype_of_env (b : bool) : dtype := if b then Complex128 else Float64.

(** grid.py:51-53: the loop building axes and dx. numpy/Python raise IndexError when
    npoints is too short or an axis has fewer than two points. *)
Fixpoint build_axes (ndims : nat) (i : nat) (lo hi : list R) (npoints : list nat)
  : res (list (list R) * list R) :=
  match ndims with
  | O => Ok ([], [])
  | S nd =>
      match nth_error npoints i with
      | None => Err IndexError
      | Some n =>
          let ax := linspace (vget lo i) (vget hi i) n in
          match nth_error ax 1 with
          | None => Err IndexError
          | Some a1 =>
              do r <- build_axes nd (S i) lo hi npoints;
              Ok (ax :: fst r, (a1 - vget ax 0) :: snd r)
          end
      end
  end.

(** grid.py:39-74 Grid.__init__.  [nm] is the n_azimuthal_modes argument (None or an int);
    is_envelope is a bool (the [assert is_envelope in [True, False]] always holds then).
    np.zeros raises ValueError on a negative dimension; np.arange(None) raises TypeError. *)
Definition grid_init (d : pydim) (lo hi : list R) (npoints : list nat)
           (nm : option Z) (isenv : bool) : res grid :=
  let ndims := match d with Rt => 2%nat | _ => 3%nat end in
  do _ <- pyassert (match d with OtherDim => false | _ => true end);
  do _ <- pyassert (Nat.eqb (length lo) ndims);
  do _ <- pyassert (Nat.eqb (length hi) ndims);
  do ad <- build_axes ndims 0 lo hi npoints;
  let dt := dtype_of_env isenv in
  match d with
  | Rt =>
      match nm with
      | None => Err TypeError
      | Some M =>
          if Z.ltb (2 * M - 1) 0 then Err ValueError
          else
            let shape := [Z.to_nat (2 * M - 1); nth 0 npoints 0%nat; nth 1 npoints 0%nat] in
            Ok (mkGrid lo hi npoints (fst ad) (snd ad) (Some (Z.to_nat M))
                       (Some (azimuthal_modes M)) shape isenv dt
                       (zeros shape dt) false (zeros shape Complex128) false)
      end
  | _ =>
      Ok (mkGrid lo hi npoints (fst ad) (snd ad) None None npoints isenv dt
                 (zeros npoints dt) false (zeros npoints Complex128) false)
  end.

(** grid.py:76-92 set_is_envelope (on a constructed grid: temporal_field exists).
    Note that the validity flags and the spectral field are left alone. *)
Definition set_is_envelope (g : grid) (b : bool) : grid :=
  let dt := dtype_of_env b in
  mkGrid (g_lo g) (g_hi g) (g_npoints g) (g_axes g) (g_dx g) (g_nmodes g) (g_modes g)
         (g_shape g) b dt (astype dt (g_tf g)) (g_tv g) (g_sf g) (g_sv g).

(** grid.py:94-107 set_temporal_field.  [self.temporal_field[:,:,:] = field] stores into
    the existing buffer, i.e. casts to the buffer's dtype. *)
Definition set_temporal_field (g : grid) (field : ndarray) : grid * res unit :=
  if negb (shape_eqb (shp field) (shp (g_tf g))) then (g, Err AssertionError)
  else if negb (dtype_eqb (dty field) (g_dtype g)) then (g, Err AssertionError)
  else (with_t g (mkArr (shp (g_tf g)) (dty (g_tf g))
                        (fun i j k => cast (dty (g_tf g)) (at3 field i j k))) true false,
        Ok tt).

(** grid.py:109-122 set_spectral_field *)
Definition set_spectral_field (g : grid) (field : ndarray) : grid * res unit :=
  if negb (shape_eqb (shp field) (shp (g_sf g))) then (g, Err AssertionError)
  else if negb (dtype_eqb (dty field) Complex128) then (g, Err AssertionError)
  else (with_s g (mkArr (shp (g_sf g)) (dty (g_sf g)) (at3 field)) true false, Ok tt).

(** grid.py:169-179 temporal2spectral_fft: rebinds spectral_field, keeps temporal valid. *)
Definition temporal2spectral_fft (g : grid) : grid :=
  with_s g (np_ifft_last (g_tf g)) true (g_tv g).

(** grid.py:181-191 spectral2temporal_fft *)
Definition spectral2temporal_fft (g : grid) : grid :=
  with_t g (np_fft_last (g_sf g)) true (g_sv g).

(** grid.py:124-144 get_temporal_field *)
Definition get_temporal_field (g : grid) : grid * res ndarray :=
  if g_tv g then (g, Ok (g_tf g))
  else if g_sv g then let g' := spectral2temporal_fft g in (g', Ok (g_tf g'))
  else (g, Err ValueError).

(** grid.py:146-167 get_spectral_field *)
Definition get_spectral_field (g : grid) : grid * res ndarray :=
  if negb (g_isenv g) then (g, Err AssertionError)
  else if g_sv g then (g, Ok (g_sf g))
  else if g_tv g then let g' := temporal2spectral_fft g in (g', Ok (g_sf g'))
  else (g, Err ValueError).
