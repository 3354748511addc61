(** Model of the profiles made from measured data:
    lasy/utils/exp_data_utils.py, lasy/profiles/transverse/transverse_profile_from_data.py,
    lasy/profiles/longitudinal/longitudinal_profile_from_data.py. *)
From Verif Require Import PyBase NumPy NpFFT NpMath GridModel AnalysisModel.
Open Scope R_scope.

(** ** numpy *)
(** np.argmin: index of the first smallest element. *)
Fixpoint argmin (l : list R) : nat :=
  match l with
  | [] => 0%nat
  | x :: t => match t with [] => 0%nat | _ => let i := argmin t in if Rleb x (vget t i) then 0%nat else S i end
  end.
(** l[a:b] for 0 <= a, b *)
Definition slice {A} (l : list A) (a b : nat) : list A := firstn (b - a) (skipn a l).
(** np.interp(t, xp, fp): constant outside the range (xp increasing; numpy does not check).  An empty
    xp, or arrays of different lengths, raise ValueError. *)
Definition np_interp_with (left right : R -> R) (xp fp : list R) (t : R) : res R :=
  match xp with
  | [] => Err ValueError
  | x0 :: _ =>
      if (length xp =? length fp)%nat then
        Ok (if Rltb t x0 then left (vget fp 0) else if Rltb (last xp 0) t then right (last fp 0)
            else if Reqb t (last xp 0) then last fp 0 else interp1 xp (vget fp) t)
      else Err ValueError
  end.
Definition np_interp : list R -> list R -> R -> res R := np_interp_with (fun v => v) (fun v => v).
(** np.interp(..., left=0, right=0) *)
Definition np_interp0 : list R -> list R -> R -> res R := np_interp_with (fun _ => 0) (fun _ => 0).
(** np.roll(x, s)[i] = x[(i - s) mod n] *)
Definition roll_index (n : nat) (s : Z) (i : nat) : nat := Z.to_nat ((Z.of_nat i - s) mod Z.of_nat n).
(** np.fft.fftshift, ifftshift of a 1D array of length n *)
Definition fftshift1 {A} (n : nat) (x : nat -> A) (i : nat) : A := x (roll_index n (Z.of_nat (n / 2)) i).
Definition ifftshift1 {A} (n : nat) (x : nat -> A) (i : nat) : A := x (roll_index n (- Z.of_nat (n / 2)) i).

(** ** Images *)
Record image : Type := mkImg { im_rows : nat; im_cols : nat; im_at : nat -> nat -> R }.
(** np.sum(img) *)
Definition im_sum (f : image) : R := rsum (im_rows f) (fun i => rsum (im_cols f) (fun j => im_at f i j)).
(** np.sum(np.dot(img, v)) *)
Definition im_dot (f : image) (v : nat -> R) : R := rsum (im_rows f) (fun i => rsum (im_cols f) (fun j => im_at f i j * v j)).
(** img.T *)
Definition im_T (f : image) : image := mkImg (im_cols f) (im_rows f) (fun i j => im_at f j i).
(** np.linspace(0, n - 1, n) *)
Definition pixels (n : nat) (i : nat) : R := vget (linspace 0 (INR n - 1) n) i.
(** exp_data_utils.py:20-29 *)
Definition find_center_of_mass (f : image) : R * R :=
  (im_dot f (pixels (im_cols f)) / im_sum f, im_dot (im_T f) (pixels (im_rows f)) / im_sum f).
(** exp_data_utils.py:47-57 *)
Definition find_d4sigma (f : image) : R * R :=
  let '(x0, y0) := find_center_of_mass f in
  (4 * sqrt (im_dot f (fun j => (pixels (im_cols f) j - x0) ^ 2) / im_sum f),
   4 * sqrt (im_dot (im_T f) (fun i => (pixels (im_rows f) i - y0) ^ 2) / im_sum f)).

(** np.roll(np.roll(img, sx, axis=1), sy, axis=0) *)
Definition im_roll (f : image) (sx sy : Z) : image :=
  mkImg (im_rows f) (im_cols f) (fun i j => im_at f (roll_index (im_rows f) sy i) (roll_index (im_cols f) sx j)).
(** transverse_profile_from_data.py:56-67: by how many pixels the image is rolled *)
Definition center_shift (f : image) : Z * Z :=
  let '(x0, y0) := find_center_of_mass f in
  ((- py_int (x0 - INR (im_cols f) / 2))%Z, (- py_int (y0 - INR (im_rows f) / 2))%Z).
Definition centered (f : image) : image := im_roll f (fst (center_shift f)) (snd (center_shift f)).
(** transverse_profile_from_data.py:46-102.  The image is copied (astype) before being normalised in
    place.  Result: _evaluate. *)
Definition transverse_from_data (f : image) (lo hi : R * R) (center_data : bool) : res (R -> R -> C) :=
  let n_y := im_rows f in let n_x := im_cols f in
  let dx := (fst hi - fst lo) / INR n_x in
  let dy := (snd hi - snd lo) / INR n_y in
  let '(x_data, y_data, g) :=
    if center_data then
      let xr := Rabs (fst hi - fst lo) in let yr := Rabs (snd hi - snd lo) in
      (linspace (- xr / 2) (xr / 2) n_x, linspace (- yr / 2) (yr / 2) n_y, centered f)
    else (linspace (fst lo) (fst hi) n_x, linspace (snd lo) (snd hi) n_y, f) in
  let s := im_sum g * dx * dy in
  if negb (andb (monotone y_data) (monotone x_data)) then Err ValueError
  else Ok (fun x y =>
    if andb (in_axis_m y_data y) (in_axis_m x_data x)
    then RtoC (interp2 y_data x_data (fun i j => sqrt (im_at g i j / s)) y x) else RtoC 0).

(** ** Longitudinal data *)
Record long_data : Type := mkLD { ld_wavelength : R; ld_time : list R; ld_int : list R; ld_phase : list R }.
(** longitudinal_profile_from_data.py:141-151 *)
Definition crop_data (cwl : R) (time int phase : list R) (lo hi : R) : res long_data :=
  match time with
  | [] => Err ValueError   (* np.argmin of an empty array *)
  | _ =>
      let a := argmin (map (fun t => Rabs (t - lo)) time) in
      let b := argmin (map (fun t => Rabs (t - hi)) time) in
      Ok (mkLD cwl (slice time a b) (slice int a b) (slice phase a b))
  end.
(** lines 129-136: datatype "temporal".  data["phase"] may be missing or None. *)
Definition long_temporal (time int : list R) (phase : option (list R)) (wavelength lo hi : R) : res long_data :=
  crop_data wavelength time int (match phase with Some p => p | None => map (fun _ => 0) time end) lo hi.
(** lines 168-173 evaluate at one time *)
Definition long_evaluate (d : long_data) (t : R) : res C :=
  do i <- np_interp (ld_time d) (ld_int d) t;
  do p <- np_interp (ld_time d) (ld_phase d) t;
  Ok (Cmult (RtoC (sqrt i)) (cis (- p))).

Definition lsum_list (l : list R) : R := fold_right Rplus 0 l.
Fixpoint map2 {A B D} (f : A -> B -> D) (l : list A) (m : list B) : list D :=
  match l, m with x :: l, y :: m => f x y :: map2 f l m | _, _ => [] end.
Fixpoint seq_res {A} (l : list (res A)) : res (list A) :=
  match l with [] => Ok [] | x :: l => do a <- x; do r <- seq_res l; Ok (a :: r) end.
(** lines 103-117: the spectral field sampled on freq, exp(-i phase) *)
Definition spectral_field (wl si ph freq : list R) : res (list C) :=
  let fx := map (fun w => c_light / w) (rev wl) in
  do fi <- seq_res (map (np_interp0 fx (rev si)) freq);
  do fp <- seq_res (map (np_interp0 fx (rev ph)) freq);
  Ok (map2 (fun i p => Cmult (RtoC (sqrt i)) (cis (- p))) fi fp).
(** lines 113-120: t_amplitude *)
Definition t_amplitude (dt : R) (spec : list C) (k : nat) : C :=
  let N := length spec in
  Cdiv (fftshift1 N (ifft1 N (ifftshift1 N (fun q => nth q spec (RtoC 0)))) k) (RtoC dt).
(** lines 90-127 and 141-151, from wavelengths in increasing order; with N <= 0 points numpy raises. *)
Definition spectral_core (wl si ph : list R) (dt lo hi : R) : res long_data :=
  let cwl := lsum_list (map2 Rmult si wl) / lsum_list si in
  let cfreq := c_light / cwl in
  let sample_freq := 1 / dt in
  match wl with
  | [] => Err ValueError
  | _ =>
      let indx := argmin (map (fun w => Rabs (w - cwl)) wl) in
      if (S indx <? length wl)%nat then
        let dfreq := Rabs (c_light / vget wl indx - c_light / vget wl (S indx)) in
        let Nz := py_int (sample_freq / dfreq) in
        if Z.leb Nz 0 then Err ValueError
        else
          let N := Z.to_nat Nz in
          let freq := linspace (cfreq - sample_freq / 2) (cfreq + sample_freq / 2) N in
          do spec <- spectral_field wl si ph freq;
          let ta := t_amplitude dt spec in
          let time := linspace (- dt * INR N / 2) (dt * INR N / 2 - dt) N in
          let ti0 := map (fun k => Cmod (ta k) ^ 2) (seq 0 N) in
          let ti := map (fun v => v / rmaxl ti0) ti0 in
          let tp0 := map (unwrap (fun k => - angle (ta k))) (seq 0 N) in
          let k0 := argmin (map Rabs time) in
          let tp := map (fun p => p - vget tp0 k0) tp0 in
          crop_data cwl time ti tp lo hi
      else Err IndexError
  end.
(** lines 67-89: datatype "spectral".  [axis_is_wavelength] defaults to True.  Axis and intensity of
    different lengths raise in numpy. *)
Definition long_spectral (axis intensity : list R) (phase : option (list R)) (axis_is_wavelength : bool)
           (dt lo hi : R) : res long_data :=
  let wl := if axis_is_wavelength then axis else map (fun w => 2 * PI * c_light / w) axis in
  let si := if axis_is_wavelength then intensity else map2 (fun i w => i * 2 * PI * c_light / w ^ 2) intensity wl in
  let ph := match phase with Some p => p | None => map (fun _ => 0) wl end in
  if negb (length axis =? length intensity)%nat then Err ValueError
  else if negb (orb (ascending wl) (descending wl)) then Err AssertionError
  else if descending wl then spectral_core (rev wl) (rev si) (rev ph) dt lo hi
  else spectral_core wl si ph dt lo hi.
