(** Specification vocabulary for C91: solutions of the wave equation, and what it means that a laser shows one. *)
From Coquelicot Require Import Coquelicot.
From Verif Require Import PyBase CSum NumPy GridModel GridSpec LaserSpec LaserModel.
Open Scope R_scope.

Definition lsum {A} (l : list A) (f : A -> C) : C := fold_right (fun a s => Cplus (f a) s) (RtoC 0) l.

(** ** Plane waves *)
(** A exp(i (kx x + ky y + kz z - w t)) with kz = sqrt((w/c)^2 - kx^2 - ky^2) (travelling towards +z). *)
Record pwave : Type := mkPW { pw_A : C; pw_kx : R; pw_ky : R; pw_w : R }.
Definition pw_kz (v : pwave) : R := sqrt ((pw_w v / c_light) ^ 2 - pw_kx v ^ 2 - pw_ky v ^ 2).
Definition plane_waves (ws : list pwave) (x y z t : R) : C :=
  lsum ws (fun v => Cmult (pw_A v) (cis (pw_kx v * x + pw_ky v * y + pw_kz v * z - pw_w v * t))).
(** The wave equation u_xx + u_yy + u_zz = u_tt / c^2, for the real and for the imaginary part. *)
Definition solves_wave_equation (u : R -> R -> R -> R -> C) : Prop :=
  forall part : C -> R, part = Re \/ part = Im -> forall x y z t, exists uxx uyy uzz utt,
    is_derive_n (fun x => part (u x y z t)) 2 x uxx /\ is_derive_n (fun y => part (u x y z t)) 2 y uyy /\
    is_derive_n (fun z => part (u x y z t)) 2 z uzz /\ is_derive_n (fun t => part (u x y z t)) 2 t utt /\
    uxx + uyy + uzz = utt / c_light ^ 2.
(** k is one of the wavenumbers of the discrete Fourier transform of n points spaced by h. *)
Definition lattice (n : nat) (h k : R) : Prop := exists u, (u < n)%nat /\ k = dft_omega n h u.
(** Time step of the laser's window, and spacing of its transverse axis q. *)
Definition time_step (L : laser) : R :=
  nth 1 (last (g_axes (l_grid L)) []) 0 - nth 0 (last (g_axes (l_grid L)) []) 0.
Definition axis_points (L : laser) (q : nat) : nat := length (nth q (g_axes (l_grid L)) []).
Definition axis_step (L : laser) (q : nat) : R :=
  spacing (nth q (g_lo (l_grid L)) 0) (nth q (g_hi (l_grid L)) 0) (axis_points L q).
(** A travelling wave that the grid and the time window of the laser can hold. *)
Definition fits_xyt (L : laser) (v : pwave) : Prop :=
  lattice (axis_points L 0) (axis_step L 0) (pw_kx v) /\ lattice (axis_points L 1) (axis_step L 1) (pw_ky v) /\
  lattice (axis_points L 2) (time_step L) (pw_w v - p_omega0 (l_prof L)) /\
  0 < pw_w v /\ pw_kx v ^ 2 + pw_ky v ^ 2 <= (pw_w v / c_light) ^ 2.
(** The laser is, at its grid points and times, the envelope (carrier exp(-i w0 t)) of u in the plane z. *)
Definition shows_xyt (L : laser) (u : R -> R -> R -> R -> C) (z : R) : Prop :=
  exists a, snd (get_temporal_field (l_grid L)) = Ok a /\
  forall i j k, (i < length (nth 0 (g_axes (l_grid L)) []))%nat -> (j < length (nth 1 (g_axes (l_grid L)) []))%nat ->
    (k < length (nth 2 (g_axes (l_grid L)) []))%nat ->
    let t := nth k (nth 2 (g_axes (l_grid L)) []) 0 in
    at3 a i j k = Cmult (u (nth i (nth 0 (g_axes (l_grid L)) []) 0) (nth j (nth 1 (g_axes (l_grid L)) []) 0) z t)
                        (cis (p_omega0 (l_prof L) * t)).

(** Contract of a Cartesian diffraction solver built for n points over an extent L, i.e. with spacing L / (n - 1):
    it is exact on superpositions of the travelling plane waves that the grid can hold. *)
Definition tr_waves (kk hx hy : R) (tw : list (C * (R * R))) (i j : nat) (d : R) : C :=
  lsum tw (fun v => let '(A, (kx, ky)) := v in
    Cmult A (cis (kx * (INR i * hx) + ky * (INR j * hy) + sqrt (kk ^ 2 - kx ^ 2 - ky ^ 2) * d))).
Definition exact_xyt (S : solvers) : Prop :=
  forall p k tw x d, (k < length (fp_k p))%nat ->
  0 < fst (fp_x p) -> 0 < fst (fp_y p) -> (2 <= snd (fp_x p))%nat -> (2 <= snd (fp_y p))%nat ->
  let kk := nth k (fp_k p) 0 in
  let nx := snd (fp_x p) in let ny := snd (fp_y p) in
  let hx := fst (fp_x p) / (INR nx - 1) in let hy := fst (fp_y p) / (INR ny - 1) in
  Forall (fun v => 0 < kk /\ lattice nx hx (fst (snd v)) /\ lattice ny hy (snd (snd v)) /\
                   fst (snd v) ^ 2 + snd (snd v) ^ 2 <= kk ^ 2) tw ->
  (forall i j, (i < nx)%nat -> (j < ny)%nat -> x k i j = tr_waves kk hx hy tw i j 0) ->
  forall i j, (i < nx)%nat -> (j < ny)%nat -> step_xyt S p x d k i j = tr_waves kk hx hy tw i j d.

(** ** Bessel waves *)
(** The Bessel function J_n(x), n >= 0, by its power series. *)
Definition bessel_coef (n : nat) (i : nat) : R := (-1) ^ i / (INR (fact i) * INR (fact (i + n))).
Definition bessel (n : nat) (x : R) : R := (x / 2) ^ n * PSeries (bessel_coef n) ((x / 2) ^ 2).
(** A J_|m|(kr r) exp(-i m theta) exp(i (kz z - w t)) with kz = sqrt((w/c)^2 - kr^2). *)
Record bwave : Type := mkBW { bw_A : C; bw_m : Z; bw_kr : R; bw_w : R }.
Definition bw_kz (v : bwave) : R := sqrt ((bw_w v / c_light) ^ 2 - bw_kr v ^ 2).
Definition bessel_waves (ws : list bwave) (r theta z t : R) : C :=
  lsum ws (fun v => Cmult (bw_A v) (Cmult (RtoC (bessel (Z.abs_nat (bw_m v)) (bw_kr v * r)))
                                          (cis (- (IZR (bw_m v) * theta) + bw_kz v * z - bw_w v * t)))).
(** The wave equation in cylindrical coordinates, off the axis. *)
Definition solves_cylindrical_wave_equation (u : R -> R -> R -> R -> C) : Prop :=
  forall part : C -> R, part = Re \/ part = Im -> forall r th z t, r <> 0 -> exists ur urr uhh uzz utt,
    is_derive (fun r => part (u r th z t)) r ur /\ is_derive_n (fun r => part (u r th z t)) 2 r urr /\
    is_derive_n (fun h => part (u r h z t)) 2 th uhh /\
    is_derive_n (fun z => part (u r th z t)) 2 z uzz /\ is_derive_n (fun t => part (u r th z t)) 2 t utt /\
    urr + ur / r + uhh / r ^ 2 + uzz = utt / c_light ^ 2.
(** The laser is, on its radii and times and at every angle, the envelope of u in the plane z. *)
Definition shows_rt (M : nat) (L : laser) (u : R -> R -> R -> R -> C) (z : R) : Prop :=
  exists a, snd (get_temporal_field (l_grid L)) = Ok a /\ dim0 a = (2 * M - 1)%nat /\
  forall j k theta, (j < length (nth 0 (g_axes (l_grid L)) []))%nat -> (k < length (nth 1 (g_axes (l_grid L)) []))%nat ->
    let t := nth k (nth 1 (g_axes (l_grid L)) []) 0 in
    recon M (comp M a j k) theta = Cmult (u (nth j (nth 0 (g_axes (l_grid L)) []) 0) theta z t) (cis (p_omega0 (l_prof L) * t)).

(** Contract of a radial diffraction solver: it is exact on superpositions of the Bessel waves it [supports] (the
    nodes of its discrete Hankel transform), and delivers them on the resampled radii if there are any. *)
Definition rt_out (p : rt_prop) : list R := match rp_rnew p with Some r => r | None => rp_r p end.
Definition radial_waves (kk : R) (m : Z) (tw : list (C * R)) (r d : R) : C :=
  lsum tw (fun v => let '(A, kr) := v in
    Cmult A (Cmult (RtoC (bessel (Z.abs_nat m) (kr * r))) (cis (sqrt (kk ^ 2 - kr ^ 2) * d)))).
Definition exact_rt (S : solvers) (supports : rt_prop -> R -> Prop) : Prop :=
  forall p k tw x d, (k < length (rp_k p))%nat -> (0 < length (rp_r p))%nat ->
  let kk := nth k (rp_k p) 0 in
  Forall (fun v => 0 < kk /\ supports p (snd v) /\ snd v ^ 2 <= kk ^ 2) tw ->
  (forall j, (j < length (rp_r p))%nat -> x k j = radial_waves kk (rp_mode p) tw (nth j (rp_r p) 0) 0) ->
  forall j, (j < length (rt_out p))%nat -> step_rt S p x d k j = radial_waves kk (rp_mode p) tw (nth j (rt_out p) 0) d.
(** A travelling wave with at most M modes that the time window can hold and that the solver built for the present
    radii (and the radii asked for, if any) supports, whatever the backend. *)
Definition fits_rt (M : nat) (supports : rt_prop -> R -> Prop) (L : laser) (rnew : option (list R)) (v : bwave) : Prop :=
  (Z.abs (bw_m v) < Z.of_nat M)%Z /\ lattice (axis_points L 1) (time_step L) (bw_w v - p_omega0 (l_prof L)) /\
  0 < bw_w v /\ bw_kr v ^ 2 <= (bw_w v / c_light) ^ 2 /\
  forall b, supports (mkRtProp (nth 0 (g_axes (l_grid L)) []) (map (fun w => w / c_light) (l_omega L)) rnew (bw_m v) b) (bw_kr v).
