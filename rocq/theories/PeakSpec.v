(** Vocabulary of C97: total fluence of a beam and total duration of a pulse. *)
From Coquelicot Require Import Coquelicot.
From Verif Require Import PyBase LaserSpec NumPy GridModel LaserModel AnalyticModel.
Open Scope R_scope.

(** Lipschitz on every bounded set (as every continuously differentiable function is). *)
Definition tame1 (f : R -> R) : Prop := forall M, exists K, 0 <= K /\
  forall x x', Rabs x <= M -> Rabs x' <= M -> Rabs (f x - f x') <= K * Rabs (x - x').
Definition tame2 (f : R -> R -> R) : Prop := forall M, exists K, 0 <= K /\
  forall x x' y y', Rabs x <= M -> Rabs x' <= M -> Rabs y <= M -> Rabs y' <= M ->
    Rabs (f x y - f x' y') <= K * (Rabs (x - x') + Rabs (y - y')).

(** The integral of |trans|^2 over the plane is P: every rectangle with a large enough square
    inside gives a value close to P. *)
Definition beam_power (trans : R -> R -> C) (P : R) : Prop :=
  forall eps, 0 < eps -> exists W, 0 < W /\ forall x0 x1 y0 y1, x0 <= - W -> W <= x1 -> y0 <= - W -> W <= y1 ->
    Rabs (RInt (fun x => RInt (fun y => Cnorm2 (trans x y)) y0 y1) x0 x1 - P) < eps.
(** The integral of |long|^2 over all times is D. *)
Definition pulse_duration (long : R -> C) (D : R) : Prop :=
  forall eps, 0 < eps -> exists W, 0 < W /\ forall t0 t1, t0 <= - W -> W <= t1 ->
    Rabs (RInt (fun t => Cnorm2 (long t)) t0 t1 - D) < eps.
(** The amplitude that gives the shape trans(x,y) long(t) the energy E: E = s^2 (eps0 c / 2) P D. *)
Definition peak_factor (E P D : R) : R := sqrt (E / (eps0 / 2 * c_light * (P * D))).

(** The pulses of the library with a closed form, and their durations: Gaussian (tau sqrt(pi/2)) and cosine (its FWHM). *)
Definition library_pulse (l : R) (long : R -> C) (D : R) : Prop :=
  (exists tau tp cep, 0 < tau /\ long = gaussian_long l tau tp cep /\ D = tau * sqrt (PI / 2)) \/
  (exists fwhm tp cep, 0 < fwhm /\ long = cosine_long l fwhm tp cep /\ D = fwhm).
(** On every window that is large enough and every grid fine enough on it, construction succeeds and the stored field
    is s trans(x,y) long(t) at every cell, with s as close to s0 as desired. *)
Definition settles_xyt (p : profile) (nm : Z) (nte : option Z) (trans : R -> R -> C) (long : R -> C) (s0 : R) : Prop :=
  forall eps, 0 < eps -> exists W, 0 < W /\ forall x0 x1 y0 y1 t0 t1,
  x0 <= - W -> W <= x1 -> y0 <= - W -> W <= y1 -> t0 <= - W -> W <= t1 ->
  exists N, forall n0 n1 nt, (N <= n0)%nat -> (N <= n1)%nat -> (N <= nt)%nat ->
  exists L a s, laser_init Xyt [x0;y0;t0] [x1;y1;t1] [n0;n1;nt] p nm nte = Ok L /\
    snd (get_temporal_field (l_grid L)) = Ok a /\ Rabs (s - s0) < eps /\
    forall i j k, (i < n0)%nat -> (j < n1)%nat -> (k < nt)%nat ->
      at3 a i j k = Cmult (RtoC s) (Cmult (trans (coord x0 x1 n0 i) (coord y0 y1 n1 j)) (long (coord t0 t1 nt k))).
(** The same on cylindrical grids with M modes (azimuthal modes -M+1 .. M-1), at every angle. *)
Definition settles_rt (p : profile) (M : nat) (nte : option Z) (trans : R -> R -> C) (long : R -> C) (s0 : R) : Prop :=
  forall eps, 0 < eps -> exists W, 0 < W /\ forall r1 t0 t1, W <= r1 -> t0 <= - W -> W <= t1 ->
  exists N, forall n1 nt, (N <= n1)%nat -> (N <= nt)%nat ->
  exists L a s, laser_init Rt [0;t0] [r1;t1] [n1;nt] p (Z.of_nat M) nte = Ok L /\
    snd (get_temporal_field (l_grid L)) = Ok a /\ Rabs (s - s0) < eps /\
    forall j k theta, (j < n1)%nat -> (k < nt)%nat ->
      recon M (comp M a j k) theta =
      Cmult (RtoC s) (Cmult (trans (coord 0 r1 n1 j * cos theta) (coord 0 r1 n1 j * sin theta)) (long (coord t0 t1 nt k))).
