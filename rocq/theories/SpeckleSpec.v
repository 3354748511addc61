(** Vocabulary for C54, C63-C67 (speckles). *)
From Verif Require Import PyBase NpMath SpeckleModel.
Open Scope R_scope.

(** Arrays of a Cartesian grid: x depends on the first index only, etc. *)
Definition cartesian (x y t : nat -> nat -> nat -> R) (xs ys ts : nat -> R) : Prop :=
  forall i j k, x i j k = xs i /\ y i j k = ys j /\ t i j k = ts k.
(** Arrays of a cylindrical grid (angle, radius, time), as the constructor of Laser builds them. *)
Definition cylindrical (x y t : nat -> nat -> nat -> R) (theta rs ts : nat -> R) : Prop :=
  forall i j k, x i j k = rs j * cos (theta i) /\ y i j k = rs j * sin (theta i) /\ t i j k = ts k.
(** sin(u)/u *)
Definition sinc (u : R) : R := if Reqb u 0 then 1 else sin u / u.
(** Transverse wavenumber of beamlet m of n: n beamlets, centred, over the aperture D. *)
Definition k_perp (lambda f D : R) (n m : nat) : R := - (2 * PI / (lambda * f)) * (D / INR n) * (INR m - (INR n - 1) / 2).
(** The documented double sum of beamlets with complex amplitudes A m l and plate phases phi m l. *)
Definition beamlet_sum (lambda f : R) (D : R * R) (n : nat * nat) (A : nat -> nat -> C) (phi : nat -> nat -> R) (x y : R) : C :=
  csum (fst n) (fun m => csum (snd n) (fun l =>
    Cmult (A m l) (cis (k_perp lambda f (fst D) (fst n) m * x + k_perp lambda f (snd D) (snd n) l * y + phi m l)))).
(** sinc(pi x / Delta x) sinc(pi y / Delta y), Delta = lambda f N / D. *)
Definition sinc_envelope (lambda f : R) (D : R * R) (n : nat * nat) (x y : R) : R :=
  sinc (PI * x / (lambda * f * INR (fst n) / fst D)) * sinc (PI * y / (lambda * f * INR (snd n) / snd D)).
(** Time in optical cycles. *)
Definition cycles (lambda t : R) : R := t * c_light / lambda.
(** The phase of smoothing by spectral dispersion at time tau (in cycles), with modulation amplitudes
    [delta], colour cycles [ncc], relative frequencies [nu] and random offsets [th]. *)
Definition psi_ssd (delta ncc nu th : R * R) (n : nat * nat) (tau : R) (m l : nat) : R :=
  fst delta * sin (fst th + 2 * PI * fst nu * tau - 2 * PI * (INR m - (INR (fst n) - 1) / 2) * fst ncc / INR (fst n)) +
  snd delta * sin (snd th + 2 * PI * snd nu * tau - 2 * PI * (INR l - (INR (snd n) - 1) / 2) * snd ncc / INR (snd n)).
(** Relative modulation frequencies: bandwidth * share / (2 delta), shares a/|(a,b)| and b/|(a,b)|. *)
Definition ssd_nu (bw : R) (delta distr : R * R) : R * R :=
  (bw * (fst distr / sqrt (fst distr ^ 2 + snd distr ^ 2)) / (2 * fst delta),
   bw * (snd distr / sqrt (fst distr ^ 2 + snd distr ^ 2)) / (2 * snd delta)).
(** Piecewise-linear function through values p q at the times q*dt. *)
Definition linear_through (psi : R -> R) (dt : R) (n : nat) (p : nat -> R) : Prop :=
  forall q u, (S q < n)%nat -> INR q * dt <= u <= INR (S q) * dt -> psi u = p q + (p (S q) - p q) * ((u - INR q * dt) / dt).
(** The phase at sample q of a complex series: (Re + Im)/sqrt 2. *)
Definition quadrature (s : nat -> C) (q : nat) : R := (Re (s q) + Im (s q)) / sqrt 2.
