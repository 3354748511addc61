(** Vocabulary for C59, C60: profiles made from a measured spectrum. *)
From Verif Require Import PyBase NumPy NpMath GridModel DataModel LaserSpec FromArraySpec.
Open Scope R_scope.

(** Intensity-weighted mean. *)
Definition weighted_mean (wl si : list R) : R :=
  rsum (length wl) (fun i => vget si i * vget wl i) / rsum (length wl) (fun i => vget si i).
(** v is the value at frequency f of the data y given at the increasing wavelengths wl: linear in the
    frequency c/wavelength between the data points, zero outside. *)
Definition spectrum_value (wl y : list R) (f v : R) : Prop :=
  (f < c_light / last wl 0 -> v = 0) /\
  (c_light / vget wl 0 < f -> v = 0) /\
  (forall i, (S i < length wl)%nat -> c_light / vget wl (S i) <= f <= c_light / vget wl i ->
     (c_light / vget wl i - c_light / vget wl (S i)) * v =
     vget y i * (f - c_light / vget wl (S i)) + vget y (S i) * (c_light / vget wl i - f)).
(** Superposition of N monochromatic waves of intensities I_q, phases P_q and frequencies f_q at time t,
    as an envelope for the central frequency f0: sum_q sqrt(I_q) e^{-i P_q} e^{-2 pi i (f_q - f0) t}, the
    convention of the library (the field is the envelope times e^{-i omega0 t}). *)
Definition synthesis (N : nat) (I P f : nat -> R) (f0 t : R) : C :=
  csum N (fun q => Cmult (Cmult (RtoC (sqrt (I q))) (cis (- P q))) (cis (- (2 * PI * (f q - f0) * t)))).
(** The N sampled frequencies: they span 1/dt around f0. *)
Definition sample_freqs (f0 dt : R) (N q : nat) : R := coord (f0 - 1 / dt / 2) (f0 + 1 / dt / 2) N q.
(** The N sampled times: spacing dt. *)
Definition sample_time (dt : R) (N k : nat) : R := (INR k - INR N / 2) * dt.
(** The same frequencies of the discrete Fourier transform, mirrored about f0. *)
Definition mirrored_freqs (f0 dt : R) (N q : nat) : R := f0 - (INR q - INR (N / 2)) / (INR N * dt).
(** Number of samples: the integer part of the ratio between 1/dt and the frequency step of the data at
    the wavelength nearest to the central wavelength. *)
Definition sample_count (wl : list R) (dt cwl : R) (N : nat) : Prop :=
  exists a, nearest wl cwl a /\ (S a < length wl)%nat /\
    INR N <= 1 / dt / (c_light / vget wl a - c_light / vget wl (S a)) < INR N + 1.
(** Well-formed spectral data on increasing, positive wavelengths. *)
Definition spectrum_ok (wl int : list R) (ph : option (list R)) (dt : R) : Prop :=
  ascending wl = true /\ (forall i, (i < length wl)%nat -> 0 < vget wl i) /\ length int = length wl /\
  (forall p, ph = Some p -> length p = length wl) /\ 0 < dt.
