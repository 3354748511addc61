(** Vocabulary for get_spectrum (C70-C72). *)
From Verif Require Import PyBase CSum NumPy GridModel LaserSpec EnergyModel SpectrumModel.
Open Scope R_scope.

(** Sum over the N samples of x(t) exp(+i w t) dt, times counted from the first sample. *)
Definition fourier (N : nat) (dt : R) (x : nat -> C) (w : R) : C :=
  Cmult (RtoC dt) (csum N (fun n => Cmult (x n) (cis (w * (INR n * dt))))).
(** Spectral energy density (J per rad Hz and m^2, positive frequencies only) of an amplitude. *)
Definition density (z : C) : R := eps0 * c_light / PI * Cnorm2 z.
(** The temporal field f of the grid g has N samples separated by dt. *)
Definition sampled (g : grid) (f : ndarray) (N : nat) (dt : R) : Prop :=
  snd (get_temporal_field g) = Ok f /\ shp f = g_shape g /\ length (shp f) = 3%nat /\ nth 2 (shp f) 0%nat = N /\ (2 <= N)%nat /\
  0 < dt /\ last (g_dx g) 0 = dt /\
  forall k, (S k < N)%nat -> vget (last (g_axes g) []) (S k) - vget (last (g_axes g) []) k = dt.
(** Area of the transverse cell (i,j): dx dy, or 2 pi r dr (r index j). *)
Definition area (d : pydim) (g : grid) (j : nat) : R :=
  match d with
  | Xyt => nth 0 (g_dx g) 0 * nth 1 (g_dx g) 0
  | _ => 2 * PI * vget (nth 0 (g_axes g) []) j * nth 0 (g_dx g) 0
  end.
(** v is, for the method m, the spectrum made of the amplitudes amp i j w at the frequencies om:
    - raw: the complex amplitudes at every transverse point;
    - on_axis: the density at the central point (first radial point of mode 0 for rt);
    - sum: the density integrated over the transverse plane (over mode 0 only for rt);
    - any other string: the density at every transverse point. *)
Definition is_spectrum (d : pydim) (g : grid) (f : ndarray) (m : spmethod) (amp : nat -> nat -> R -> C) (om : list R) (v : spout) : Prop :=
  let n0 := nth 0 (shp f) 0%nat in let n1 := nth 1 (shp f) 0%nat in let K := length om in
  match m, v with
  | MRaw, Sp3 a => shp a = [n0; n1; K] /\ dty a = Complex128 /\
      forall i j q, (i < n0)%nat -> (j < n1)%nat -> (q < K)%nat -> at3 a i j q = amp i j (nth q om 0)
  | MOther, Sp3 a => shp a = [n0; n1; K] /\ dty a = Float64 /\
      forall i j q, (i < n0)%nat -> (j < n1)%nat -> (q < K)%nat -> at3 a i j q = RtoC (density (amp i j (nth q om 0)))
  | MOnAxis, Sp1 l => length l = K /\ forall q, (q < K)%nat ->
      nth q l 0 = match d with Xyt => density (amp (n0 / 2)%nat (n1 / 2)%nat (nth q om 0)) | _ => density (amp 0%nat 0%nat (nth q om 0)) end
  | MSum, Sp1 l => length l = K /\ forall q, (q < K)%nat ->
      nth q l 0 = match d with
                  | Xyt => rsum n0 (fun i => rsum n1 (fun j => area d g j * density (amp i j (nth q om 0))))
                  | _ => rsum n1 (fun j => area d g j * density (amp 0%nat j (nth q om 0)))
                  end
  | _, _ => False
  end.
(** The frequencies of the discrete spectrum of N samples. *)
Definition dft_freq (N : nat) (dt w : R) : Prop :=
  exists z : Z, (- Z.of_nat N <= 2 * z < Z.of_nat N)%Z /\ w = 2 * PI * IZR z / (INR N * dt).
