(** C90: the 'sum' spectrum returned by get_spectrum for a sampled laser approaches the spectrum of the continuous
    pulse; for a GaussianProfile, the textbook Gaussian spectrum. *)
From Coquelicot Require Import Coquelicot.
From Coq Require Import Sorting.Sorted.
From Verif Require Import PyBase CSum NpFFT NumPy GridModel GridSpec LaserSpec EnergyModel LaserModel LaserOps
  ConvergeSpec AnalysisModel SpectrumModel FullSpectrumSpec AnalyticModel AnalyticProofs GaussLaser SpecConvSpec SpecConvLaser GaussSpectrum.
Open Scope R_scope.

(** Any profile with Lipschitz envelope on a Cartesian grid, with or without a requested energy: uniformly over the
    returned frequencies within V of w0. *)
Theorem C90_xyt :
  forall K lo hi p nm nte w0 V bins,
  let U := U_xyt (nth 0 lo 0) (nth 0 hi 0) (nth 1 lo 0) (nth 1 hi 0) (nth 2 lo 0) (nth 2 hi 0) (p_eval p) in
  length lo = 3%nat -> length hi = 3%nat ->
  nth 0 lo 0 < nth 0 hi 0 -> nth 1 lo 0 < nth 1 hi 0 -> nth 2 lo 0 < nth 2 hi 0 ->
  energy_request_ok (p_energy p) -> p_dtype p = Complex128 -> 0 <= K ->
  lip_field K (nth 0 lo 0) (nth 0 hi 0) (nth 1 lo 0) (nth 1 hi 0) (nth 2 lo 0) (nth 2 hi 0) (p_eval p) ->
  0 < U ->
  forall eps, 0 < eps -> exists N, forall n0 n1 nt, (N <= n0)%nat -> (N <= n1)%nat -> (N <= nt)%nat ->
  exists L l om, laser_init Xyt lo hi [n0;n1;nt] p nm nte = Ok L /\
    snd (get_spectrum Xyt (l_grid L) None bins (Some w0) MSum) = Ok (Sp1 l, om) /\
    StronglySorted Rlt om /\ (forall w, In w om <-> 0 <= w /\ dft_freq nt (spacing (nth 2 lo 0) (nth 2 hi 0) nt) (w0 - w)) /\
    length l = length om /\
    forall q, (q < length om)%nat -> let v := nth q om 0 - w0 in Rabs v <= V ->
      Rabs (nth q l 0 - energy_scale (p_energy p) U *
        spectrum_xyt (nth 0 lo 0) (nth 0 hi 0) (nth 1 lo 0) (nth 1 hi 0) (nth 2 lo 0) (nth 2 hi 0) (p_eval p) v) < eps.
Proof. exact c90_xyt. Qed.
Print Assumptions C90_xyt.

(** Any axisymmetric profile on a cylindrical grid, with any number of modes. *)
Theorem C90_rt :
  forall K lo hi p (M : nat) nte w0 V bins,
  let U := U_rt (nth 0 lo 0) (nth 0 hi 0) (nth 1 lo 0) (nth 1 hi 0) (p_eval p) in
  length lo = 2%nat -> length hi = 2%nat -> (1 <= M)%nat ->
  0 <= nth 0 lo 0 -> nth 0 lo 0 < nth 0 hi 0 -> nth 1 lo 0 < nth 1 hi 0 ->
  energy_request_ok (p_energy p) -> 0 <= K ->
  lip_field K (- nth 0 hi 0) (nth 0 hi 0) (- nth 0 hi 0) (nth 0 hi 0) (nth 1 lo 0) (nth 1 hi 0) (p_eval p) ->
  axisymmetric (p_eval p) ->
  (2 * Z.of_nat M - 1 <= match nte with None => 2 * Z.of_nat M - 1 | Some n => n end)%Z ->
  0 < U ->
  forall eps, 0 < eps -> exists N, forall n1 nt, (N <= n1)%nat -> (N <= nt)%nat ->
  exists L l om, laser_init Rt lo hi [n1;nt] p (Z.of_nat M) nte = Ok L /\
    snd (get_spectrum Rt (l_grid L) None bins (Some w0) MSum) = Ok (Sp1 l, om) /\
    StronglySorted Rlt om /\ (forall w, In w om <-> 0 <= w /\ dft_freq nt (spacing (nth 1 lo 0) (nth 1 hi 0) nt) (w0 - w)) /\
    length l = length om /\
    forall q, (q < length om)%nat -> let v := nth q om 0 - w0 in Rabs v <= V ->
      Rabs (nth q l 0 - energy_scale (p_energy p) U *
        spectrum_rt (nth 0 lo 0) (nth 0 hi 0) (nth 1 lo 0) (nth 1 hi 0) (p_eval p) v) < eps.
Proof. exact c90_rt. Qed.
Print Assumptions C90_rt.

(** GaussianProfile: E tau / sqrt(2 pi) exp(-tau^2 v^2 / 2) once the time window is long enough. *)
Theorem C90_gaussian_xyt :
  forall l px py E w0 tau tp cep zf p nm nte x0 x1 y0 y1 V bins,
  gaussian_profile l [px; py] (Some E) w0 tau tp cep zf = Ok p ->
  0 < l -> 0 < w0 -> 0 < tau -> 0 <= E -> x0 < x1 -> y0 < y1 ->
  forall eps, 0 < eps -> exists T, 0 < T /\ forall t0 t1, t0 <= tp - T -> tp + T <= t1 ->
  exists N, forall n0 n1 nt, (N <= n0)%nat -> (N <= n1)%nat -> (N <= nt)%nat ->
  exists L s om, laser_init Xyt [x0;y0;t0] [x1;y1;t1] [n0;n1;nt] p nm nte = Ok L /\
    snd (get_spectrum Xyt (l_grid L) None bins (Some (p_omega0 p)) MSum) = Ok (Sp1 s, om) /\
    StronglySorted Rlt om /\ (forall w, In w om <-> 0 <= w /\ dft_freq nt (spacing t0 t1 nt) (p_omega0 p - w)) /\ length s = length om /\
    forall q, (q < length om)%nat -> let v := nth q om 0 - p_omega0 p in Rabs v <= V -> Rabs (nth q s 0 - gauss_spectrum E tau v) < eps.
Proof. exact c90_gauss_xyt. Qed.
Print Assumptions C90_gaussian_xyt.

(** The same on a cylindrical grid. *)
Theorem C90_gaussian_rt :
  forall l px py E w0 tau tp cep zf p (M : nat) nte r0 r1 V bins,
  gaussian_profile l [px; py] (Some E) w0 tau tp cep zf = Ok p ->
  0 < l -> 0 < w0 -> 0 < tau -> 0 <= E -> 0 <= r0 -> r0 < r1 -> (1 <= M)%nat ->
  (2 * Z.of_nat M - 1 <= match nte with None => 2 * Z.of_nat M - 1 | Some n => n end)%Z ->
  forall eps, 0 < eps -> exists T, 0 < T /\ forall t0 t1, t0 <= tp - T -> tp + T <= t1 ->
  exists N, forall n1 nt, (N <= n1)%nat -> (N <= nt)%nat ->
  exists L s om, laser_init Rt [r0;t0] [r1;t1] [n1;nt] p (Z.of_nat M) nte = Ok L /\
    snd (get_spectrum Rt (l_grid L) None bins (Some (p_omega0 p)) MSum) = Ok (Sp1 s, om) /\
    StronglySorted Rlt om /\ (forall w, In w om <-> 0 <= w /\ dft_freq nt (spacing t0 t1 nt) (p_omega0 p - w)) /\ length s = length om /\
    forall q, (q < length om)%nat -> let v := nth q om 0 - p_omega0 p in Rabs v <= V -> Rabs (nth q s 0 - gauss_spectrum E tau v) < eps.
Proof. exact c90_gauss_rt. Qed.
Print Assumptions C90_gaussian_rt.

(** A concrete 10 J, 30 fs, 10 um pulse meets the hypotheses of all four theorems, on-centre frequency is always
    among the returned ones, and the limit is not zero. *)
Example C90_nonvacuous : exists p K, gaussian_profile (8 * / 10 ^ 7) [RtoC 1; RtoC 0] (Some 10) (/ 10 ^ 5) (3 * / 10 ^ 14) 0 0 (/ 10 ^ 3) = Ok p /\
  0 <= K /\ lip_field K (-1) 1 (-1) 1 (-1) 1 (p_eval p) /\ axisymmetric (p_eval p) /\
  (forall nt dt, (1 <= nt)%nat -> dft_freq nt dt 0) /\ 0 < gauss_spectrum 10 (3 * / 10 ^ 14) 0.
Proof.
  destruct (c42_constructs (8 * / 10 ^ 7) (RtoC 1) (RtoC 0) (Some 10) (/ 10 ^ 5) (3 * / 10 ^ 14) 0 0 (/ 10 ^ 3)) as (p & Hp).
  assert (P1 : 0 < / 10 ^ 5) by (apply Rinv_0_lt_compat, pow_lt; lra).
  assert (P2 : 0 < 3 * / 10 ^ 14) by (apply Rmult_lt_0_compat; [lra|apply Rinv_0_lt_compat, pow_lt; lra]).
  destruct (gauss_lip_field _ _ _ _ _ _ _ _ _ Hp P1 P2 (-1) 1 (-1) 1 (-1) 1 ltac:(lra) ltac:(lra) ltac:(lra)) as (K & PK & LK).
  exists p, K. split; [exact Hp|]. split; [exact PK|]. split; [exact LK|]. split; [intros r t th; apply (gauss_radial _ _ _ _ _ _ _ _ _ Hp)|]. split.
  - intros nt dt H. exists 0%Z. split; [lia|]. unfold Rdiv. ring.
  - unfold gauss_spectrum. assert (0 < sqrt (2 * PI)) by (apply sqrt_lt_R0; pose proof PI_RGT_0; lra).
    apply Rmult_lt_0_compat; [|apply exp_pos]. apply Rmult_lt_0_compat; [lra|]. apply Rdiv_lt_0_compat; assumption.
Qed.
