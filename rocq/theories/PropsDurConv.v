(** C88: get_duration of a sampled laser approaches the RMS duration of the continuous pulse; tau/2 for a
    GaussianProfile.  C89: the field of a GaussianProfile laser approaches the textbook peak field for the
    requested energy. *)
From Coquelicot Require Import Coquelicot.
From Verif Require Import PyBase CSum NpFFT NumPy GridModel GridSpec LaserSpec EnergyModel LaserModel LaserOps
  LaserInitProofs LaserExamples ConvergeSpec ConvergeProofs ConvergeLaser AnalysisModel AnalyticModel AnalyticProofs ZernikeOrtho GaussInt DurConvSpec DurConvProofs DurConvLaser GaussLaserSpec GaussLaser.
Open Scope R_scope.

(** Any profile with Lipschitz intensity on a Cartesian grid, with or without a requested energy. *)
Theorem C88_xyt :
  forall K lo hi p nm nte,
  let I := moment_xyt (nth 0 lo 0) (nth 0 hi 0) (nth 1 lo 0) (nth 1 hi 0) (nth 2 lo 0) (nth 2 hi 0) (p_eval p) in
  length lo = 3%nat -> length hi = 3%nat ->
  nth 0 lo 0 < nth 0 hi 0 -> nth 1 lo 0 < nth 1 hi 0 -> nth 2 lo 0 < nth 2 hi 0 ->
  positive_request (p_energy p) -> p_dtype p = Complex128 -> 0 <= K ->
  lip_intensity K (nth 0 lo 0) (nth 0 hi 0) (nth 1 lo 0) (nth 1 hi 0) (nth 2 lo 0) (nth 2 hi 0) (p_eval p) ->
  0 < I (fun _ => 1) ->
  forall eps, 0 < eps -> exists N, forall n0 n1 nt, (N <= n0)%nat -> (N <= n1)%nat -> (N <= nt)%nat ->
  exists L s, laser_init Xyt lo hi [n0;n1;nt] p nm nte = Ok L /\
    snd (get_duration Xyt (l_grid L)) = Ok s /\ Rabs (s - rms_duration I) < eps.
Proof. exact c88_xyt. Qed.
Print Assumptions C88_xyt.
(** Cylindrical grids, for a profile whose azimuthal content the modes resolve. *)
Theorem C88_rt :
  forall K lo hi p (M : nat) nte (A : Z -> R -> R -> C),
  let I := moment_rt (nth 0 lo 0) (nth 0 hi 0) (nth 1 lo 0) (nth 1 hi 0) (p_eval p) in
  length lo = 2%nat -> length hi = 2%nat -> (1 <= M)%nat ->
  0 <= nth 0 lo 0 -> nth 0 lo 0 < nth 0 hi 0 -> nth 1 lo 0 < nth 1 hi 0 ->
  positive_request (p_energy p) -> 0 <= K ->
  lip_intensity K (- nth 0 hi 0) (nth 0 hi 0) (- nth 0 hi 0) (nth 0 hi 0) (nth 1 lo 0) (nth 1 hi 0) (p_eval p) ->
  (forall r t theta, p_eval p (r * cos theta) (r * sin theta) t = recon M (fun m => A m r t) theta) ->
  (2 * Z.of_nat M - 1 <= match nte with None => 2 * Z.of_nat M - 1 | Some n => n end)%Z ->
  0 < I (fun _ => 1) ->
  forall eps, 0 < eps -> exists N, forall n1 nt, (N <= n1)%nat -> (N <= nt)%nat ->
  exists L s, laser_init Rt lo hi [n1;nt] p (Z.of_nat M) nte = Ok L /\
    snd (get_duration Rt (l_grid L)) = Ok s /\ Rabs (s - rms_duration I) < eps.
Proof. exact c88_rt. Qed.
Print Assumptions C88_rt.
(** GaussianProfile: the duration approaches tau/2 as the time window and the resolution grow. *)
Theorem C88_gaussian_xyt :
  forall l px py E w0 tau tp cep zf p nm nte x0 x1 y0 y1,
  gaussian_profile l [px; py] E w0 tau tp cep zf = Ok p ->
  0 < l -> 0 < w0 -> 0 < tau -> positive_request (Some E) -> x0 < x1 -> y0 < y1 ->
  forall eps, 0 < eps -> exists T, 0 < T /\ forall t0 t1, t0 <= tp - T -> tp + T <= t1 ->
  exists N, forall n0 n1 nt, (N <= n0)%nat -> (N <= n1)%nat -> (N <= nt)%nat ->
  exists L s, laser_init Xyt [x0;y0;t0] [x1;y1;t1] [n0;n1;nt] p nm nte = Ok L /\
    snd (get_duration Xyt (l_grid L)) = Ok s /\ Rabs (s - tau / 2) < eps.
Proof. exact c88_gauss_xyt. Qed.
Print Assumptions C88_gaussian_xyt.
Theorem C88_gaussian_rt :
  forall l px py E w0 tau tp cep zf p (M : nat) nte r0 r1,
  gaussian_profile l [px; py] E w0 tau tp cep zf = Ok p ->
  0 < l -> 0 < w0 -> 0 < tau -> positive_request (Some E) -> 0 <= r0 -> r0 < r1 -> (1 <= M)%nat ->
  (2 * Z.of_nat M - 1 <= match nte with None => 2 * Z.of_nat M - 1 | Some n => n end)%Z ->
  forall eps, 0 < eps -> exists T, 0 < T /\ forall t0 t1, t0 <= tp - T -> tp + T <= t1 ->
  exists N, forall n1 nt, (N <= n1)%nat -> (N <= nt)%nat ->
  exists L s, laser_init Rt [r0;t0] [r1;t1] [n1;nt] p (Z.of_nat M) nte = Ok L /\
    snd (get_duration Rt (l_grid L)) = Ok s /\ Rabs (s - tau / 2) < eps.
Proof. exact c88_gauss_rt. Qed.
Print Assumptions C88_gaussian_rt.

(** The vortex of constant intensity in time on 0 <= r <= 2, -3 <= t <= 4 meets the hypotheses of C88_rt;
    its duration is that of a flat pulse, 7/sqrt(12). *)
Example C88_nonvacuous :
  lip_intensity 4 (-2) 2 (-2) 2 (-3) 4 (p_eval ex_vortex) /\ positive_request (p_energy ex_vortex) /\
  (forall r t theta, p_eval ex_vortex (r * cos theta) (r * sin theta) t =
     recon 2 (fun m => if Z.eqb m 1 then RtoC r else RtoC 0) theta) /\
  0 < moment_rt 0 2 (-3) 4 (p_eval ex_vortex) (fun _ => 1) /\
  rms_duration (moment_rt 0 2 (-3) 4 (p_eval ex_vortex)) = 7 / sqrt 12.
Proof.
  pose proof PI_RGT_0 as Ppi.
  assert (HM : forall a b c, moment_rt 0 2 (-3) 4 (p_eval ex_vortex) (fun t => a + b * t + c * t ^ 2) =
     8 * PI * (7 * a + 7 / 2 * b + 91 / 3 * c)).
  { intros a b c. unfold moment_rt.
    rewrite (RInt_ext _ (fun r => (7 * a + 7 / 2 * b + 91 / 3 * c) * (2 * PI * r ^ 3))).
    - apply is_RInt_unique.
      replace (8 * PI * (7 * a + 7 / 2 * b + 91 / 3 * c)) with (minus ((7 * a + 7 / 2 * b + 91 / 3 * c) * (PI / 2 * 2 ^ 4))
        ((7 * a + 7 / 2 * b + 91 / 3 * c) * (PI / 2 * 0 ^ 4))) by (unfold minus, plus, opp; simpl; field).
      apply (is_RInt_derive (fun r => (7 * a + 7 / 2 * b + 91 / 3 * c) * (PI / 2 * r ^ 4))).
      + intros r _. auto_derive; [exact I|]. simpl. field.
      + intros r _. apply (@ex_derive_continuous R_AbsRing R_NormedModule). auto_derive. exact I.
    - intros r _. apply is_RInt_unique.
      apply (is_RInt_same (fun t => (a + b * t + c * t ^ 2) * (2 * PI * r ^ 3))).
      + intros t _. f_equal. rewrite (RInt_ext _ (fun _ => r ^ 2)).
        * rewrite (@RInt_const R_CompleteNormedModule). unfold scal; simpl; unfold mult; simpl. eqR. ring.
        * intros th _. unfold ex_vortex, Cnorm2. cbn [p_eval fst snd].
          pose proof (sin2_cos2 th) as Q. unfold Rsqr in Q.
          replace (r * cos th * (r * cos th) + - (r * sin th) * - (r * sin th)) with (r ^ 2 * (sin th * sin th + cos th * cos th)) by ring.
          rewrite Q. eqR. ring.
      + replace ((7 * a + 7 / 2 * b + 91 / 3 * c) * (2 * PI * r ^ 3)) with
          (minus ((a * 4 + b * 4 ^ 2 / 2 + c * 4 ^ 3 / 3) * (2 * PI * r ^ 3)) ((a * -3 + b * (-3) ^ 2 / 2 + c * (-3) ^ 3 / 3) * (2 * PI * r ^ 3)))
          by (unfold minus, plus, opp; simpl; field).
        apply (is_RInt_derive (fun t => (a * t + b * t ^ 2 / 2 + c * t ^ 3 / 3) * (2 * PI * r ^ 3))).
        * intros t _. auto_derive; [exact I|]. simpl. field.
        * intros t _. apply (@ex_derive_continuous R_AbsRing R_NormedModule). auto_derive. exact I. }
  assert (HX : forall f g, (forall t, f t = g t) -> moment_rt 0 2 (-3) 4 (p_eval ex_vortex) f = moment_rt 0 2 (-3) 4 (p_eval ex_vortex) g).
  { intros f g H. unfold moment_rt. apply RInt_ext. intros r _. apply RInt_ext. intros t _. rewrite H. reflexivity. }
  assert (M1 : moment_rt 0 2 (-3) 4 (p_eval ex_vortex) (fun _ => 1) = 56 * PI).
  { rewrite (HX _ (fun t => 1 + 0 * t + 0 * t ^ 2)) by (intros; ring). rewrite HM. field. }
  assert (Mt : mean_time (moment_rt 0 2 (-3) 4 (p_eval ex_vortex)) = 1 / 2).
  { unfold mean_time. rewrite M1, (HX _ (fun t => 0 + 1 * t + 0 * t ^ 2)) by (intros; ring). rewrite HM. field. lra. }
  split; [|split; [exact I|split; [exact vortex_content|split]]].
  - pose proof (vortex_lip 2 (-3) 4 ltac:(lra)) as Q. replace (2 * 2) with 4 in Q by ring. exact Q.
  - rewrite M1. lra.
  - unfold rms_duration. rewrite M1, Mt, (HX _ (fun t => / 4 + -1 * t + 1 * t ^ 2)) by (intros; field). rewrite HM.
    replace (8 * PI * (7 * / 4 + 7 / 2 * -1 + 91 / 3 * 1) / (56 * PI)) with (7 ^ 2 * / 12) by (field; lra).
    rewrite sqrt_mult by lra. rewrite sqrt_inv by lra. rewrite sqrt_pow2 by lra. reflexivity.
Qed.

(** C89: the laser built from a GaussianProfile with requested energy E has the field of the profile times a factor
    approaching sqrt(E / gauss_energy w0 tau), as the box and the resolution grow. *)
Theorem C89_xyt :
  forall l px py E w0 tau tp cep zf p nm nte,
  gaussian_profile l [px; py] (Some E) w0 tau tp cep zf = Ok p -> 0 < l -> 0 < w0 -> 0 < tau -> 0 <= E ->
  forall eps, 0 < eps -> exists W, 0 < W /\ forall x0 x1 y0 y1 t0 t1,
  x0 <= - W -> W <= x1 -> y0 <= - W -> W <= y1 -> t0 <= tp - W -> tp + W <= t1 ->
  exists N, forall n0 n1 nt, (N <= n0)%nat -> (N <= n1)%nat -> (N <= nt)%nat ->
  exists L a s, laser_init Xyt [x0;y0;t0] [x1;y1;t1] [n0;n1;nt] p nm nte = Ok L /\
    snd (get_temporal_field (l_grid L)) = Ok a /\ Rabs (s - sqrt (E / gauss_energy w0 tau)) < eps /\
    forall i j k, (i < n0)%nat -> (j < n1)%nat -> (k < nt)%nat ->
      at3 a i j k = Cmult (RtoC s) (p_eval p (coord x0 x1 n0 i) (coord y0 y1 n1 j) (coord t0 t1 nt k)).
Proof. exact c89_xyt. Qed.
Print Assumptions C89_xyt.
Theorem C89_rt :
  forall l px py E w0 tau tp cep zf p (M : nat) nte,
  gaussian_profile l [px; py] (Some E) w0 tau tp cep zf = Ok p -> 0 < l -> 0 < w0 -> 0 < tau -> 0 <= E ->
  (1 <= M)%nat -> (2 * Z.of_nat M - 1 <= match nte with None => 2 * Z.of_nat M - 1 | Some n => n end)%Z ->
  forall eps, 0 < eps -> exists W, 0 < W /\ forall r1 t0 t1, W <= r1 -> t0 <= tp - W -> tp + W <= t1 ->
  exists N, forall n1 nt, (N <= n1)%nat -> (N <= nt)%nat ->
  exists L a s, laser_init Rt [0;t0] [r1;t1] [n1;nt] p (Z.of_nat M) nte = Ok L /\
    snd (get_temporal_field (l_grid L)) = Ok a /\ Rabs (s - sqrt (E / gauss_energy w0 tau)) < eps /\
    forall j k theta, (j < n1)%nat -> (k < nt)%nat ->
      recon M (comp M a j k) theta = Cmult (RtoC s) (p_eval p (coord 0 r1 n1 j * cos theta) (coord 0 r1 n1 j * sin theta) (coord t0 t1 nt k)).
Proof. exact c89_rt. Qed.
Print Assumptions C89_rt.
(** Such profiles exist for every choice of the parameters. *)
Example C89_nonvacuous : exists p, gaussian_profile (8 * / 10 ^ 7) [RtoC 1; RtoC 0] (Some 10) (/ 10 ^ 5) (3 * / 10 ^ 14) 0 0 (/ 10 ^ 3) = Ok p /\
  0 < gauss_energy (/ 10 ^ 5) (3 * / 10 ^ 14).
Proof.
  destruct (c42_constructs (8 * / 10 ^ 7) (RtoC 1) (RtoC 0) (Some 10) (/ 10 ^ 5) (3 * / 10 ^ 14) 0 0 (/ 10 ^ 3)) as (p & Hp).
  exists p. split; [exact Hp|]. apply gauss_energy_pos; [|apply Rmult_lt_0_compat; [lra|]]; apply Rinv_0_lt_compat, pow_lt; lra.
Qed.
