(** C100, C101: what double precision does to the time window and to the normalizations. *)
From Coq Require Import Lra Lia Psatz.
From Flocq Require Import Core.
From Coquelicot Require Import Coquelicot.
From Verif Require Import PyBase CSum NumPy GridModel EnergyModel EnergyProofs LaserSpec.
From Verif Require Import FloatModel FloatSpec FloatProofs FloatNormModel FloatNormProofs.
Open Scope R_scope.

(** C100: the first and last time sample are, bit for bit, grid.lo[-1] and grid.hi[-1] after every history. *)
Theorem C100_ends : forall lo hi n ds, is_b64 lo -> is_b64 hi -> (2 <= n)%nat ->
  let w := window_run (window_init lo hi n) ds in
  length (win_axis w) = n /\ nth 0 (win_axis w) 0 = win_lo w /\ nth (n - 1) (win_axis w) 0 = win_hi w.
Proof. exact window_ends. Qed.
(** C100: the samples stay in order, so inside [lo, hi]. *)
Theorem C100_order : forall lo hi n ds, axis_ok lo hi n ->
  let w := window_run (window_init lo hi n) ds in
  forall i j, (i <= j)%nat -> (j < n)%nat ->
    win_lo w <= nth i (win_axis w) 0 <= nth j (win_axis w) 0 /\ nth j (win_axis w) 0 <= win_hi w.
Proof.
  intros lo hi n ds H w i j Hi Hj.
  assert (Hok := H). destruct H as (Hlo & Hhi & _ & Hn & _).
  destruct (window_ends lo hi n ds Hlo Hhi Hn) as (_ & El & Eh). fold w in El, Eh. rewrite <- El, <- Eh.
  split; [split|]; apply (window_order lo hi n ds); (exact Hok || lia).
Qed.
(** C100: every sample is where it ought to be, up to one rounding per step. *)
Theorem C100_error : forall lo hi n ds k, axis_ok lo hi n -> Forall normal_distance ds -> (k < n)%nat ->
  Rabs (nth k (win_axis (window_run (window_init lo hi n) ds)) 0 - (coord lo hi n k + path_time ds))
  <= ((1 + u64) ^ (length ds + 4) - 1) * (Rabs lo + (hi - lo) + path_length ds).
Proof. exact window_error. Qed.
(** C100: as long as that error is below half a spacing, no two samples coincide... *)
Theorem C100_resolved : forall lo hi n ds, axis_ok lo hi n -> Forall normal_distance ds ->
  2 * (((1 + u64) ^ (length ds + 4) - 1) * (Rabs lo + (hi - lo) + path_length ds)) < (hi - lo) / (INR n - 1) ->
  let t := win_axis (window_run (window_init lo hi n) ds) in
  forall i j, (i < j)%nat -> (j < n)%nat -> nth i t 0 < nth j t 0.
Proof. intros lo hi n ds H Hds HB t i j Hi Hj. exact (window_resolved lo hi n ds i j H Hds Hi Hj HB). Qed.
(** ... and not longer: a step of one light-second merges the samples of an attosecond window. *)
Theorem C100_merge : exists lo hi ds, axis_ok lo hi 2 /\ Forall normal_distance ds /\
  let t := win_axis (window_run (window_init lo hi 2) ds) in nth 0 t 0 = nth 1 t 0.
Proof.
  exists 0, (/ 2 ^ 60), [c_light].
  assert (Hp : 0 < / 2 ^ 60) by (apply Rinv_0_lt_compat, pow_lt; lra).
  assert (Hc : c_light / c_light = 1) by (field; pose proof c_light_pos; lra).
  assert (F1 : is_b64 1) by (change 1 with (bpow radix2 0); apply pow2_fmt; lia).
  assert (E60 : / 2 ^ 60 = bpow radix2 (Z.opp 60)).
  { rewrite bpow_opp. change 60%Z with (Z.of_nat 60). rewrite bpow_powerRZ, <- pow_powerRZ. reflexivity. }
  assert (F60 : is_b64 (/ 2 ^ 60)) by (rewrite E60; apply pow2_fmt; lia).
  split; [|split].
  - split; [exact fmt_0|]. split; [exact F60|]. split; [exact Hp|]. split; [lia|]. split.
    + cbn [INR]. apply Rle_trans with (2 ^ 1); [lra|]. apply Rle_pow; [lra|lia].
    + cbn [INR]. replace ((/ 2 ^ 60 - 0) / (1 + 1 - 1)) with (/ 2 ^ 60) by field.
      apply Rinv_le_contravar; [apply pow_lt; lra|]. apply Rle_pow; [lra|lia].
  - constructor; [|constructor]. right. rewrite Rabs_right by (pose proof c_light_pos; lra). rewrite Hc.
    rewrite <- Rinv_1. apply Rinv_le_contravar; [lra|]. apply pow_R1_Rle; lra.
  - cbn zeta. rewrite !nth_run by lia.
    assert (El : nth 1 (linspace64 0 (/ 2 ^ 60) 2) 0 = / 2 ^ 60) by (apply (linspace64_last 0 (/ 2 ^ 60) 2); lia).
    rewrite El, linspace64_first by (exact fmt_0 || lia).
    unfold vrun, fold_left. rewrite Hc, (b64_id 1 F1), b64_one_plus, Rplus_0_l. apply b64_id, F1.
Qed.

(** C101: whatever the roundings and the order of the sum, the energy is the weighted sum up to p + 5 roundings. *)
Theorem C101_accuracy : forall u p w isenv env e, 0 <= u < 1 -> (forall j, 0 <= w j) ->
  float_energy u p w isenv env e ->
  let x := (if isenv then / 2 else 1) *
    rsum3 (dim0 env) (dim1 env) (dim2 env) (fun i j k => w j * Cmod (at3 env i j k) ^ 2) in
  (1 - u) ^ (p + 5) * x <= e <= (1 + u) ^ (p + 5) * x.
Proof. intros u p w isenv env e Hu Hw H. exact (float_energy_band u Hu p w isenv env e Hw H). Qed.
(** C101: the energy computed after normalize(en, "energy"), relative to en. *)
Theorem C101_energy : forall u p q w isenv f f' en e0 e1, 0 <= u < 1 -> (forall j, 0 <= w j) -> 0 < en ->
  float_energy u p w isenv f e0 -> e0 <> 0 -> float_rescale_energy u en e0 f f' -> float_energy u q w isenv f' e1 ->
  (1 - u) ^ (q + 10) / (1 + u) ^ (p + 5) <= e1 / en <= (1 + u) ^ (q + 10) / (1 - u) ^ (p + 5).
Proof. intros u p q w isenv f f' en e0 e1 Hu. exact (normalize_energy_band u Hu p q w isenv f f' en e0 e1). Qed.
Theorem C101_energy_error : forall u p q w isenv f f' en e0 e1, 0 <= u < 1 -> (forall j, 0 <= w j) -> 0 < en ->
  INR (q + 10 + (p + 5)) * u <= / 2 ->
  float_energy u p w isenv f e0 -> e0 <> 0 -> float_rescale_energy u en e0 f f' -> float_energy u q w isenv f' e1 ->
  Rabs (e1 / en - 1) <= 2 * INR (q + 10 + (p + 5)) * u.
Proof.
  intros u p q w isenv f f' en e0 e1 Hu Hw Hen HK H0 Hne Hr H1. apply ratio_error; [exact Hu | exact HK |].
  exact (C101_energy u p q w isenv f f' en e0 e1 Hu Hw Hen H0 Hne Hr H1).
Qed.
(** C101: the peak amplitude computed after normalize(amp, "field"), relative to amp. *)
Theorem C101_field : forall u f f' amp m0 m1, 0 <= u < 1 -> 0 < amp ->
  float_abs_max u f m0 -> m0 <> 0 -> float_rescale_field u amp m0 f f' -> float_abs_max u f' m1 ->
  (1 - u) ^ 3 / (1 + u) <= m1 / amp <= (1 + u) ^ 3 / (1 - u).
Proof. intros u f f' amp m0 m1 Hu. exact (normalize_field_band u Hu f f' amp m0 m1). Qed.
(** C101: the weights computed in double precision are never negative (the hypothesis above). *)
Theorem C101_weights :
  (forall r dr dt, 0 <= r -> 0 <= dr -> 0 <= dt -> 0 <= weight_rt64 r dr dt) /\
  (forall dx dy dt, 0 <= dx -> 0 <= dy -> 0 <= dt -> 0 <= weight_xyt64 dx dy dt).
Proof. exact (conj weight_rt64_nonneg weight_xyt64_nonneg). Qed.
(** C101: without rounding the model is the exact one used everywhere else. *)
Theorem C101_exact : forall d g env p e, (forall j, 0 <= cell_volume d g j) ->
  float_energy 0 p (fun j => cell_volume d g j * eps0) (g_isenv g) env e -> e = energy_of d g env.
Proof. exact energy_exact. Qed.

(** Non-vacuity: a 129-point window of 114 fs moved by 1 m and back by 2 m. *)
Example C100_case : axis_ok (- / 2 ^ 44) (/ 2 ^ 44) 129 /\ Forall normal_distance [1; -2] /\
  2 * (((1 + u64) ^ (length [1; -2] + 4) - 1) *
       (Rabs (- / 2 ^ 44) + (/ 2 ^ 44 - - / 2 ^ 44) + path_length [1; -2])) < (/ 2 ^ 44 - - / 2 ^ 44) / (INR 129 - 1).
Proof.
  Local Transparent c_light.
  assert (E44 : / 2 ^ 44 = bpow radix2 (Z.opp 44)).
  { rewrite bpow_opp. change 44%Z with (Z.of_nat 44). rewrite bpow_powerRZ, <- pow_powerRZ. reflexivity. }
  assert (F44 : is_b64 (/ 2 ^ 44)) by (rewrite E44; apply pow2_fmt; lia).
  assert (Hp : 0 < / 2 ^ 44) by (apply Rinv_0_lt_compat, pow_lt; lra).
  assert (E129 : INR 129 - 1 = 2 ^ 7) by (cbn; lra).
  assert (EX : (/ 2 ^ 44 - - / 2 ^ 44) / (INR 129 - 1) = / 2 ^ 50).
  { rewrite E129. replace (2 ^ 50) with (2 ^ 44 * 2 ^ 6) by (rewrite <- pow_add; reflexivity).
    replace (2 ^ 7) with (2 * 2 ^ 6) by reflexivity.
    assert (2 ^ 44 <> 0) by (apply pow_nonzero; lra). assert (2 ^ 6 <> 0) by (apply pow_nonzero; lra). field; auto. }
  assert (Hc : 2 ^ 28 <= c_light <= 2 ^ 29) by (unfold c_light; cbn; lra).
  assert (Hcp := c_light_pos).
  assert (N : forall d, 1 <= Rabs d -> / 2 ^ 1022 <= Rabs d / c_light).
  { intros d Hd. apply Rle_trans with (/ c_light).
    - apply Rinv_le_contravar; [exact Hcp|]. apply Rle_trans with (1 := proj2 Hc). apply Rle_pow; [lra|lia].
    - unfold Rdiv. rewrite <- (Rmult_1_l (/ c_light)) at 1. apply Rmult_le_compat_r; [left; apply Rinv_0_lt_compat, Hcp | exact Hd]. }
  assert (A2 : Rabs (-2) = 2) by (rewrite Rabs_left; lra).
  split; [|split].
  - split; [apply generic_format_opp, F44|]. split; [exact F44|]. split; [lra|]. split; [lia|]. split.
    + replace (INR 129) with (1 + 2 ^ 7) by lra. apply Rle_trans with (2 ^ 8); [lra|]. apply Rle_pow; [lra|lia].
    + rewrite EX. apply Rinv_le_contravar; [apply pow_lt; lra|]. apply Rle_pow; [lra|lia].
  - constructor; [right; apply N; rewrite Rabs_R1; lra|]. constructor; [right; apply N; lra|constructor].
  - rewrite EX, Rabs_Ropp, Rabs_right by lra. cbn [path_length length plus]. rewrite Rabs_R1, A2.
    assert (Pl : 1 / c_light + (2 / c_light + 0) <= 3 * / 2 ^ 28).
    { replace (1 / c_light + (2 / c_light + 0)) with (3 * / c_light) by (field; lra).
      apply Rmult_le_compat_l; [lra|]. apply Rinv_le_contravar; [apply pow_lt; lra | exact (proj1 Hc)]. }
    assert (S44 : / 2 ^ 44 <= / 2 ^ 28) by (apply Rinv_le_contravar; [apply pow_lt; lra | apply Rle_pow; [lra|lia]]).
    assert (Eu : u64 = / 2 ^ 53) by reflexivity.
    assert (U1 : (1 + u64) ^ 6 - 1 <= 64 * u64).
    { pose proof u64_pos. pose proof u64_le. nra. }
    assert (U0 : 0 <= (1 + u64) ^ 6 - 1) by (pose proof u64_pos; nra).
    apply Rle_lt_trans with (2 * (64 * u64 * (6 * / 2 ^ 28))).
    + apply Rmult_le_compat_l; [lra|]. apply Rmult_le_compat; [exact U0 | | exact U1 | lra].
      assert (0 < 3 * / c_light) by (apply Rmult_lt_0_compat; [lra | apply Rinv_0_lt_compat, Hcp]).
      replace (1 / c_light + (2 / c_light + 0)) with (3 * / c_light) by (field; lra). lra.
    + rewrite Eu. replace (2 ^ 53) with (2 ^ 50 * 8) by (replace 8 with (2 ^ 3) by (cbn; ring); rewrite <- pow_add; reflexivity).
      replace (2 ^ 28) with (2 ^ 8 * 2 ^ 20) by (rewrite <- pow_add; reflexivity).
      replace (2 ^ 8) with 256 by (cbn; ring). rewrite !Rinv_mult.
      assert (0 < / 2 ^ 50) by (apply Rinv_0_lt_compat, pow_lt; lra).
      assert (/ 2 ^ 20 <= 1) by (rewrite <- Rinv_1; apply Rinv_le_contravar; [lra | apply pow_R1_Rle; lra]).
      assert (0 < / 2 ^ 20) by (apply Rinv_0_lt_compat, pow_lt; lra).
      set (x := / 2 ^ 50) in *. set (y := / 2 ^ 20) in *. clearbody x y. nra.
Qed.
(** Non-vacuity: double precision without underflow is an instance for every field; a one-sample field gets through. *)
Example C101_case : forall w isenv f en, (forall j, 0 < w j) -> shp f = [1%nat; 1%nat; 1%nat] -> at3 f 0 0 0 = RtoC 3 -> 0 < en ->
  exists p q e0 e1 f', float_energy u64 p w isenv f e0 /\ e0 <> 0 /\ float_rescale_energy u64 en e0 f f' /\
    float_energy u64 q w isenv f' e1.
Proof.
  intros w isenv f en Hw Hs Hf Hen.
  destruct (energy_exists u64 _ double_near w isenv f) as (p & e0 & H0).
  destruct (rescale_exists u64 _ double_near en e0 f) as (f' & Hf').
  destruct (energy_exists u64 _ double_near w isenv f') as (q & e1 & H1).
  exists p, q, e0, e1, f'. split; [exact H0|]. split; [|split; assumption].
  assert (Hu : 0 <= u64 < 1) by (pose proof u64_pos; pose proof u64_le; lra).
  pose proof (C101_accuracy u64 p w isenv f e0 Hu (fun j => Rlt_le _ _ (Hw j)) H0) as [L _].
  unfold dim0, dim1, dim2, rsum3 in L. rewrite Hs in L. cbn [nth rsum] in L. rewrite Hf, Cmod_R, Rabs_right in L by lra.
  assert (P : 0 < (1 - u64) ^ (p + 5)) by (apply pow_lt; lra). pose proof (Hw 0%nat).
  assert (0 < (if isenv then / 2 else 1)) by (destruct isenv; lra).
  set (h := if isenv then / 2 else 1) in *. clearbody h.
  assert (0 < (1 - u64) ^ (p + 5) * (h * (w 0%nat * 3 ^ 2))); [|lra].
  apply Rmult_lt_0_compat; [exact P|]. apply Rmult_lt_0_compat; [assumption|]. nra.
Qed.

Print Assumptions C100_ends.
Print Assumptions C100_order.
Print Assumptions C100_error.
Print Assumptions C100_resolved.
Print Assumptions C100_merge.
Print Assumptions C101_accuracy.
Print Assumptions C101_energy.
Print Assumptions C101_energy_error.
Print Assumptions C101_field.
Print Assumptions C101_weights.
Print Assumptions C101_exact.
