(** C54 (random phase modulation and induced spatial incoherence), C63-C65, C67. *)
From Verif Require Import PyBase CSum NpFFT FFTProofs NumPy NpMath NpMathProofs GridModel FromArrayProofs GridProofs LaserModel DataModel DataProofs SpectralDataProofs SpectralProps SolverSpec SolverProofs
  LaserInv EnergyProofs SpeckleModel SpeckleSpec SpeckleProofs SpeckleBound SpeckleSeries.
Open Scope R_scope.

Lemma py_int_nonneg x : 0 <= x -> (0 <= py_int x)%Z /\ IZR (py_int x) <= x < IZR (py_int x) + 1.
Proof.
  intros H. unfold py_int. rewrite (proj2 (Rleb_true 0 x)) by exact H. pose proof (Int_part_bound x) as B. split; [|exact B].
  assert (A : -1 < IZR (Int_part x)) by lra. apply lt_IZR in A. lia.
Qed.
Lemma div_nonneg a b : 0 <= a -> 0 < b -> 0 <= a / b.
Proof. intros. apply Rmult_le_pos; [assumption|left; apply Rinv_0_lt_compat; assumption]. Qed.
(** The abscissae of the random phases: as many as the phases, step dt, reaching past the last delayed time. *)
Lemma rpm_lengths sp T : 0 < sk_dt sp -> 0 <= T -> 0 <= fst (sk_delay sp) + snd (sk_delay sp) ->
  let series := arange0 (T + sk_dt sp) (sk_dt sp) in
  let size := rpm_size sp (length series) in
  series <> [] /\ length (rpm_times sp series) = size /\ (forall q, (q < size)%nat -> vget (rpm_times sp series) q = INR q * sk_dt sp) /\
  (2 <= size)%nat /\ T + (fst (sk_delay sp) + snd (sk_delay sp)) < INR (size - 1) * sk_dt sp.
Proof.
  intros Hd HT Hs series size. set (dt := sk_dt sp) in *. set (D := fst (sk_delay sp) + snd (sk_delay sp)) in *.
  assert (Ln : length series = arange_len (T + dt) dt) by apply arange0_length.
  destruct (series_len T dt Hd HT) as (L & L0). set (n := length series) in *. rewrite <- Ln in L.
  assert (Ne : series <> []) by (intros E; unfold n in L; rewrite E in L; simpl in L; lia). split; [exact Ne|].
  destruct (py_int_nonneg (D / dt) (div_nonneg _ _ Hs Hd)) as (I0 & I1).
  assert (Sz : Z.of_nat size = (Z.of_nat n + py_int (D / dt) + 2)%Z) by (unfold size, rpm_size; fold dt D; rewrite Z2Nat.id by lia; reflexivity).
  assert (La : last series 0 = INR (n - 1) * dt).
  { rewrite last_nth by exact Ne. fold n. unfold series. apply arange0_nth. rewrite <- Ln. fold n. lia. }
  assert (Le : (size <= arange_len (last series 0 + D + 3 * dt)%R dt)%nat).
  { unfold arange_len. rewrite La. replace ((INR (n - 1) * dt + D + 3 * dt) / dt) with (D / dt + IZR (Z.of_nat n + 2)).
    2:{ rewrite plus_IZR, <- INR_IZR_INZ, minus_INR by lia. simpl (INR 1). field. lra. }
    rewrite Rceil_add. pose proof (Rceil_spec (D / dt)). assert (A : IZR (py_int (D / dt)) < IZR (Rceil (D / dt)) + 1) by lra. rewrite <- plus_IZR in A. apply lt_IZR in A. lia. }
  assert (Lt : length (rpm_times sp series) = size).
  { unfold rpm_times. fold n size dt D. rewrite firstn_length, arange0_length. lia. }
  split; [exact Lt|]. split.
  - intros q Hq. unfold rpm_times. fold n size dt D. transitivity (vget (arange0 (last series 0 + D + 3 * dt) dt) q).
    + unfold vget. rewrite <- (firstn_skipn size (arange0 (last series 0 + D + 3 * dt) dt)) at 2. rewrite app_nth1; [reflexivity|]. rewrite firstn_length, arange0_length. lia.
    + apply arange0_nth. lia.
  - split; [lia|]. assert (S1 : INR (size - 1) = IZR (Rceil (T / dt)) + 2 + IZR (py_int (D / dt))).
    { rewrite INR_IZR_INZ. replace (Z.of_nat (size - 1)) with (Rceil (T / dt) + 2 + py_int (D / dt))%Z by lia. rewrite !plus_IZR. reflexivity. }
    rewrite S1. pose proof (Rceil_spec (T / dt)) as Hc. apply Rle_lt_trans with ((T / dt + D / dt) * dt); [right; field; lra|]. apply Rmult_lt_compat_r; lra.
Qed.
Lemma real_series_len n s : length (real_series n s) = n.
Proof. unfold real_series. rewrite map_length, seq_length. reflexivity. Qed.
Lemma real_series_nth n s q : (q < n)%nat -> vget (real_series n s) q = (Re (s q) + Im (s q)) / sqrt 2.
Proof.
  intros H. unfold vget, real_series. rewrite (nth_indep _ 0 ((Re (s 0%nat) + Im (s 0%nat)) / sqrt 2)) by (rewrite map_length, seq_length; exact H).
  rewrite (map_nth (fun k => (Re (s k) + Im (s k)) / sqrt 2)), seq_nth by exact H. reflexivity.
Qed.
Lemma interp_linear xp fp dt n p : 0 < dt -> (2 <= n)%nat -> length xp = n -> length fp = n -> (forall q, (q < n)%nat -> vget xp q = INR q * dt) -> (forall q, (q < n)%nat -> vget fp q = p q) ->
  linear_through (fun u => match np_interp xp fp u with Ok a => a | Err _ => 0 end) dt n p /\ (forall u, exists a, np_interp xp fp u = Ok a).
Proof.
  intros Hd Hn Lx Lf Hx Hf. assert (A : ascending xp = true) by (apply ascending_iff; intros i Hi; rewrite !Hx by lia; rewrite S_INR; nra). split.
  - intros q u Hq Hu. unfold np_interp. rewrite (np_interp_cell _ _ xp fp u q); [|lia|exact A|].
    + unfold lerp. rewrite !Hx, !Hf by lia. f_equal. f_equal. f_equal. rewrite S_INR. ring.
    + split; [lia|]. rewrite !Hx by lia. exact Hu.
  - intros u. unfold np_interp, np_interp_with. destruct xp as [|x0 xp]; [simpl in Lx; lia|]. rewrite Lx, Lf, Nat.eqb_refl. eauto.
Qed.
Lemma gen_first n dt f rms z : (0 < n)%nat -> f <> 0 -> z 0%nat <> RtoC 0 ->
  exists s, gen_gaussian_time_series n dt (Fin f) rms z = Some s /\ rsum n (fun k => Cmod (s k) ^ 2) / INR n = rms ^ 2.
Proof. intros Hn Hf Hz. apply gen_rms; [exact Hn|exact Hf|]. exists 0%nat. split; [exact Hn|exact Hz]. Qed.
Lemma c54_rpm wl f D n bw a c s env sp d n0 n1 nt x y t xs ys ts :
  speckle_init wl f D n GP_RPM_SSD bw (Some a) (Some c) (Some s) env = Ok sp ->
  0 < fst a -> 0 < snd a -> 0 < fst s -> 0 < snd s -> 0 <= fst c -> 0 <= snd c ->
  0 < wl -> f <> 0 -> fst D <> 0 -> snd D <> 0 -> (0 < fst n)%nat -> (0 < snd n)%nat -> cartesian x y t xs ys ts -> (0 < n0)%nat -> (0 < n1)%nat -> (0 < nt)%nat ->
  (forall k, (k < nt)%nat -> 0 <= ts k <= ts (nt - 1)%nat) -> (forall i, d_normal d i 0%nat 0%nat <> RtoC 0) ->
  let dt := 1 / bw / 50 in
  let delay := (fst c / fst (ssd_nu bw a s), snd c / snd (ssd_nu bw a s)) in
  exists E N s0 s1 psi0 psi1, speckle_evaluate sp d n0 n1 nt x y t = Ok E /\
    linear_through psi0 dt N (quadrature s0) /\ linear_through psi1 dt N (quadrature s1) /\
    rsum N (fun k => Cmod (s0 k) ^ 2) / INR N = fst a ^ 2 /\ rsum N (fun k => Cmod (s1 k) ^ 2) / INR N = snd a ^ 2 /\
    cycles wl (ts (nt - 1)%nat) + fst delay + snd delay < INR (N - 1) * dt /\
    forall i j k, (i < n0)%nat -> (j < n1)%nat -> (k < nt)%nat ->
      E i j k = Some (Cmult (RtoC (if env then sinc_envelope wl f D n (xs i) (ys j) else 1))
        (beamlet_sum wl f D n (fun m l => cis (psi0 (cycles wl (ts k) + INR m * fst delay / INR (fst n)) + psi1 (cycles wl (ts k) + INR l * snd delay / INR (snd n)))) (d_plate d) (xs i) (ys j))).
Proof.
  intros H A1 A2 S1 S2 C1 C2 H1 H2 H3 H4 H5 H6 C P0 P1 P2 Hts Hdr dt delay. destruct (speckle_init_inv _ _ _ _ _ _ _ _ _ _ _ H) as (Hb & _ & E1 & E2 & E3 & E4 & Ht & _ & Edt & Een & HS).
  destruct (HS eq_refl) as (a' & c' & s' & Q1 & Q2 & Q3 & _ & _ & _ & EA & EF & ED). injection Q1 as <-. injection Q2 as <-. injection Q3 as <-.
  assert (Hpos : 0 < fst s ^ 2 + snd s ^ 2) by nra. rewrite !ssd_freq_val in EF by (assumption || lra). pose proof (sqrt_lt_R0 _ Hpos) as Hq.
  assert (F1 : 0 < fst (ssd_nu bw a s)) by (unfold ssd_nu; cbn [fst snd]; apply Rdiv_lt_0_compat; [apply Rmult_lt_0_compat; [exact Hb|apply Rdiv_lt_0_compat; assumption]|lra]).
  assert (F2 : 0 < snd (ssd_nu bw a s)) by (unfold ssd_nu; cbn [fst snd]; apply Rdiv_lt_0_compat; [apply Rmult_lt_0_compat; [exact Hb|apply Rdiv_lt_0_compat; assumption]|lra]).
  assert (EF' : sk_freq sp = (Fin (fst (ssd_nu bw a s)), Fin (snd (ssd_nu bw a s)))) by exact EF. clear EF.
  rewrite EF' in ED. cbn [fst snd ssd_delay] in ED. rewrite (proj2 (Rltb_true _ _) F1), (proj2 (Rltb_true _ _) F2) in ED. fold delay in ED.
  fold dt in Edt. assert (Hdt : 0 < dt) by (unfold dt; repeat apply Rdiv_lt_0_compat; lra).
  assert (N1 : 0 <= fst delay) by (apply div_nonneg; assumption). assert (N2 : 0 <= snd delay) by (apply div_nonneg; assumption).
  pose proof (Hts (nt - 1)%nat ltac:(lia)) as HT. pose proof c_light_pos as Hc.
  assert (HT0 : 0 <= normalised_time sp t (nt - 1)) by (unfold normalised_time; rewrite (proj2 (proj2 (C 0%nat 0%nat (nt - 1)%nat))), E1; apply div_nonneg; [apply Rmult_le_pos; lra|exact H1]).
  assert (ET : normalised_time sp t (nt - 1) = cycles wl (ts (nt - 1)%nat)) by (unfold normalised_time, cycles; rewrite (proj2 (proj2 (C 0%nat 0%nat (nt - 1)%nat))), E1; reflexivity).
  pose proof (rpm_lengths sp (normalised_time sp t (nt - 1)) ltac:(rewrite Edt; exact Hdt) HT0 ltac:(rewrite ED; lra)) as R. cbv zeta in R.
  set (series := arange0 (normalised_time sp t (nt - 1) + sk_dt sp) (sk_dt sp)) in *. set (size := rpm_size sp (length series)) in *.
  destruct R as (Ne & Lt & Nt & Sz & Re).
  destruct (gen_first size dt (2 * PI * fst (ssd_nu bw a s)) (fst a) (d_normal d 0 0)%nat) as (s0 & G0 & R0); [lia|pose proof PI_RGT_0; nra|apply Hdr|].
  destruct (gen_first size dt (2 * PI * snd (ssd_nu bw a s)) (snd a) (d_normal d 1 0)%nat) as (s1 & G1 & R1); [lia|pose proof PI_RGT_0; nra|apply Hdr|].
  assert (Hq' : init_gaussian_time_series sp d series = Ok (rpm_times sp series, Phases (Some (real_series size s0, real_series size s1)))).
  { unfold init_gaussian_time_series. rewrite Ht. fold size. rewrite EF', EA, Edt. cbn [fst snd xscale]. rewrite G0, G1. destruct series; [contradiction|reflexivity]. }
  destruct (interp_linear (rpm_times sp series) (real_series size s0) dt size (quadrature s0)) as (I0 & J0); try assumption; [apply real_series_len|rewrite <- Edt; exact Nt|intros; apply real_series_nth; assumption|].
  destruct (interp_linear (rpm_times sp series) (real_series size s1) dt size (quadrature s1)) as (I1 & J1); try assumption; [apply real_series_len|rewrite <- Edt; exact Nt|intros; apply real_series_nth; assumption|].
  destruct (evaluate_ok sp d n0 n1 nt x y t (rpm_times sp series, Phases (Some (real_series size s0, real_series size s1))) P0 P1 P2) as (E & HE).
  { rewrite Ht. exact Hq'. }
  { intros k Hk. unfold beamlets_complex_amplitude. rewrite Ht. cbn [fst snd]. destruct (J0 (normalised_time sp t k)) as (v0 & ->). destruct (J1 (normalised_time sp t k)) as (v1 & ->). cbn [bind]. eauto. }
  exists E, size, s0, s1. do 2 eexists. split; [exact HE|]. split; [exact I0|]. split; [exact I1|]. split; [exact R0|]. split; [exact R1|].
  split; [rewrite ET, ED, Edt in Re; lra|]. intros i j k Hi Hj Hk.
  destruct (evaluate_val sp d n0 n1 nt x y t xs ys ts E HE C) as (B & (q & Hqq & HB) & V); [unfold proper; rewrite E1, E2, E3, E4; repeat split; assumption || lra|].
  rewrite V. specialize (HB k Hk). rewrite Ht in Hqq. unfold series in Hq'. rewrite Hq' in Hqq. injection Hqq as <-. fold series in HB.
  unfold beamlets_complex_amplitude in HB. rewrite Ht in HB. cbn [fst snd] in HB. rewrite ED, E1, E4 in HB.
  destruct (J0 (cycles wl (ts k))) as (v0 & W0). destruct (J1 (cycles wl (ts k))) as (v1 & W1). rewrite W0, W1 in HB. cbn [bind] in HB.
  match type of HB with Ok ?u = Ok ?v => assert (EB : u = v) by congruence end. rewrite <- EB.
  rewrite plate_not_isi by (rewrite Ht; discriminate). unfold env_factor. rewrite E1, E2, E3, E4, Een. do 2 f_equal. apply beamlet_ext. intros m l Hm Hl. split; [|reflexivity].
  destruct (J0 (cycles wl (ts k) + INR m * fst delay / INR (fst n))) as (w0 & ->). destruct (J1 (cycles wl (ts k) + INR l * snd delay / INR (snd n))) as (w1 & ->). reflexivity.
Qed.
(** ** Induced spatial incoherence *)
Lemma all_some2_true n m f : (forall i j, (i < n)%nat -> (j < m)%nat -> f i j = true) -> all_some2 n m f = true.
Proof.
  induction n as [|n IH]; intros H; [reflexivity|]. cbn [all_some2]. rewrite IH by (intros; apply H; lia). apply forallb_forall. intros j Hj. apply in_seq in Hj. apply H; lia.
Qed.
Lemma c54_isi wl f D n bw amp cyc dist env sp d n0 n1 nt x y t xs ys ts :
  speckle_init wl f D n GP_ISI bw amp cyc dist env = Ok sp ->
  0 < wl -> f <> 0 -> fst D <> 0 -> snd D <> 0 -> (0 < fst n)%nat -> (0 < snd n)%nat -> cartesian x y t xs ys ts -> (0 < n0)%nat -> (0 < n1)%nat -> (0 < nt)%nat ->
  (forall k, (k < nt)%nat -> 0 <= ts k <= ts (nt - 1)%nat) -> (forall i j, d_normal d i j 0%nat <> RtoC 0) ->
  let dt := 1 / bw / 50 in
  exists E N s, speckle_evaluate sp d n0 n1 nt x y t = Ok E /\
    (forall m l, rsum N (fun k => Cmod (s m l k) ^ 2) / INR N = 1) /\
    forall i j k, (i < n0)%nat -> (j < n1)%nat -> (k < nt)%nat ->
      exists q, (q < N)%nat /\ Rabs (cycles wl (ts k) - INR q * dt) <= dt / 2 /\
      E i j k = Some (Cmult (RtoC (if env then sinc_envelope wl f D n (xs i) (ys j) else 1)) (beamlet_sum wl f D n (fun m l => s m l q) (fun _ _ => 0) (xs i) (ys j))).
Proof.
  intros H H1 H2 H3 H4 H5 H6 C P0 P1 P2 Hts Hdr dt. destruct (speckle_init_inv _ _ _ _ _ _ _ _ _ _ _ H) as (Hb & _ & E1 & E2 & E3 & E4 & Ht & Eb & Edt & Een & _).
  fold dt in Edt. assert (Hdt : 0 < dt) by (unfold dt; repeat apply Rdiv_lt_0_compat; lra).
  pose proof (Hts (nt - 1)%nat ltac:(lia)) as HT. pose proof c_light_pos as Hc.
  assert (EC : forall k, normalised_time sp t k = cycles wl (ts k)) by (intros k; unfold normalised_time, cycles; rewrite (proj2 (proj2 (C 0%nat 0%nat k))), E1; reflexivity).
  assert (HT0 : forall k, (k < nt)%nat -> 0 <= cycles wl (ts k) <= cycles wl (ts (nt - 1)%nat)).
  { intros k Hk. specialize (Hts k Hk). unfold cycles. split; [apply div_nonneg; [apply Rmult_le_pos; lra|exact H1]|]. apply Rmult_le_compat_r; [left; apply Rinv_0_lt_compat; exact H1|nra]. }
  pose proof (HT0 (nt - 1)%nat ltac:(lia)) as HT1. set (T := cycles wl (ts (nt - 1)%nat)) in *.
  set (N := arange_len (T + dt) dt). destruct (series_len T dt Hdt ltac:(lra)) as (L & L0). fold N in L.
  assert (G : forall i j, exists s, gen_gaussian_time_series N dt (Fin (2 * bw)) 1 (d_normal d i j) = Some s /\ rsum N (fun k => Cmod (s k) ^ 2) / INR N = 1).
  { intros i j. destruct (gen_first N dt (2 * bw) 1 (d_normal d i j)) as (s & G & R); [lia|lra|apply Hdr|]. exists s. split; [exact G|rewrite R; ring]. }
  set (s := fun i j k => match gen_gaussian_time_series N dt (Fin (2 * bw)) 1 (d_normal d i j) with Some s => s k | None => RtoC 0 end).
  assert (LN : length (arange0 (T + dt) dt) = N) by apply arange0_length.
  assert (Hq : init_gaussian_time_series sp d (arange0 (T + dt) dt) = Ok (arange0 (T + dt) dt, Amplitudes N (Some s))).
  { unfold init_gaussian_time_series. rewrite Ht, LN, Eb, Edt, E4. rewrite all_some2_true by (intros i j _ _; destruct (G i j) as (g & -> & _); reflexivity).
    destruct (arange0 (T + dt) dt) eqn:Q; [simpl in LN; lia|]. reflexivity. }
  assert (Hidx : forall k, (k < nt)%nat -> py_index N (py_round (cycles wl (ts k) / dt)) = Some (Z.to_nat (py_round (cycles wl (ts k) / dt)))) by (intros k Hk; apply isi_index; [exact Hdt|apply HT0, Hk]).
  destruct (evaluate_ok sp d n0 n1 nt x y t (arange0 (T + dt) dt, Amplitudes N (Some s)) P0 P1 P2) as (E & HE).
  { rewrite Ht, EC, Edt. exact Hq. }
  { intros k Hk. unfold beamlets_complex_amplitude. rewrite Ht. cbn [fst snd]. rewrite EC, Edt, Hidx by exact Hk. eauto. }
  exists E, N, s. split; [exact HE|]. split.
  { intros m l. unfold s. destruct (G m l) as (g & -> & R). exact R. }
  intros i j k Hi Hj Hk. exists (Z.to_nat (py_round (cycles wl (ts k) / dt))).
  specialize (Hidx k Hk). pose proof Hidx as Hidx'. unfold py_index in Hidx'. set (r := py_round (cycles wl (ts k) / dt)) in *.
  assert (Hr : (0 <= r < Z.of_nat N)%Z).
  { assert (0 <= r)%Z by (apply py_round_nonneg; pose proof (div_nonneg (cycles wl (ts k)) dt ltac:(apply HT0; exact Hk) Hdt); lra).
    destruct (Z.leb_spec 0 r); [|lia]. destruct (Z.ltb_spec r (Z.of_nat N)); [lia|discriminate]. }
  split; [lia|]. split.
  - rewrite INR_IZR_INZ, Z2Nat.id by lia.
    assert (Rd : Rabs (cycles wl (ts k) / dt - IZR r) <= 1 / 2).
    { unfold r, py_round. set (u := cycles wl (ts k) / dt). pose proof (Int_part_bound u) as Bu.
      destruct (Rltb (u - IZR (Int_part u)) (1 / 2)) eqn:W1; [apply PyBase.Rltb_true in W1; apply Rabs_le; lra|]. apply PyBase.Rltb_false in W1.
      destruct (Rltb (1 / 2) (u - IZR (Int_part u))) eqn:W2; [apply PyBase.Rltb_true in W2; rewrite plus_IZR; apply Rabs_le; lra|]. apply PyBase.Rltb_false in W2.
      destruct (Z.even (Int_part u)); [|rewrite plus_IZR]; apply Rabs_le; lra. }
    replace (cycles wl (ts k) - IZR r * dt) with ((cycles wl (ts k) / dt - IZR r) * dt) by (field; lra). rewrite Rabs_mult, (Rabs_pos_eq dt) by lra. nra.
  - destruct (evaluate_val sp d n0 n1 nt x y t xs ys ts E HE C) as (B & (q & Hqq & HB) & V); [unfold proper; rewrite E1, E2, E3, E4; repeat split; assumption || lra|].
    rewrite V. specialize (HB k Hk). rewrite Ht, EC, Edt in Hqq. fold T in Hqq. rewrite Hq in Hqq. injection Hqq as <-.
    unfold beamlets_complex_amplitude in HB. rewrite Ht in HB. cbn [fst snd] in HB. rewrite E1, Edt in HB. fold r in HB. rewrite Hidx in HB.
    match type of HB with Ok ?u = Ok ?v => assert (EB : u = v) by congruence end. rewrite <- EB. unfold env_factor, plate. rewrite E1, E2, E3, E4, Een, Ht. reflexivity.
Qed.
