(** Proofs for C54, C63-C67. *)
From Verif Require Import PyBase CSum NpFFT FFTProofs NumPy NpMath NpMathProofs GridModel GridProofs LaserModel DataModel DataProofs SpectralDataProofs SpectralProps SolverSpec SolverProofs
  LaserInv EnergyProofs SpeckleModel SpeckleSpec.
Open Scope R_scope.

Lemma lens_val n i : (i < n)%nat -> lens n i = INR i - (INR n - 1) / 2.
Proof.
  intros Hi. unfold lens. destruct n as [|[|n]]; [lia| |].
  - replace i with 0%nat by lia. unfold linspace, vget. cbn [nth]. simpl INR. field.
  - rewrite linspace_nth by lia. assert (H : INR (S (S n)) - 1 <> 0) by (rewrite !S_INR; pose proof (pos_INR n); lra).
    field. exact H.
Qed.
Lemma phase_focus_val lambda f D n i x : (i < n)%nat -> lambda <> 0 -> f <> 0 -> D <> 0 ->
  phase_focus n i (x / (lambda * f / D)) = cis (k_perp lambda f D n i * x).
Proof.
  intros Hi H1 H2 H3. unfold phase_focus. rewrite lens_val by exact Hi. f_equal. unfold k_perp.
  assert (INR n <> 0) by (apply not_0_INR; lia). field. auto.
Qed.
Lemma sinc_val lambda f D (n : nat) x : (0 < n)%nat -> lambda <> 0 -> f <> 0 -> D <> 0 ->
  np_sinc (x / (lambda * f / D) / INR n) = sinc (PI * x / (lambda * f * INR n / D)).
Proof.
  intros Hi H1 H2 H3. assert (Hn : INR n <> 0) by (apply not_0_INR; lia).
  assert (E : PI * (x / (lambda * f / D) / INR n) = PI * x / (lambda * f * INR n / D)) by (field; auto).
  unfold np_sinc, sinc. rewrite E. pose proof PI_neq0 as HP.
  destruct (Reqb (x / (lambda * f / D) / INR n) 0) eqn:B; destruct (Reqb (PI * x / (lambda * f * INR n / D)) 0) eqn:B'; try reflexivity.
  - apply Reqb_true in B. apply Reqb_false in B'. rewrite B in E. rewrite <- E in B'. lra.
  - apply Reqb_true in B'. apply Reqb_false in B. rewrite B' in E. apply Rmult_integral in E. tauto.
Qed.
(** What a valid profile object satisfies. *)
Definition proper (sp : speckle) : Prop :=
  sk_lambda0 sp <> 0 /\ sk_focal sp <> 0 /\ fst (sk_aperture sp) <> 0 /\ snd (sk_aperture sp) <> 0 /\ (0 < fst (sk_n sp))%nat /\ (0 < snd (sk_n sp))%nat.
Definition env_factor (sp : speckle) (x y : R) : R := if sk_env sp then sinc_envelope (sk_lambda0 sp) (sk_focal sp) (sk_aperture sp) (sk_n sp) x y else 1.
Lemma pattern_val sp d b x y xs ys k l : proper sp -> (forall i j, x i j = xs i) -> (forall i j, y i j = ys j) ->
  speckle_pattern sp d (Some b) x y k l =
  Some (Cmult (RtoC (env_factor sp (xs k) (ys l))) (beamlet_sum (sk_lambda0 sp) (sk_focal sp) (sk_aperture sp) (sk_n sp) b (plate sp d) (xs k) (ys l))).
Proof.
  intros (H1 & H2 & H3 & H4 & H5 & H6) Hx Hy. unfold speckle_pattern. cbn zeta. rewrite !Hx, !Hy. unfold lambda_fnum. cbn [fst snd].
  set (nx := fst (sk_n sp)) in *. set (ny := snd (sk_n sp)) in *.
  match goal with |- Some (if _ then Cmult _ ?A else _) = _ => assert (E : A = beamlet_sum (sk_lambda0 sp) (sk_focal sp) (sk_aperture sp) (sk_n sp) b (plate sp d) (xs k) (ys l)) end.
  { unfold beamlet_sum. fold nx ny. rewrite csum_swap. apply csum_ext. intros j Hj. rewrite <- csum_scal_r. apply csum_ext. intros i Hi.
    rewrite !phase_focus_val by assumption. rewrite !cis_plus. ring. }
  rewrite E. f_equal. unfold env_factor. destruct (sk_env sp); [|ring].
  unfold sinc_envelope. fold nx ny. rewrite !sinc_val by assumption. reflexivity.
Qed.
Lemma evaluate_inv sp d n0 n1 nt x y t E : speckle_evaluate sp d n0 n1 nt x y t = Ok E ->
  (0 < n0)%nat /\ (0 < n1)%nat /\ (0 < nt)%nat /\ exists q l,
   (match sk_type sp with
    | GP_RPM_SSD | GP_ISI => init_gaussian_time_series sp d (arange0 (normalised_time sp t (nt - 1) + sk_dt sp) (sk_dt sp))
    | Unsupported _ => Err NotImplementedError
    | _ => Ok (arange0 (normalised_time sp t (nt - 1) + sk_dt sp) (sk_dt sp), NoSeries) end) = Ok q /\
   (forall k, (k < nt)%nat -> beamlets_complex_amplitude sp d (normalised_time sp t k) (fst q) (snd q) = Ok (nth k l None)) /\
   E = (fun i j k => speckle_pattern sp d (nth k l None) (fun a b => x a b 0%nat) (fun a b => y a b 0%nat) i j).
Proof.
  unfold speckle_evaluate. destruct (Nat.eqb_spec n0 0); [discriminate|]. destruct (Nat.eqb_spec n1 0); [discriminate|]. destruct (Nat.eqb_spec nt 0); [discriminate|]. cbn [orb]. cbn zeta.
  match goal with |- bind ?m _ = _ -> _ => destruct m as [q|e] eqn:Q; [|discriminate] end. cbn [bind].
  match goal with |- bind ?m _ = _ -> _ => destruct m as [l|e] eqn:L; [|discriminate] end. cbn [bind]. intros H. injection H as <-.
  split; [lia|]. split; [lia|]. split; [lia|]. exists q, l. split; [reflexivity|]. split; [|reflexivity].
  intros k Hk. destruct (seq_res_inv _ _ None L) as (HL & HN). rewrite map_length, seq_length in HN. specialize (HN k Hk).
  rewrite (nth_indep _ _ (beamlets_complex_amplitude sp d (normalised_time sp t 0) (fst q) (snd q))) in HN by (rewrite map_length, seq_length; exact Hk).
  rewrite (map_nth (fun k => beamlets_complex_amplitude sp d (normalised_time sp t k) (fst q) (snd q)) (seq 0 nt) 0%nat k) in HN. rewrite seq_nth in HN by exact Hk. exact HN.
Qed.
(** The complex amplitude of the beamlets at the k-th time. *)
Lemma evaluate_val sp d n0 n1 nt x y t xs ys ts E : speckle_evaluate sp d n0 n1 nt x y t = Ok E -> cartesian x y t xs ys ts -> proper sp ->
  exists B : nat -> option (nat -> nat -> C),
    (exists q, (match sk_type sp with
    | GP_RPM_SSD | GP_ISI => init_gaussian_time_series sp d (arange0 (normalised_time sp t (nt - 1) + sk_dt sp) (sk_dt sp))
    | Unsupported _ => Err NotImplementedError
    | _ => Ok (arange0 (normalised_time sp t (nt - 1) + sk_dt sp) (sk_dt sp), NoSeries) end) = Ok q /\
      forall k, (k < nt)%nat -> beamlets_complex_amplitude sp d (cycles (sk_lambda0 sp) (ts k)) (fst q) (snd q) = Ok (B k)) /\
    forall i j k, E i j k = match B k with
      | Some b => Some (Cmult (RtoC (env_factor sp (xs i) (ys j))) (beamlet_sum (sk_lambda0 sp) (sk_focal sp) (sk_aperture sp) (sk_n sp) b (plate sp d) (xs i) (ys j)))
      | None => None end.
Proof.
  intros H C P. destruct (evaluate_inv _ _ _ _ _ _ _ _ _ H) as (_ & _ & _ & q & l & Hq & Hl & ->). exists (fun k => nth k l None). split.
  - exists q. split; [exact Hq|]. intros k Hk. rewrite <- (Hl k Hk). unfold normalised_time, cycles. rewrite (proj2 (proj2 (C 0%nat 0%nat k))). reflexivity.
  - intros i j k. destruct (nth k l None) as [b|] eqn:B; [|reflexivity]. apply (pattern_val sp d b _ _ xs ys i j P).
    + intros a c. apply (C a c 0%nat).
    + intros a c. apply (C a c 0%nat).
Qed.
(** ** Constructor *)
Lemma speckle_init_inv wl f D n ty bw amp cyc dist env sp : speckle_init wl f D n ty bw amp cyc dist env = Ok sp ->
  0 < bw /\ supported ty = true /\ sk_lambda0 sp = wl /\ sk_focal sp = f /\ sk_aperture sp = D /\ sk_n sp = n /\ sk_type sp = ty /\ sk_bandwidth sp = bw /\
  sk_dt sp = 1 / bw / 50 /\ sk_env sp = env /\
  (has_SSD ty = true -> exists a c s, amp = Some a /\ cyc = Some c /\ dist = Some s /\ some_positive a = true /\ some_positive c = true /\ some_positive s = true /\ sk_amp sp = a /\
     sk_freq sp = (ssd_frequency bw s (fst s) (fst a), ssd_frequency bw s (snd s) (snd a)) /\ sk_delay sp = (ssd_delay (fst c) (fst (sk_freq sp)), ssd_delay (snd c) (snd (sk_freq sp)))).
Proof.
  unfold speckle_init. destruct (Reqb bw 0) eqn:B0; [discriminate|].
  match goal with |- bind ?m _ = _ -> _ => destruct m as [ssd|e] eqn:Q; [|discriminate] end. cbn [bind].
  unfold pyassert. destruct (supported ty) eqn:Su; [|discriminate]. cbn [bind]. destruct (Rltb 0 bw) eqn:B; [|discriminate]. cbn [bind]. apply Rltb_true in B.
  match goal with |- bind ?m _ = _ -> _ => destruct m as [u|e] eqn:A; [|discriminate] end. cbn [bind]. intros H. injection H as <-. cbn.
  do 10 (split; [first [assumption|reflexivity]|]). intros Hs. rewrite Hs in *.
  destruct dist as [s|]; [|discriminate]. destruct amp as [a|]; [|discriminate]. destruct cyc as [c|]; [|destruct (orb _ _); discriminate].
  injection Q as <-. cbn. unfold pyassert in A. destruct (andb _ _) eqn:An; [|discriminate]. apply andb_prop in An. destruct An as (A1 & A2). apply andb_prop in A2. destruct A2 as (A2 & A3).
  exists a, c, s. repeat split; try reflexivity; assumption.
Qed.
Lemma ssd_freq_val bw s a k : 0 < fst s ^ 2 + snd s ^ 2 -> a <> 0 -> ssd_frequency bw s k a = Fin (bw * (k / sqrt (fst s ^ 2 + snd s ^ 2)) / (2 * a)).
Proof.
  intros Hs Ha. unfold ssd_frequency, xdiv. pose proof (sqrt_lt_R0 _ Hs) as Hq. destruct (Reqb _ 0) eqn:B; [apply Reqb_true in B; lra|].
  destruct (Reqb a 0) eqn:B2; [apply Reqb_true in B2; contradiction|]. f_equal. field. lra.
Qed.
(** ** C54: the documented sum *)
Lemma plate_not_isi sp d : sk_type sp <> GP_ISI -> plate sp d = d_plate d.
Proof. intros H. unfold plate. destruct (sk_type sp); try reflexivity. contradiction. Qed.
Lemma beamlet_ext la f D n A A' phi phi' x y : (forall i j, (i < fst n)%nat -> (j < snd n)%nat -> A i j = A' i j /\ phi i j = phi' i j) ->
  beamlet_sum la f D n A phi x y = beamlet_sum la f D n A' phi' x y.
Proof. intros H. unfold beamlet_sum. apply csum_ext; intros i Hi. apply csum_ext; intros j Hj. destruct (H i j Hi Hj) as (-> & ->). reflexivity. Qed.
Lemma c54_plates wl f D n ty bw amp cyc dist env sp d n0 n1 nt x y t xs ys ts :
  speckle_init wl f D n ty bw amp cyc dist env = Ok sp -> (ty = RPP \/ ty = CPP) ->
  wl <> 0 -> f <> 0 -> fst D <> 0 -> snd D <> 0 -> (0 < fst n)%nat -> (0 < snd n)%nat -> cartesian x y t xs ys ts -> (0 < n0)%nat -> (0 < n1)%nat -> (0 < nt)%nat ->
  exists E, speckle_evaluate sp d n0 n1 nt x y t = Ok E /\ forall i j k, (i < n0)%nat -> (j < n1)%nat -> (k < nt)%nat ->
    E i j k = Some (Cmult (RtoC (if env then sinc_envelope wl f D n (xs i) (ys j) else 1)) (beamlet_sum wl f D n (fun _ _ => RtoC 1) (d_plate d) (xs i) (ys j))).
Proof.
  intros H Ht H1 H2 H3 H4 H5 H6 C P0 P1 P2. destruct (speckle_init_inv _ _ _ _ _ _ _ _ _ _ _ H) as (_ & _ & <- & <- & <- & <- & <- & _ & _ & <- & _).
  assert (Ex : exists E, speckle_evaluate sp d n0 n1 nt x y t = Ok E).
  { unfold speckle_evaluate. destruct (Nat.eqb_spec n0 0); [lia|]. destruct (Nat.eqb_spec n1 0); [lia|]. destruct (Nat.eqb_spec nt 0); [lia|]. cbn [orb]. cbn zeta.
    assert (S1 : exists r, seq_res (map (fun k => beamlets_complex_amplitude sp d (normalised_time sp t k) (arange0 (normalised_time sp t (nt - 1) + sk_dt sp) (sk_dt sp)) NoSeries) (seq 0 nt)) = Ok r).
    { apply seq_res_ok. intros b Hb. apply in_map_iff in Hb. destruct Hb as (k & <- & _). unfold beamlets_complex_amplitude. destruct Ht as [-> | ->]; eauto. }
    destruct S1 as (r & S1). destruct Ht as [Ht | Ht]; rewrite Ht; cbn [bind fst snd]; rewrite S1; eexists; reflexivity. }
  destruct Ex as (E & HE). exists E. split; [exact HE|]. intros i j k Hi Hj Hk.
  destruct (evaluate_val sp d n0 n1 nt x y t xs ys ts E HE C) as (B & (q & Hq & HB) & V); [unfold proper; auto 10|].
  rewrite V. specialize (HB k Hk). unfold beamlets_complex_amplitude in HB.
  assert (EB : B k = Some (fun _ _ => RtoC 1)) by (destruct Ht as [Ht|Ht]; rewrite Ht in HB; injection HB as <-; reflexivity). rewrite EB.
  rewrite plate_not_isi by (destruct Ht as [-> | ->]; discriminate). reflexivity.
Qed.
Lemma c54_fm wl f D n bw a c s env sp d n0 n1 nt x y t xs ys ts :
  speckle_init wl f D n FM_SSD bw (Some a) (Some c) (Some s) env = Ok sp ->
  0 < fst a -> 0 < snd a -> 0 < fst s -> 0 < snd s ->
  wl <> 0 -> f <> 0 -> fst D <> 0 -> snd D <> 0 -> (0 < fst n)%nat -> (0 < snd n)%nat -> cartesian x y t xs ys ts -> (0 < n0)%nat -> (0 < n1)%nat -> (0 < nt)%nat ->
  exists E, speckle_evaluate sp d n0 n1 nt x y t = Ok E /\ forall i j k, (i < n0)%nat -> (j < n1)%nat -> (k < nt)%nat ->
    E i j k = Some (Cmult (RtoC (if env then sinc_envelope wl f D n (xs i) (ys j) else 1))
      (beamlet_sum wl f D n (fun m l => cis (psi_ssd a c (ssd_nu bw a s) (d_dephasing d) n (cycles wl (ts k)) m l)) (d_plate d) (xs i) (ys j))).
Proof.
  intros H A1 A2 S1 S2 H1 H2 H3 H4 H5 H6 C P0 P1 P2. destruct (speckle_init_inv _ _ _ _ _ _ _ _ _ _ _ H) as (Hb & _ & <- & <- & <- & <- & Ht & _ & _ & <- & HS).
  destruct (HS eq_refl) as (a' & c' & s' & E1 & E2 & E3 & _ & _ & _ & EA & EF & ED). injection E1 as <-. injection E2 as <-. injection E3 as <-.
  assert (Hpos : 0 < fst s ^ 2 + snd s ^ 2) by nra. rewrite !ssd_freq_val in EF by (assumption || lra). pose proof (sqrt_lt_R0 _ Hpos) as Hq.
  assert (Ex : exists E, speckle_evaluate sp d n0 n1 nt x y t = Ok E).
  { unfold speckle_evaluate. destruct (Nat.eqb_spec n0 0); [lia|]. destruct (Nat.eqb_spec n1 0); [lia|]. destruct (Nat.eqb_spec nt 0); [lia|]. cbn [orb]. cbn zeta.
    assert (Sx : exists r, seq_res (map (fun k => beamlets_complex_amplitude sp d (normalised_time sp t k) (arange0 (normalised_time sp t (nt - 1) + sk_dt sp) (sk_dt sp)) NoSeries) (seq 0 nt)) = Ok r).
    { apply seq_res_ok. intros b Hbb. apply in_map_iff in Hbb. destruct Hbb as (k & <- & _). unfold beamlets_complex_amplitude. rewrite Ht. eauto. }
    destruct Sx as (r & Sx). rewrite Ht; cbn [bind fst snd]; rewrite Sx; eexists; reflexivity. }
  destruct Ex as (E & HE). exists E. split; [exact HE|]. intros i j k Hi Hj Hk.
  destruct (evaluate_val sp d n0 n1 nt x y t xs ys ts E HE C) as (B & (q & Hqq & HB) & V); [unfold proper; auto 10|].
  rewrite V. specialize (HB k Hk). unfold beamlets_complex_amplitude in HB. rewrite Ht, EF, ED, EA, EF in HB. match type of HB with Ok ?u = Ok ?v => assert (EB : u = v) by congruence end. rewrite <- EB.
  rewrite plate_not_isi by (rewrite Ht; discriminate). do 2 f_equal. apply beamlet_ext. intros m l Hm Hl. split; [|reflexivity]. f_equal.
  unfold psi_ssd, fm_phase, ssd_nu, ssd_delay. cbn [fst snd]. set (N := sqrt (fst s ^ 2 + snd s ^ 2)) in *.
  assert (F1 : 0 < bw * (fst s / N) / (2 * fst a)) by (apply Rdiv_lt_0_compat; [apply Rmult_lt_0_compat; [exact Hb|apply Rdiv_lt_0_compat; assumption]|lra]).
  assert (F2 : 0 < bw * (snd s / N) / (2 * snd a)) by (apply Rdiv_lt_0_compat; [apply Rmult_lt_0_compat; [exact Hb|apply Rdiv_lt_0_compat; assumption]|lra]).
  rewrite (proj2 (Rltb_true _ _) F1), (proj2 (Rltb_true _ _) F2). rewrite !lens_val by assumption.
  assert (I1 : INR (fst (sk_n sp)) <> 0) by (apply not_0_INR; lia). assert (I2 : INR (snd (sk_n sp)) <> 0) by (apply not_0_INR; lia).
  f_equal; f_equal; f_equal; field; repeat split; try assumption; lra.
Qed.
