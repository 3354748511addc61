(** C66, C68: the random time series. *)
From Verif Require Import PyBase CSum NpFFT FFTProofs NumPy NpMath NpMathProofs DataModel DataProofs TransDataProofs EnergyProofs SpeckleModel SpeckleSpec SpeckleProofs.
Open Scope R_scope.

Lemma rsum_fftshift n (G : nat -> R) : rsum n (fun j => fftshift1 n G j) = rsum n G.
Proof. unfold fftshift1. apply (rsum_roll n _ (fun q _ => G q)). Qed.
Lemma rsum_ifftshift n (G : nat -> R) : rsum n (fun j => ifftshift1 n G j) = rsum n G.
Proof. unfold ifftshift1. apply (rsum_roll n _ (fun q _ => G q)). Qed.
Lemma shifted_parseval n (x : nat -> C) : (0 < n)%nat ->
  rsum n (fun k => Cmod (ifftshift1 n (fft1 n (fftshift1 n x)) k) ^ 2) = INR n * rsum n (fun k => Cnorm2 (x k)).
Proof.
  intros Hn. rewrite (rsum_ext n _ (fun k => ifftshift1 n (fun q => Cnorm2 (fft1 n (fftshift1 n x) q)) k)) by (intros; unfold ifftshift1; apply Cmod_sq).
  rewrite rsum_ifftshift, parseval_fft by exact Hn. f_equal.
  rewrite (rsum_ext n _ (fun k => fftshift1 n (fun q => Cnorm2 (x q)) k)) by reflexivity. apply rsum_fftshift.
Qed.
(** The Gaussian weight of frequency nu. *)
Definition weight (fwhm nu : R) : R := exp (- ln 2 * (1 / 2) * (nu / fwhm * 2 * PI) ^ 2).
Lemma weight_pos f nu : 0 < weight f nu.
Proof. apply exp_pos. Qed.
Definition noise (n : nat) (dt f : R) (z : nat -> C) (k : nat) : C := Cmult (RtoC (weight f (fftshift1 n (fftfreq n dt) k))) (z k).
Lemma noise_pos n dt f z : (exists k, (k < n)%nat /\ z k <> RtoC 0) -> 0 < rsum n (fun k => Cnorm2 (noise n dt f z k)).
Proof.
  intros (k & Hk & Hz).
  assert (H0 : 0 <= rsum n (fun k => Cnorm2 (noise n dt f z k))) by (apply rsum_nonneg; intros; apply Cnorm2_nonneg).
  destruct (Rle_lt_or_eq_dec _ _ H0) as [|E]; [assumption|exfalso]. symmetry in E.
  pose proof (rsum_nonneg_zero n _ (fun i _ => Cnorm2_nonneg _) E k Hk) as Z. unfold noise in Z. rewrite Cnorm2_mult, Cnorm2_R in Z.
  apply Rmult_integral in Z. destruct Z as [Z|Z]; [|apply Cnorm2_eq_0 in Z; contradiction].
  pose proof (weight_pos f (fftshift1 n (fftfreq n dt) k)). apply Rmult_integral in Z. lra.
Qed.
Definition gain (n : nat) (dt f rms : R) (z : nat -> C) : R := rms / sqrt (INR n * rsum n (fun k => Cnorm2 (noise n dt f z k)) / INR n).
Lemma gen_val n dt f rms z : (0 < n)%nat -> f <> 0 -> (exists k, (k < n)%nat /\ z k <> RtoC 0) ->
  gen_gaussian_time_series n dt (Fin f) rms z =
  Some (fun k => Cmult (ifftshift1 n (fft1 n (fftshift1 n (noise n dt f z))) k) (RtoC (gain n dt f rms z))).
Proof.
  intros Hn Hf Hz. unfold gen_gaussian_time_series, xzero. destruct (Reqb f 0) eqn:B; [apply Reqb_true in B; contradiction|]. unfold psd at 1. cbn zeta.
  assert (E : forall k, match psd dt n (Fin f) k with Some p => Cmult (RtoC p) (z k) | None => RtoC 0 end = noise n dt f z k) by reflexivity.
  change (fun k => match psd dt n (Fin f) k with Some p => Cmult (RtoC p) (z k) | None => RtoC 0 end) with (noise n dt f z).
  rewrite shifted_parseval by exact Hn. pose proof (noise_pos n dt f z Hz) as P. pose proof (INR_pos n Hn) as HN.
  assert (M : INR n * rsum n (fun k => Cnorm2 (noise n dt f z k)) / INR n = rsum n (fun k => Cnorm2 (noise n dt f z k))) by (field; lra).
  match goal with |- (if ?c then _ else _) = _ => destruct c eqn:B2; [apply Reqb_true in B2; lra|] end. reflexivity.
Qed.
Lemma gen_rms n dt f rms z : (0 < n)%nat -> f <> 0 -> (exists k, (k < n)%nat /\ z k <> RtoC 0) ->
  exists s, gen_gaussian_time_series n dt (Fin f) rms z = Some s /\ rsum n (fun k => Cmod (s k) ^ 2) / INR n = rms ^ 2.
Proof.
  intros Hn Hf Hz. eexists. split; [apply gen_val; assumption|]. pose proof (noise_pos n dt f z Hz) as P. pose proof (INR_pos n Hn) as HN.
  assert (M : INR n * rsum n (fun k => Cnorm2 (noise n dt f z k)) / INR n = rsum n (fun k => Cnorm2 (noise n dt f z k))) by (field; lra).
  rewrite (rsum_ext n _ (fun k => Cmod (ifftshift1 n (fft1 n (fftshift1 n (noise n dt f z))) k) ^ 2 * gain n dt f rms z ^ 2)).
  2:{ intros k Hk. rewrite Cmod_mult, Cmod_R, Rpow_mult_distr, pow2_abs. reflexivity. }
  rewrite rsum_scal_r, shifted_parseval by exact Hn. unfold gain. rewrite M. set (W := rsum n _) in *.
  unfold Rdiv. rewrite Rpow_mult_distr, pow_inv. rewrite pow2_sqrt by lra. field. lra.
Qed.
(** Widths that are zero, infinite or nan. *)
Lemma gen_infinite n dt rms z : (0 < n)%nat -> (exists k, (k < n)%nat /\ z k <> RtoC 0) ->
  exists s, gen_gaussian_time_series n dt Infinite rms z = Some s /\ rsum n (fun k => Cmod (s k) ^ 2) / INR n = rms ^ 2.
Proof.
  intros Hn (k0 & Hk & Hz). pose proof (INR_pos n Hn) as HN.
  assert (P : 0 < rsum n (fun k => Cnorm2 (Cmult (RtoC 1) (z k)))).
  { assert (H0 : 0 <= rsum n (fun k => Cnorm2 (Cmult (RtoC 1) (z k)))) by (apply rsum_nonneg; intros; apply Cnorm2_nonneg).
    destruct (Rle_lt_or_eq_dec _ _ H0) as [|E]; [assumption|exfalso]. symmetry in E.
    pose proof (rsum_nonneg_zero n _ (fun i _ => Cnorm2_nonneg _) E k0 Hk) as Z. cbn beta in Z. rewrite Cnorm2_mult, Cnorm2_R in Z.
    apply Rmult_integral in Z. destruct Z as [Z|Z]; [lra|apply Cnorm2_eq_0 in Z; contradiction]. }
  unfold gen_gaussian_time_series. cbn [xzero psd]. cbn zeta.
  change (fun k : nat => Cmult (RtoC 1) (z k)) with (fun k : nat => Cmult (RtoC 1) (z k)) in *.
  rewrite shifted_parseval by exact Hn.
  assert (M : INR n * rsum n (fun k => Cnorm2 (Cmult (RtoC 1) (z k))) / INR n = rsum n (fun k => Cnorm2 (Cmult (RtoC 1) (z k)))) by (field; lra).
  rewrite M. destruct (Reqb _ 0) eqn:B; [apply Reqb_true in B; lra|]. eexists. split; [reflexivity|]. cbn beta.
  set (W := rsum n (fun k => Cnorm2 (Cmult (RtoC 1) (z k)))) in *.
  rewrite (rsum_ext n _ (fun k => Cmod (ifftshift1 n (fft1 n (fftshift1 n (fun k => Cmult (RtoC 1) (z k)))) k) ^ 2 * (rms / sqrt W) ^ 2)).
  2:{ intros k Hk'. rewrite Cmod_mult, Cmod_R, Rpow_mult_distr, pow2_abs. reflexivity. }
  rewrite rsum_scal_r, shifted_parseval by exact Hn. fold W.
  unfold Rdiv. rewrite Rpow_mult_distr, pow_inv, pow2_sqrt by lra. field. lra.
Qed.
Lemma gen_edges n dt rms z :
  (exists s, gen_gaussian_time_series n dt (Fin 0) rms z = Some s /\ forall k, s k = RtoC 0) /\
  gen_gaussian_time_series n dt NaN rms z = None.
Proof.
  unfold gen_gaussian_time_series. cbn [xzero psd]. rewrite (proj2 (Reqb_true 0 0) eq_refl). split; [|reflexivity].
  eexists. split; reflexivity.
Qed.
(** ** Spectrum *)
Lemma roll_mod n s k : (0 < n)%nat -> exists q, Z.of_nat (roll_index n s k) = (Z.of_nat k - s + q * Z.of_nat n)%Z.
Proof.
  intros Hn. unfold roll_index. rewrite Z2Nat.id by (apply Z.mod_pos_bound; lia). exists (- ((Z.of_nat k - s) / Z.of_nat n))%Z.
  pose proof (Z.div_mod (Z.of_nat k - s) (Z.of_nat n) ltac:(lia)). lia.
Qed.
Lemma fft_roll n s (x : nat -> C) k : (0 < n)%nat ->
  fft1 n x (roll_index n s k) = fft1 n (fun j => Cmult (x j) (cis (2 * PI * (INR j * IZR s) / INR n))) k.
Proof.
  intros Hn. unfold fft1. apply csum_ext. intros j Hj. destruct (roll_mod n s k Hn) as (q & Hq).
  rewrite (INR_IZR_INZ (roll_index n s k)), Hq. pose proof (INR_neq0 n Hn) as HN.
  rewrite <- Cmult_assoc, <- cis_plus. f_equal.
  rewrite <- (cis_period (- (2 * PI * (INR j * _) / INR n)) (Z.of_nat j * q)). f_equal. rewrite plus_IZR, minus_IZR, !mult_IZR, <- !INR_IZR_INZ. field. exact HN.
Qed.
(** The index of the draw behind frequency bin q, and the bin whose weight it gets. *)
Lemma double_shift n q : (q < n)%nat -> roll_index n (Z.of_nat (n / 2)) (roll_index n (Z.of_nat (n / 2)) q) = if Nat.even n then q else ((q + 1) mod n)%nat.
Proof.
  intros Hq. unfold roll_index. rewrite Z2Nat.id by (apply Z.mod_pos_bound; lia). rewrite Zminus_mod_idemp_l.
  destruct (Nat.even n) eqn:Ev.
  - apply Nat.even_spec in Ev. destruct Ev as (m & ->). replace (2 * m / 2)%nat with m by (rewrite Nat.mul_comm, Nat.div_mul; lia).
    replace (Z.of_nat q - Z.of_nat m - Z.of_nat m)%Z with (Z.of_nat q + -1 * Z.of_nat (2 * m))%Z by lia. rewrite Z.mod_add by lia. rewrite Z.mod_small by lia. lia.
  - assert (Od : Nat.odd n = true) by (unfold Nat.odd; rewrite Ev; reflexivity). apply Nat.odd_spec in Od. destruct Od as (m & ->).
    replace ((2 * m + 1) / 2)%nat with m by (rewrite Nat.mul_comm, Nat.div_add_l by lia; simpl; lia).
    replace (Z.of_nat q - Z.of_nat m - Z.of_nat m)%Z with (Z.of_nat (q + 1) + -1 * Z.of_nat (2 * m + 1))%Z by lia. rewrite Z.mod_add by lia. rewrite <- Nat2Z.inj_mod. lia.
Qed.
Lemma gen_spectrum n dt f rms z q : (q < n)%nat -> f <> 0 -> (exists k, (k < n)%nat /\ z k <> RtoC 0) ->
  exists s, gen_gaussian_time_series n dt (Fin f) rms z = Some s /\
    Cmod (ifft1 n s q) = Rabs (gain n dt f rms z) * weight f (fftfreq n dt (if Nat.even n then q else ((q + 1) mod n)%nat)) * Cmod (z (roll_index n (Z.of_nat (n / 2)) q)).
Proof.
  intros Hq Hf Hz. assert (Hn : (0 < n)%nat) by lia. eexists. split; [apply gen_val; assumption|].
  set (y := fftshift1 n (noise n dt f z)).
  rewrite (ifft1_ext n _ (fun k => Cmult (RtoC (gain n dt f rms z)) (fft1 n (fun j => Cmult (y j) (cis (2 * PI * (INR j * IZR (- Z.of_nat (n / 2))) / INR n))) k))).
  2:{ intros k Hk. unfold ifftshift1. rewrite fft_roll by exact Hn. ring. }
  rewrite ifft1_scal, ifft_fft1 by exact Hq. rewrite !Cmod_mult, Cmod_R, Cmod_cis, Rmult_1_r. rewrite Rmult_assoc. f_equal.
  unfold y, fftshift1, noise. rewrite Cmod_mult, Cmod_R, Rabs_pos_eq by (left; apply weight_pos). unfold fftshift1. rewrite double_shift by exact Hq. reflexivity.
Qed.
Lemma weight_half f nu : 0 < f -> (weight f nu ^ 2 = 1 / 2 * weight f 0 ^ 2 <-> Rabs nu = f / (2 * PI)).
Proof.
  intros Hf. pose proof PI_RGT_0 as HP. unfold weight. replace (- ln 2 * (1 / 2) * (0 / f * 2 * PI) ^ 2) with 0 by (field; lra). rewrite exp_0.
  replace (exp (- ln 2 * (1 / 2) * (nu / f * 2 * PI) ^ 2) ^ 2) with (exp (- ln 2 * (nu / f * 2 * PI) ^ 2)).
  2:{ match goal with |- _ = ?e ^ 2 => replace (e ^ 2) with (e * e) by ring end. rewrite <- exp_plus. f_equal. field. lra. }
  replace (1 / 2 * 1 ^ 2) with (exp (- ln 2)) by (rewrite exp_Ropp, exp_ln by lra; field).
  assert (L : 0 < ln 2) by (rewrite <- ln_1; apply ln_increasing; lra).
  assert (Q : nu / f * 2 * PI = nu / (f / (2 * PI))) by (field; lra). rewrite Q. set (h := f / (2 * PI)). assert (Hh : 0 < h) by (apply Rdiv_lt_0_compat; lra).
  split.
  - intros E. apply exp_inv in E. assert (E2 : (nu / h) ^ 2 = 1) by (apply Rmult_eq_reg_l with (- ln 2); lra).
    assert (E3 : Rabs nu ^ 2 = h ^ 2) by (rewrite pow2_abs; transitivity ((nu / h) ^ 2 * h ^ 2); [field; lra|rewrite E2; ring]).
    pose proof (Rabs_pos nu). nra.
  - intros E. f_equal. assert (E2 : nu ^ 2 = h ^ 2) by (rewrite <- E, pow2_abs; reflexivity). replace ((nu / h) ^ 2) with (nu ^ 2 / h ^ 2) by (field; lra). rewrite E2. field. lra.
Qed.
Lemma c68_even n dt f rms z : (0 < n)%nat -> Nat.even n = true -> f <> 0 -> (exists k, (k < n)%nat /\ z k <> RtoC 0) ->
  exists s K, gen_gaussian_time_series n dt (Fin f) rms z = Some s /\
    forall q, (q < n)%nat -> Cmod (ifft1 n s q) = K * exp (- (ln 2 / 2) * (2 * PI * fftfreq n dt q / f) ^ 2) * Cmod (z ((q + n / 2) mod n)%nat).
Proof.
  intros Hn He Hf Hz. destruct (gen_spectrum n dt f rms z 0 Hn Hf Hz) as (s & G & _). exists s, (Rabs (gain n dt f rms z)). split; [exact G|]. intros q Hq.
  destruct (gen_spectrum n dt f rms z q Hq Hf Hz) as (s' & G' & M). rewrite G in G'. injection G' as <-. rewrite M, He. unfold weight. f_equal; [f_equal; f_equal; field; exact Hf|].
  do 2 f_equal. unfold roll_index. apply Nat.even_spec in He. destruct He as (m & ->). replace (2 * m / 2)%nat with m by (rewrite Nat.mul_comm, Nat.div_mul; lia).
  replace (Z.of_nat q - Z.of_nat m)%Z with (Z.of_nat (q + m) + -1 * Z.of_nat (2 * m))%Z by lia. rewrite Z.mod_add by lia. rewrite <- Nat2Z.inj_mod. lia.
Qed.
Lemma c68_odd n dt f rms z : Nat.even n = false -> f <> 0 -> (exists k, (k < n)%nat /\ z k <> RtoC 0) ->
  exists s K, gen_gaussian_time_series n dt (Fin f) rms z = Some s /\
    forall q, (q < n)%nat -> Cmod (ifft1 n s q) = K * exp (- (ln 2 / 2) * (2 * PI * fftfreq n dt ((q + 1) mod n) / f) ^ 2) * Cmod (z ((q + n / 2 + 1) mod n)%nat).
Proof.
  intros He Hf Hz. assert (Hn : (0 < n)%nat) by (destruct n; [discriminate|lia]). destruct (gen_spectrum n dt f rms z 0 Hn Hf Hz) as (s & G & _). exists s, (Rabs (gain n dt f rms z)). split; [exact G|]. intros q Hq.
  destruct (gen_spectrum n dt f rms z q Hq Hf Hz) as (s' & G' & M). rewrite G in G'. injection G' as <-. rewrite M, He. unfold weight. f_equal; [f_equal; f_equal; field; exact Hf|].
  do 2 f_equal. unfold roll_index. assert (Od : Nat.odd n = true) by (unfold Nat.odd; rewrite He; reflexivity). apply Nat.odd_spec in Od. destruct Od as (m & ->).
  replace ((2 * m + 1) / 2)%nat with m by (rewrite Nat.mul_comm, Nat.div_add_l by lia; simpl; lia).
  replace (Z.of_nat q - Z.of_nat m)%Z with (Z.of_nat (q + m + 1) + -1 * Z.of_nat (2 * m + 1))%Z by lia. rewrite Z.mod_add by lia. rewrite <- Nat2Z.inj_mod. lia.
Qed.
Lemma c68_odd_witness : exists s, gen_gaussian_time_series 3 1 (Fin 1) 1 (fun _ => RtoC 1) = Some s /\
  fftfreq 3 1 0 = 0 /\ fftfreq 3 1 2 = - (1 / 3) /\ Cmod (ifft1 3 s 0) < Cmod (ifft1 3 s 2).
Proof.
  assert (Z1 : exists k, (k < 3)%nat /\ (fun _ : nat => RtoC 1) k <> RtoC 0) by (exists 0%nat; split; [lia|]; intros E; injection E as E; lra).
  destruct (c68_odd 3 1 1 1 (fun _ => RtoC 1) eq_refl ltac:(lra) Z1) as (s & K & G & M). exists s. split; [exact G|].
  assert (F0 : fftfreq 3 1 0 = 0) by (unfold fftfreq; cbn; field). assert (F2 : fftfreq 3 1 2 = - (1 / 3)) by (unfold fftfreq; cbn; field). assert (F1 : fftfreq 3 1 1 = 1 / 3) by (unfold fftfreq; cbn; field).
  split; [exact F0|]. split; [exact F2|]. pose proof (M 0%nat ltac:(lia)) as M0. pose proof (M 2%nat ltac:(lia)) as M2. cbn [Nat.add Nat.modulo Nat.divmod Nat.sub fst snd] in M0, M2.
  change ((0 + 1) mod 3)%nat with 1%nat in M0. change ((2 + 1) mod 3)%nat with 0%nat in M2. rewrite M0, M2, F0, F1, Cmod_1, !Rmult_1_r.
  assert (HK : 0 < K).
  { destruct (Rle_lt_dec K 0) as [Hle|]; [exfalso|assumption].
    destruct (gen_rms 3 1 1 1 (fun _ => RtoC 1) ltac:(lia) ltac:(lra) Z1) as (s' & G' & R). rewrite G in G'. injection G' as <-.
    assert (Zs : forall q, (q < 3)%nat -> Cnorm2 (ifft1 3 s q) = 0).
    { intros q Hq. rewrite Cnorm2_Cmod. pose proof (Cmod_ge_0 (ifft1 3 s q)) as P. rewrite M, Cmod_1 in P |- * by exact Hq.
      match goal with |- context [exp ?a] => pose proof (exp_pos a) end. assert (K = 0) by nra. subst K. ring. }
    assert (Ps : rsum 3 (fun k => Cnorm2 (s k)) = 0) by (rewrite parseval_ifft by lia; rewrite (rsum_ext 3 _ (fun _ => 0)) by exact Zs; rewrite rsum_0; ring).
    rewrite (rsum_ext 3 _ (fun k => Cnorm2 (s k))) in R by (intros; apply Cmod_sq). rewrite Ps in R. lra. }
  apply Rmult_lt_compat_l; [exact HK|]. apply exp_increasing. assert (L : 0 < ln 2) by (rewrite <- ln_1; apply ln_increasing; lra). pose proof PI_RGT_0 as HP.
  assert (0 < ln 2 * PI ^ 2) by (apply Rmult_lt_0_compat; [exact L|apply pow_lt, HP]).
  replace (- (ln 2 / 2) * (2 * PI * (1 / 3) / 1) ^ 2) with (- (2 / 9 * (ln 2 * PI ^ 2))) by field. replace (- (ln 2 / 2) * (2 * PI * 0 / 1) ^ 2) with 0 by field. lra.
Qed.
Lemma c68_width f nu : 0 < f -> (exp (- (ln 2 / 2) * (2 * PI * nu / f) ^ 2) ^ 2 = 1 / 2 <-> Rabs nu = f / (2 * PI)).
Proof.
  intros Hf. rewrite <- (weight_half f nu Hf). unfold weight. replace (- ln 2 * (1 / 2) * (0 / f * 2 * PI) ^ 2) with 0 by (field; lra). rewrite exp_0.
  replace (- ln 2 * (1 / 2) * (nu / f * 2 * PI) ^ 2) with (- (ln 2 / 2) * (2 * PI * nu / f) ^ 2) by (field; lra). rewrite pow1, Rmult_1_r. reflexivity.
Qed.
