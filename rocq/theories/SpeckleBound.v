(** C54 (bound, random phase modulation, induced spatial incoherence), C63, C64, C65, C67. *)
From Verif Require Import PyBase CSum NpFFT FFTProofs NumPy NpMath NpMathProofs GridModel GridProofs LaserModel DataModel DataProofs SpectralDataProofs SpectralProps SolverSpec SolverProofs
  LaserInv EnergyProofs SpeckleModel SpeckleSpec SpeckleProofs.
Open Scope R_scope.

(** ** Bound *)
Lemma sin_bound u : Rabs (sin u) <= Rabs u.
Proof.
  assert (P : forall v, 0 < v -> Rabs (sin v) <= v).
  { intros v Hv. apply Rabs_le. pose proof (sin_lt_x v Hv). pose proof (SIN_bound v). pose proof PI2_1. split; [|lra].
    destruct (Rle_dec v PI) as [H'|H']; [pose proof (sin_ge_0 v); lra|]. lra. }
  destruct (Rtotal_order u 0) as [H|[->|H]].
  - rewrite (Rabs_left u) by lra. rewrite <- (Rabs_Ropp (sin u)), <- sin_neg. apply P. lra.
  - rewrite sin_0. lra.
  - rewrite (Rabs_pos_eq u) by lra. apply P, H.
Qed.
Lemma sinc_bound u : Rabs (sinc u) <= 1.
Proof.
  unfold sinc. destruct (Reqb u 0) eqn:B; [rewrite Rabs_R1; lra|]. apply Reqb_false in B. unfold Rdiv. rewrite Rabs_mult, Rabs_inv.
  apply Rmult_le_reg_r with (Rabs u); [apply Rabs_pos_lt, B|]. rewrite Rmult_assoc, Rinv_l by (apply Rabs_no_R0, B). rewrite Rmult_1_r, Rmult_1_l. apply sin_bound.
Qed.
Lemma env_bound sp x y : Rabs (env_factor sp x y) <= 1.
Proof.
  unfold env_factor. destruct (sk_env sp); [|rewrite Rabs_R1; lra]. unfold sinc_envelope. rewrite Rabs_mult.
  match goal with |- Rabs (sinc ?a) * Rabs (sinc ?b) <= 1 => pose proof (sinc_bound a); pose proof (sinc_bound b); pose proof (Rabs_pos (sinc a)); pose proof (Rabs_pos (sinc b)) end. nra.
Qed.
Lemma beamlet_bound la f D n A phi x y : (forall i j, (i < fst n)%nat -> (j < snd n)%nat -> Cmod (A i j) <= 1) -> Cmod (beamlet_sum la f D n A phi x y) <= INR (fst n) * INR (snd n).
Proof.
  intros H. unfold beamlet_sum. apply Cmod_csum_le. intros i Hi. rewrite <- (Rmult_1_r (INR (snd n))). apply Cmod_csum_le. intros j Hj. rewrite Cmod_mult, Cmod_cis, Rmult_1_r. auto.
Qed.
Lemma bca_unit sp d t times ts b i j : sk_type sp <> GP_ISI -> beamlets_complex_amplitude sp d t times ts = Ok (Some b) -> Cmod (b i j) <= 1.
Proof.
  intros H. unfold beamlets_complex_amplitude. destruct (sk_type sp); try contradiction; try discriminate.
  - intros E. injection E as <-. rewrite Cmod_1. lra.
  - intros E. injection E as <-. rewrite Cmod_1. lra.
  - destruct (sk_freq sp) as [[f0| |] [f1| |]]; intros E; try discriminate. injection E as <-. rewrite Cmod_cis. lra.
  - destruct ts as [|[[p0 p1]|]|]; try discriminate. destruct (np_interp times p0 t); [|discriminate]. destruct (np_interp times p1 t); [|discriminate]. cbn [bind].
    intros E. match type of E with Ok (Some ?u) = Ok (Some ?v) => assert (EE : u = v) by congruence end. rewrite <- EE.
    destruct (np_interp _ _ _); [destruct (np_interp _ _ _)|]; rewrite ?Cmod_cis, ?Cmod_0; lra.
Qed.
Lemma c54_bound wl f D n ty bw amp cyc dist env sp d n0 n1 nt x y t xs ys ts E i j k e :
  speckle_init wl f D n ty bw amp cyc dist env = Ok sp -> ty <> GP_ISI ->
  wl <> 0 -> f <> 0 -> fst D <> 0 -> snd D <> 0 -> (0 < fst n)%nat -> (0 < snd n)%nat -> cartesian x y t xs ys ts ->
  speckle_evaluate sp d n0 n1 nt x y t = Ok E -> (k < nt)%nat -> E i j k = Some e -> Cmod e <= INR (fst n) * INR (snd n).
Proof.
  intros H Ht H1 H2 H3 H4 H5 H6 C HE Hk He. destruct (speckle_init_inv _ _ _ _ _ _ _ _ _ _ _ H) as (_ & _ & <- & <- & <- & <- & <- & _ & _ & <- & _).
  destruct (evaluate_val sp d n0 n1 nt x y t xs ys ts E HE C) as (B & (q & _ & HB) & V); [unfold proper; auto 10|].
  rewrite V in He. specialize (HB k Hk). destruct (B k) as [b|]; [|discriminate]. injection He as <-. rewrite Cmod_mult, Cmod_R.
  pose proof (env_bound sp (xs i) (ys j)). pose proof (Rabs_pos (env_factor sp (xs i) (ys j))).
  match goal with |- _ * ?m <= ?N => assert (m <= N) by (apply beamlet_bound; intros; eapply bca_unit; eauto); assert (0 <= m) by apply Cmod_ge_0 end. nra.
Qed.
(** ** Ceilings *)
Lemma Rceil_spec x : x <= IZR (Rceil x) < x + 1.
Proof. unfold Rceil. rewrite opp_IZR. pose proof (base_Int_part (- x)). lra. Qed.
Lemma Rceil_unique x z : x <= IZR z < x + 1 -> Rceil x = z.
Proof. intros H. pose proof (Rceil_spec x). assert (IZR (Rceil x) < IZR z + 1 /\ IZR z < IZR (Rceil x) + 1) as (A & B) by lra. rewrite <- plus_IZR in A, B. apply lt_IZR in A, B. lia. Qed.
Lemma Rceil_le x y : x <= y -> (Rceil x <= Rceil y)%Z.
Proof. intros H. pose proof (Rceil_spec x). pose proof (Rceil_spec y). assert (A : IZR (Rceil x) < IZR (Rceil y) + 1) by lra. rewrite <- plus_IZR in A. apply lt_IZR in A. lia. Qed.
Lemma Rceil_add x z : Rceil (x + IZR z) = (Rceil x + z)%Z.
Proof. apply Rceil_unique. rewrite plus_IZR. pose proof (Rceil_spec x). lra. Qed.
Lemma Int_part_bound x : IZR (Int_part x) <= x < IZR (Int_part x) + 1.
Proof. pose proof (base_Int_part x). lra. Qed.
Lemma Int_part_unique x z : IZR z <= x < IZR z + 1 -> Int_part x = z.
Proof. intros H. pose proof (Int_part_bound x). assert (IZR (Int_part x) < IZR z + 1 /\ IZR z < IZR (Int_part x) + 1) as (A & B) by lra. rewrite <- plus_IZR in A, B. apply lt_IZR in A, B. lia. Qed.
Lemma py_round_ceil x : (py_round x <= Rceil x)%Z.
Proof.
  unfold py_round. set (f := Int_part x). assert (Hf : IZR f <= x < IZR f + 1) by apply Int_part_bound. pose proof (Rceil_spec x) as Hc.
  assert (F : (f <= Rceil x)%Z) by (assert (A : IZR f < IZR (Rceil x) + 1) by lra; rewrite <- plus_IZR in A; apply lt_IZR in A; lia).
  assert (G : 1 / 2 <= x - IZR f -> (f + 1 <= Rceil x)%Z) by (intros K; assert (A : IZR f < IZR (Rceil x)) by lra; apply lt_IZR in A; lia).
  destruct (Rltb _ (1 / 2)) eqn:A1; [exact F|]. apply PyBase.Rltb_false in A1. apply Rnot_lt_le in A1. specialize (G A1). destruct (Rltb (1 / 2) _); [exact G|]. destruct (Z.even f); lia.
Qed.
Lemma py_round_nonneg x : - (1 / 2) <= x -> (0 <= py_round x)%Z.
Proof.
  intros Hx. unfold py_round. set (f := Int_part x). assert (Hf : IZR f <= x < IZR f + 1) by apply Int_part_bound.
  assert (F : (-1 <= f)%Z) by (assert (A : -2 < IZR f) by lra; apply lt_IZR in A; lia).
  destruct (Rltb _ (1 / 2)) eqn:A1.
  - apply Rltb_true in A1. assert (A : -1 < IZR f) by lra. apply lt_IZR in A. lia.
  - destruct (Rltb (1 / 2) _); [lia|]. destruct (Z.even f) eqn:Ev; [|lia]. destruct (Z.eq_dec f (-1)) as [->|]; [discriminate|lia].
Qed.
Lemma arange0_length stop step : length (arange0 stop step) = arange_len stop step.
Proof. unfold arange0. rewrite map_length, seq_length. reflexivity. Qed.
Lemma arange0_nth stop step i : (i < arange_len stop step)%nat -> vget (arange0 stop step) i = INR i * step.
Proof.
  intros H. unfold vget, arange0. rewrite (nth_indep _ 0 (INR 0 * step)) by (rewrite map_length, seq_length; exact H).
  rewrite (map_nth (fun i => INR i * step)), seq_nth by exact H. reflexivity.
Qed.
Lemma last_nth l : l <> [] -> last l 0 = vget l (length l - 1).
Proof.
  unfold vget. induction l as [|a [|b l] IH]; intros H; [contradiction|reflexivity|]. change (last (a :: b :: l) 0) with (last (b :: l) 0). rewrite IH by discriminate.
  change (length (a :: b :: l)) with (S (length (b :: l))). replace (S (length (b :: l)) - 1)%nat with (S (length (b :: l) - 1)) by (simpl; lia). reflexivity.
Qed.
(** Length of the time series of evaluate. *)
Lemma series_len T dt : 0 < dt -> 0 <= T -> Z.of_nat (arange_len (T + dt) dt) = (Rceil (T / dt) + 1)%Z /\ (0 <= Rceil (T / dt))%Z.
Proof.
  intros Hd HT. unfold arange_len. replace ((T + dt) / dt) with (T / dt + 1) by (field; lra). rewrite (Rceil_add _ 1).
  assert (0 <= T / dt) by (apply Rmult_le_pos; [exact HT|left; apply Rinv_0_lt_compat, Hd]). pose proof (Rceil_spec (T / dt)).
  assert (A : 0 <= IZR (Rceil (T / dt))) by lra. apply le_IZR in A. rewrite Z2Nat.id by lia. split; [reflexivity|lia].
Qed.
Lemma isi_index T t dt : 0 < dt -> 0 <= t <= T -> py_index (arange_len (T + dt) dt) (py_round (t / dt)) = Some (Z.to_nat (py_round (t / dt))).
Proof.
  intros Hd Ht. destruct (series_len T dt Hd ltac:(lra)) as (L & L0). unfold py_index. rewrite L.
  assert (0 <= t / dt) by (apply Rmult_le_pos; [apply Ht|left; apply Rinv_0_lt_compat, Hd]).
  assert (t / dt <= T / dt) by (apply Rmult_le_compat_r; [left; apply Rinv_0_lt_compat, Hd|apply Ht]).
  pose proof (py_round_nonneg (t / dt) ltac:(lra)). pose proof (py_round_ceil (t / dt)). pose proof (Rceil_le (t / dt) (T / dt) ltac:(lra)).
  destruct (Z.leb_spec 0 (py_round (t / dt))); [|lia]. destruct (Z.ltb_spec (py_round (t / dt)) (Rceil (T / dt) + 1)); [reflexivity|lia].
Qed.
(** ** evaluate returns as soon as its parts do *)
Lemma evaluate_ok sp d n0 n1 nt x y t q : (0 < n0)%nat -> (0 < n1)%nat -> (0 < nt)%nat ->
  (match sk_type sp with
    | GP_RPM_SSD | GP_ISI => init_gaussian_time_series sp d (arange0 (normalised_time sp t (nt - 1) + sk_dt sp) (sk_dt sp))
    | Unsupported _ => Err NotImplementedError
    | _ => Ok (arange0 (normalised_time sp t (nt - 1) + sk_dt sp) (sk_dt sp), NoSeries) end) = Ok q ->
  (forall k, (k < nt)%nat -> exists b, beamlets_complex_amplitude sp d (normalised_time sp t k) (fst q) (snd q) = Ok b) ->
  exists E, speckle_evaluate sp d n0 n1 nt x y t = Ok E.
Proof.
  intros P0 P1 P2 Hq Hb. unfold speckle_evaluate. destruct (Nat.eqb_spec n0 0); [lia|]. destruct (Nat.eqb_spec n1 0); [lia|]. destruct (Nat.eqb_spec nt 0); [lia|]. cbn [orb]. cbn zeta.
  rewrite Hq. cbn [bind].
  assert (S1 : exists r, seq_res (map (fun k => beamlets_complex_amplitude sp d (normalised_time sp t k) (fst q) (snd q)) (seq 0 nt)) = Ok r).
  { apply seq_res_ok. intros b Hbb. apply in_map_iff in Hbb. destruct Hbb as (k & <- & Hk). apply in_seq in Hk. apply Hb. lia. }
  destruct S1 as (r & S1). rewrite S1. eexists. reflexivity.
Qed.
