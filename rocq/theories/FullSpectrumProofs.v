(** C70-C72: get_spectrum with all its options. *)
From Coq Require Import Permutation Sorting.Sorted.
From Verif Require Import PyBase CSum NpFFT FFTProofs NumPy NpMath NpMathProofs GridModel GridSpec GridProofs LaserSpec GridObs
  EnergyModel EnergyProofs LaserModel AnalysisModel AnalysisSpec DataModel SpectrumModel FullSpectrumSpec SpectrumProofs
  LaserInv LaserInitProofs LaserStepProofs OpticsModel LaserOps PropagateProofs HistoryProofs.
Open Scope R_scope.

(** ** Sorting by key: the same as sorting the pairs (key, INR index) *)
Definition key_pair (x : R * nat) : R * R := (fst x, INR (snd x)).
Lemma key_insert x l : map key_pair (insert_key x l) = insert_om (key_pair x) (map key_pair l).
Proof.
  induction l as [|y t IH]; [reflexivity|]. cbn [insert_key insert_om map]. cbn [key_pair fst].
  destruct (Rleb (fst x) (fst y)); [reflexivity|]. cbn [map]. rewrite IH. reflexivity.
Qed.
Lemma key_sort l : map key_pair (sort_key l) = sort_om (map key_pair l).
Proof. induction l as [|x t IH]; [reflexivity|]. cbn [sort_key sort_om map]. rewrite key_insert, IH. reflexivity. Qed.
Lemma key_inj l l' : map key_pair l = map key_pair l' -> l = l'.
Proof.
  revert l'. induction l as [|[a n] l IH]; intros [|[b m] l'] H; try discriminate; [reflexivity|].
  cbn [map] in H. unfold key_pair in H at 1 3. cbn [fst snd] in H. injection H as -> E H. apply INR_eq in E. subst m. f_equal. apply IH, H.
Qed.
Lemma sort_key_pairs (F : nat -> R) nt w0 dw : 0 < dw ->
  (forall k, (k < nt)%nat -> F k = w0 - dw * IZR (fftfreq_int nt k)) ->
  sort_key (map (fun k => (F k, k)) (seq 0 nt)) = map (fun i => (F (bin nt i), bin nt i)) (seq 0 nt).
Proof.
  intros Hdw HF. apply key_inj. rewrite key_sort, !map_map. unfold key_pair; cbn [fst snd].
  destruct (sort_pairs (fun k => (F k, INR k)) nt w0 dw Hdw HF) as (H & _). exact H.
Qed.
Lemma sorted_map_fst l : StronglySorted om_lt l -> StronglySorted Rlt (map fst l).
Proof.
  induction 1 as [|x l Hs IH Hf]; cbn [map]; constructor; [exact IH|].
  rewrite Forall_forall in *. intros y Hy. apply in_map_iff in Hy. destruct Hy as (z & <- & Hz). apply (Hf z Hz).
Qed.

(** ** The transform at bin k is the Fourier sum at the signed frequency *)
Lemma fft1_fourier N dt x k : (0 < N)%nat -> dt <> 0 ->
  Cmult (RtoC dt) (fft1 N x k) = fourier N dt x (- (2 * PI * fftfreq N dt k)).
Proof.
  intros HN Hdt. pose proof (INR_pos N HN) as HNp. unfold fourier, fft1. f_equal. apply csum_ext. intros n _. f_equal.
  unfold fftfreq, fftfreq_int. destruct (Nat.ltb k ((N - 1) / 2 + 1)).
  - f_equal. rewrite <- INR_IZR_INZ. field. lra.
  - rewrite <- (cis_period (- (2 * PI * (INR n * INR k) / INR N)) (Z.of_nat n)). f_equal.
    rewrite minus_IZR, <- !INR_IZR_INZ. field. lra.
Qed.
Lemma fftfreq_range N k : (k < N)%nat -> (- Z.of_nat N <= 2 * fftfreq_int N k < Z.of_nat N)%Z.
Proof.
  intros H. unfold fftfreq_int. pose proof (Nat.div_mod (N - 1) 2 ltac:(lia)). pose proof (Nat.mod_upper_bound (N - 1) 2 ltac:(lia)).
  destruct (Nat.ltb_spec k ((N - 1) / 2 + 1)); lia.
Qed.
Lemma fftfreq_onto N z : (0 < N)%nat -> (- Z.of_nat N <= 2 * z < Z.of_nat N)%Z -> exists k, (k < N)%nat /\ fftfreq_int N k = z.
Proof.
  intros HN H. pose proof (Nat.div_mod (N - 1) 2 ltac:(lia)). pose proof (Nat.mod_upper_bound (N - 1) 2 ltac:(lia)).
  destruct (Z_lt_le_dec z 0) as [L|L].
  - exists (Z.to_nat (z + Z.of_nat N)). split; [lia|]. unfold fftfreq_int. destruct (Nat.ltb_spec (Z.to_nat (z + Z.of_nat N)) ((N - 1) / 2 + 1)); lia.
  - exists (Z.to_nat z). split; [lia|]. unfold fftfreq_int. destruct (Nat.ltb_spec (Z.to_nat z) ((N - 1) / 2 + 1)); lia.
Qed.
Lemma fftfreq_int_low N k : (k < N / 2)%nat -> fftfreq_int N k = Z.of_nat k.
Proof.
  intros H. unfold fftfreq_int. pose proof (Nat.div_mod (N - 1) 2 ltac:(lia)). pose proof (Nat.mod_upper_bound (N - 1) 2 ltac:(lia)).
  pose proof (Nat.div_mod N 2 ltac:(lia)). pose proof (Nat.mod_upper_bound N 2 ltac:(lia)).
  destruct (Nat.ltb_spec k ((N - 1) / 2 + 1)); lia.
Qed.

(** ** One set of frequencies and amplitudes *)
Section One.
Variables (g : grid) (f : ndarray) (N : nat) (dt : R).
Hypothesis (H : sampled g f N dt).
Let g' := fst (get_temporal_field g).
Lemma sm_meta : g_dx g' = g_dx g /\ g_axes g' = g_axes g /\ g_shape g' = g_shape g /\ g_isenv g' = g_isenv g.
Proof. destruct (get_t_meta g) as (E1&E2&E3&E4&E5&E6&E7&E8&E9&E10). auto. Qed.
Lemma sm_N : dim2 f = N.
Proof. unfold dim2. apply H. Qed.
Lemma sm_freq k : spectrum_freq g' k = 2 * PI * fftfreq N dt k.
Proof.
  destruct H as (_ & Hs & Hl & HN & H2 & Hdt & Hdx & Hax). destruct sm_meta as (E1 & E2 & E3 & _).
  unfold spectrum_freq, time_axis. rewrite E2, E3. rewrite Hax by lia. f_equal. f_equal.
  rewrite <- Hs. unfold lastN. rewrite <- HN. destruct (shp f) as [|a [|b [|c [|e l]]]]; try discriminate. reflexivity.
Qed.
Lemma sm_dt : lastR (g_dx g') = dt.
Proof. destruct sm_meta as (E1 & _). rewrite E1. apply H. Qed.
Lemma area_eq d j : dt <> 0 -> match d with Xyt => cell_volume_xyt g' | _ => cell_volume_rt g' j end / (dt * c_light) = area d g j.
Proof.
  intros Hd. pose proof c_light_pos. unfold area, cell_volume_xyt, cell_volume_rt. destruct sm_meta as (E1 & E2 & _).
  rewrite sm_dt, E1, E2. unfold vget. destruct d; field; lra.
Qed.

(** amp: the amplitude at each frequency, when the raw spectrum is given by it *)
Lemma values_spectrum d (amp : nat -> nat -> R -> C) kept m :
  (forall x, In x kept -> forall i j, sp_raw g' f i j (snd x) = amp i j (fst x)) ->
  is_spectrum d g f m amp (map fst kept) (sp_values d g' f m (map snd kept)).
Proof.
  intros Ha. pose proof c_light_pos as Hc. pose proof PI_RGT_0 as HP.
  assert (Hdt : dt <> 0) by (destruct H as (_ & _ & _ & _ & _ & Hdt & _); lra).
  assert (Hnth : forall q, (q < length kept)%nat -> forall i j, sp_raw g' f i j (nth q (map snd kept) 0%nat) = amp i j (nth q (map fst kept) 0)).
  { intros q Hq i j. change 0%nat with (snd (0, 0%nat)). rewrite (map_nth snd). change 0 with (fst (0, 0%nat)) at 2. rewrite (map_nth fst).
    apply Ha, nth_In, Hq. }
  assert (Hden : forall q, (q < length kept)%nat -> forall i j, sp_density g' f i j (nth q (map snd kept) 0%nat) = density (amp i j (nth q (map fst kept) 0))).
  { intros q Hq i j. unfold sp_density, density. rewrite Hnth by exact Hq. rewrite Cmod_sq. field. lra. }
  unfold is_spectrum, sp_values. fold (dim0 f) (dim1 f). destruct m; rewrite ?map_length.
  - split; [reflexivity|]. intros q Hq.
    match goal with |- nth q (map ?F _) 0 = _ => rewrite (nth_indep _ 0 (F 0%nat)) by (rewrite !map_length; exact Hq); rewrite (map_nth F) end.
    rewrite sm_dt. destruct d.
    + apply rsum_ext. intros j _. rewrite Hden by exact Hq. rewrite <- (area_eq _ j) by exact Hdt. unfold Rdiv. ring.
    + apply rsum_ext. intros i _. apply rsum_ext. intros j _. rewrite Hden by exact Hq. rewrite <- (area_eq _ j) by exact Hdt. unfold Rdiv. ring.
    + apply rsum_ext. intros j _. rewrite Hden by exact Hq. rewrite <- (area_eq _ j) by exact Hdt. unfold Rdiv. ring.
  - split; [reflexivity|]. intros q Hq.
    match goal with |- nth q (map ?F _) 0 = _ => rewrite (nth_indep _ 0 (F 0%nat)) by (rewrite !map_length; exact Hq); rewrite (map_nth F) end.
    destruct d; apply Hden, Hq.
  - split; [reflexivity|]. split; [reflexivity|]. intros i j q _ _ Hq. cbn [at3]. apply Hnth, Hq.
  - split; [reflexivity|]. split; [reflexivity|]. intros i j q _ _ Hq. cbn [at3]. rewrite Hden by exact Hq. reflexivity.
Qed.
End One.

(** ** Envelope *)
Lemma c70_env d g f N dt w0 : sampled g f N dt -> g_isenv g = true ->
  exists om, StronglySorted Rlt om /\
    (forall w, In w om <-> 0 <= w /\ dft_freq N dt (w0 - w)) /\
    forall m bins, exists v, snd (get_spectrum d g None bins (Some w0) m) = Ok (v, om) /\
      is_spectrum d g f m (fun i j w => Cmult (RtoC (/ 2)) (fourier N dt (at3 f i j) (w - w0))) om v.
Proof.
  intros H He. pose proof H as (Hf & Hs & Hl & HN & H2 & Hdt & Hdx & Hax). pose proof (sm_N _ _ _ _ H) as Hd2.
  pose proof (INR_pos N ltac:(lia)) as HNp. pose proof PI_RGT_0 as HP.
  set (g' := fst (get_temporal_field g)). set (kept := kept_env g' f w0).
  assert (Hdw : 0 < 2 * PI / (INR N * dt)) by (apply Rdiv_lt_0_compat; [lra|apply Rmult_lt_0_compat; lra]).
  assert (HF : forall k, (k < N)%nat -> w0 - spectrum_freq g' k = w0 - 2 * PI / (INR N * dt) * IZR (fftfreq_int N k)).
  { intros k _. unfold g'. rewrite (sm_freq g f N dt H). unfold fftfreq. field. lra. }
  assert (HK : kept = filter (fun x => Rleb 0 (fst x)) (map (fun i => (w0 - spectrum_freq g' (bin N i), bin N i)) (seq 0 N))).
  { unfold kept, kept_env. rewrite Hd2. rewrite (sort_key_pairs _ N w0 _ Hdw HF). reflexivity. }
  assert (HIn : forall x, In x kept <-> 0 <= fst x /\ exists k, (k < N)%nat /\ x = (w0 - spectrum_freq g' k, k)).
  { intros x. rewrite HK, filter_In, in_map_iff, Rleb_true. split.
    - intros ((i & <- & Hi) & Hp). apply in_seq in Hi. split; [exact Hp|]. exists (bin N i). split; [apply bin_lt; lia|reflexivity].
    - intros (Hp & k & Hk & ->). split; [|exact Hp].
      assert (Hin : In k (map (bin N) (seq 0 N))) by (apply (Permutation_in _ (Permutation_sym (bin_perm N))), in_seq; lia).
      apply in_map_iff in Hin. destruct Hin as (i & <- & Hi). exists i. split; [reflexivity|exact Hi]. }
  exists (map fst kept). split; [|split].
  - assert (E : map fst kept = map fst (map key_pair kept)) by (rewrite map_map; reflexivity).
    rewrite E. apply sorted_map_fst.
    assert (E2 : map key_pair kept = filter (fun x => Rleb 0 (fst x)) (map (fun i => (fun k => (w0 - spectrum_freq g' k, INR k)) (bin N i)) (seq 0 N))).
    { rewrite HK. generalize (seq 0 N). intros l. induction l as [|i l IH]; [reflexivity|]. cbn [map filter fst]. destruct (Rleb _ _); cbn [map]; rewrite IH; reflexivity. }
    rewrite E2. apply filter_sorted. apply (sort_pairs (fun k => (w0 - spectrum_freq g' k, INR k)) N w0 _ Hdw HF).
  - intros w. rewrite in_map_iff. split.
    + intros (x & <- & Hx). apply HIn in Hx. destruct Hx as (Hp & k & Hk & ->). split; [exact Hp|]. cbn [fst].
      exists (fftfreq_int N k). split; [apply fftfreq_range, Hk|]. unfold g'. rewrite (sm_freq g f N dt H). unfold fftfreq. field. lra.
    + intros (Hp & z & Hz & Ew). destruct (fftfreq_onto N z ltac:(lia) Hz) as (k & Hk & Ek).
      assert (E : w0 - spectrum_freq g' k = w).
      { unfold g'. rewrite (sm_freq g f N dt H). unfold fftfreq. rewrite Ek. replace w with (w0 - (w0 - w)) by ring. rewrite Ew. field. lra. }
      exists (w, k). split; [reflexivity|]. apply HIn. split; [exact Hp|]. exists k. rewrite E. auto.
  - intros m bins. exists (sp_values d g' f m (map snd kept)). split.
    + unfold get_spectrum, with_field. cbn [snd]. rewrite Hf. fold g'. destruct (sm_meta g) as (_ & _ & _ & E). fold g' in E.
      rewrite E, He. cbn [bind]. unfold sp_range. fold kept. reflexivity.
    + apply (values_spectrum g f N dt H d). intros x Hx i j. apply HIn in Hx. destruct Hx as (_ & k & Hk & ->). cbn [fst snd].
      unfold sp_raw. rewrite (sm_dt g f N dt H). destruct (sm_meta g) as (_ & _ & _ & E). rewrite E, He. rewrite Hd2.
      rewrite <- Cmult_assoc. f_equal. rewrite Cmult_comm. rewrite fft1_fourier by (lia || lra). f_equal. unfold g'.
      rewrite (sm_freq g f N dt H). ring.
Qed.
Lemma c70_env_no_omega0 d g f r bins m : snd (get_temporal_field g) = Ok f -> g_isenv g = true ->
  snd (get_spectrum d g r bins None m) = Err AssertionError.
Proof.
  intros Hf He. unfold get_spectrum, with_field. cbn [snd]. rewrite Hf. destruct (sm_meta g) as (_ & _ & _ & E). rewrite E, He. reflexivity.
Qed.
(** ** Real field *)
Lemma c70_real d g f N dt o : sampled g f N dt -> g_isenv g = false ->
  exists om, om = map (fun q => 2 * PI * INR q / (INR N * dt)) (seq 0 (N / 2)) /\
    forall m bins, exists v, snd (get_spectrum d g None bins o m) = Ok (v, om) /\
      is_spectrum d g f m (fun i j w => fourier N dt (at3 f i j) (- w)) om v.
Proof.
  intros H He. pose proof H as (Hf & Hs & Hl & HN & H2 & Hdt & Hdx & Hax). pose proof (sm_N _ _ _ _ H) as Hd2.
  pose proof (INR_pos N ltac:(lia)) as HNp. 
  set (g' := fst (get_temporal_field g)). set (kept := kept_real g' f).
  assert (HK : map fst kept = map (fun q => 2 * PI * INR q / (INR N * dt)) (seq 0 (N / 2))).
  { unfold kept, kept_real. rewrite map_map, Hd2. cbn [fst]. apply map_ext_in. intros q Hq. apply in_seq in Hq.
    unfold g'. rewrite (sm_freq g f N dt H). unfold fftfreq. rewrite fftfreq_int_low by lia. rewrite <- INR_IZR_INZ. field. lra. }
  eexists; split; [reflexivity|]. rewrite <- HK. intros m bins. exists (sp_values d g' f m (map snd kept)). split.
  - unfold get_spectrum, with_field. cbn [snd]. rewrite Hf. fold g'. destruct (sm_meta g) as (_ & _ & _ & E). fold g' in E.
    rewrite E, He. cbn [bind]. unfold sp_range. fold kept. reflexivity.
  - apply (values_spectrum g f N dt H d). intros x Hx i j. unfold kept, kept_real in Hx. apply in_map_iff in Hx.
    destruct Hx as (k & <- & Hk). cbn [fst snd].
    unfold sp_raw. rewrite (sm_dt g f N dt H). destruct (sm_meta g) as (_ & _ & _ & E). rewrite E, He. rewrite Hd2.
    rewrite Cmult_comm. rewrite fft1_fourier by (lia || lra). unfold g'. rewrite (sm_freq g f N dt H). reflexivity.
Qed.
(** get_spectrum only reads *)
Lemma c70_frame d g r bins o m : same_contents g (fst (get_spectrum d g r bins o m)).
Proof. unfold get_spectrum, with_field. cbn [fst]. split; [apply get_t_meta|]. split; [apply tread_get_t|apply sread_get_t]. Qed.

(** ** The default call on an envelope is get_spectrum_sum *)
Lemma pairs_sort_key (V : nat -> R) (F : nat -> R) l :
  map (fun x : R * nat => (fst x, V (snd x))) (sort_key (map (fun k => (F k, k)) l)) = sort_om (map (fun k => (F k, V k)) l).
Proof.
  assert (HI : forall x t, map (fun x : R * nat => (fst x, V (snd x))) (insert_key x t) = insert_om (fst x, V (snd x)) (map (fun x : R * nat => (fst x, V (snd x))) t)).
  { intros x t. induction t as [|y t IH]; [reflexivity|]. cbn [insert_key insert_om map fst]. destruct (Rleb (fst x) (fst y)); [reflexivity|].
    cbn [map]. rewrite IH. reflexivity. }
  induction l as [|k l IH]; [reflexivity|]. cbn [map sort_key sort_om]. rewrite HI, IH. reflexivity.
Qed.
Lemma filter_map_pairs (V : nat -> R) (l : list (R * nat)) :
  map (fun x : R * nat => (fst x, V (snd x))) (filter (fun x => Rleb 0 (fst x)) l) =
  filter (fun x => Rleb 0 (fst x)) (map (fun x : R * nat => (fst x, V (snd x))) l).
Proof. induction l as [|x l IH]; [reflexivity|]. cbn [map filter fst]. destruct (Rleb 0 (fst x)); cbn [map]; rewrite IH; reflexivity. Qed.
Lemma c70_default d g o bins : g_isenv g = true ->
  fst (get_spectrum d g None bins o MSum) = fst (get_spectrum_sum d g o) /\
  snd (get_spectrum d g None bins o MSum) = bind (snd (get_spectrum_sum d g o)) (fun l => Ok (Sp1 (map snd l), map fst l)).
Proof.
  intros He. destruct (sm_meta g) as (_ & _ & _ & E). split; [reflexivity|].
  unfold get_spectrum, get_spectrum_sum, with_field. cbn [snd]. set (g' := fst (get_temporal_field g)) in *.
  destruct (snd (get_temporal_field g)) as [f|e]; [|reflexivity]. rewrite E, He. destruct o as [w0|]; [|reflexivity]. cbn [bind].
  unfold sp_range.
  assert (HP : filter (fun x => Rleb 0 (fst x)) (sort_om (spectrum_pairs d g' f w0)) =
               map (fun x : R * nat => (fst x, spectrum_sum d g' f (snd x))) (kept_env g' f w0)).
  { unfold kept_env. rewrite filter_map_pairs, (pairs_sort_key (fun k => spectrum_sum d g' f k)). reflexivity. }
  rewrite HP, !map_map. cbn [fst snd]. f_equal. f_equal. f_equal. cbn [sp_values]. rewrite map_map. f_equal. apply map_ext. intros x.
  assert (HR : forall i j k, sp_density g' f i j k = spectrum_density f (lastR (g_dx g')) i j k).
  { intros i j k. unfold sp_density, spectrum_density, sp_raw, spectrum_raw. rewrite E, He. reflexivity. }
  unfold spectrum_sum. destruct d; [apply rsum_ext|apply rsum_ext|apply rsum_ext]; intros; [rewrite HR; reflexivity| |rewrite HR; reflexivity].
  apply rsum_ext. intros. rewrite HR. reflexivity.
Qed.

(** ** Sampled grids *)
Lemma gstep5_geom g o : let g' := gstep5 g o in
  g_axes g' = g_axes g /\ g_dx g' = g_dx g /\ g_shape g' = g_shape g /\ g_nmodes g' = g_nmodes g /\ g_modes g' = g_modes g /\
  g_lo g' = g_lo g /\ g_hi g' = g_hi g /\
  (shp (g_tf g) = g_shape g -> shp (g_sf g) = g_shape g -> shp (g_tf g') = g_shape g' /\ shp (g_sf g') = g_shape g').
Proof.
  destruct o as [[a|a| |]|b]; cbn zeta; simpl.
  - unfold set_temporal_field. destruct (negb _); [tauto|]. destruct (negb _); simpl; tauto.
  - unfold set_spectral_field. destruct (negb _); [tauto|]. destruct (negb _); simpl; tauto.
  - unfold get_temporal_field. destruct (g_tv g); [tauto|]. destruct (g_sv g); simpl; tauto.
  - unfold get_spectral_field. destruct (negb _); [tauto|]. destruct (g_sv g); [tauto|]. destruct (g_tv g); simpl; tauto.
  - tauto.
Qed.
Lemma grun5_geom h : forall g, let g' := grun5 g h in
  g_axes g' = g_axes g /\ g_dx g' = g_dx g /\ g_shape g' = g_shape g /\ g_nmodes g' = g_nmodes g /\ g_modes g' = g_modes g /\
  g_lo g' = g_lo g /\ g_hi g' = g_hi g /\
  (shp (g_tf g) = g_shape g -> shp (g_sf g) = g_shape g -> shp (g_tf g') = g_shape g' /\ shp (g_sf g') = g_shape g').
Proof.
  induction h as [|o h IH]; intros g; cbn zeta; cbn [grun5]; [tauto|].
  destruct (gstep5_geom g o) as (A1&A2&A3&A4&A5&A6&A7&A8). destruct (IH (gstep5 g o)) as (B1&B2&B3&B4&B5&B6&B7&B8).
  conj; try congruence. intros T1 T2. destruct (A8 T1 T2) as (S1 & S2). auto.
Qed.
Lemma tread_shape5 g f : shp (g_tf g) = g_shape g -> shp (g_sf g) = g_shape g -> snd (get_temporal_field g) = Ok f -> shp f = g_shape g.
Proof. intros H1 H2. unfold get_temporal_field. destruct (g_tv g); [intros [= <-]; exact H1|]. destruct (g_sv g); [intros [= <-]; exact H2|discriminate]. Qed.
Lemma grid_init_shape d lo hi np nm b g : grid_init d lo hi np nm b = Ok g ->
  shp (g_tf g) = g_shape g /\ shp (g_sf g) = g_shape g /\
  (d = Xyt -> g_shape g = np) /\
  (d = Rt -> exists M, g_shape g = [M; nth 0 np 0; nth 1 np 0]%nat) /\ d <> OtherDim.
Proof.
  unfold grid_init. destruct d; cbn [pyassert bind]; [| |discriminate].
  - destruct (Nat.eqb (length lo) 2); cbn [pyassert bind]; [|discriminate].
    destruct (Nat.eqb (length hi) 2); cbn [pyassert bind]; [|discriminate].
    destruct (build_axes 2 0 lo hi np) as [r|e]; cbn [bind]; [|discriminate].
    destruct nm as [M|]; [|discriminate]. destruct (Z.ltb _ 0); [discriminate|]. intros [= <-]. cbn [g_tf g_sf g_shape zeros shp].
    repeat split; try discriminate. intros _. eexists; reflexivity.
  - destruct (Nat.eqb (length lo) 3); cbn [pyassert bind]; [|discriminate].
    destruct (Nat.eqb (length hi) 3); cbn [pyassert bind]; [|discriminate].
    destruct (build_axes 3 0 lo hi np) as [r|e]; cbn [bind]; [|discriminate].
    intros [= <-]. cbn [g_tf g_sf g_shape zeros shp]. repeat split; try discriminate.
Qed.
Lemma c70_sampled d lo hi np nm b g0 h f :
  grid_init d lo hi np nm b = Ok g0 -> length np = ndims_of d ->
  let q := (ndims_of d - 1)%nat in
  nth q lo 0 < nth q hi 0 ->
  snd (get_temporal_field (grun5 g0 h)) = Ok f ->
  sampled (grun5 g0 h) f (nth q np 0%nat) (spacing (nth q lo 0) (nth q hi 0) (nth q np 0%nat)).
Proof.
  intros Hi Hl q Hlt Hf. destruct (grid_init_shape _ _ _ _ _ _ _ Hi) as (S1 & S2 & S3 & S4 & S5).
  destruct (grid_init_axes _ _ _ _ _ _ _ Hi) as (_ & _ & La & Ld & Hax).
  assert (Hq : (q < ndims_of d)%nat) by (unfold q; destruct d; simpl; lia).
  destruct (Hax q Hq) as (n & Hn & A1 & A2 & A3 & A4 & A5). cbn zeta in *.
  assert (Hnq : nth q np 0%nat = n) by (apply nth_error_nth; exact Hn). rewrite Hnq.
  assert (Hex : exists g, grid_init d lo hi np nm b = Ok g) by eauto.
  apply grid_init_ok_iff in Hex. destruct Hex as (_ & _ & _ & Hnn & _). destruct (Hnn q Hq) as (? & Q & G2). rewrite Hn in Q. injection Q as <-.
  destruct (grun5_geom h g0) as (B1&B2&B3&_&_&_&_&B8). destruct (B8 S1 S2) as (T1 & T2).
  pose proof (tread_shape5 _ _ T1 T2 Hf) as Hs.
  assert (H3 : length (g_shape g0) = 3%nat /\ nth 2 (g_shape g0) 0%nat = n).
  { destruct d; [| |congruence].
    - destruct (S4 eq_refl) as (M & ->). split; [reflexivity|exact Hnq].
    - rewrite (S3 eq_refl). split; [exact Hl|exact Hnq]. }
  unfold sampled. rewrite Hs, B3. destruct H3 as (H3 & H4). conj; try assumption; try reflexivity.
  - apply spacing_pos; assumption.
  - rewrite B2, last_nth, Ld. fold q. rewrite A4. unfold spacing, vget. reflexivity.
  - intros k Hk. rewrite B1, last_nth, La. fold q. rewrite (A5 k Hk), A4. unfold spacing, vget. reflexivity.
Qed.
Lemma c70_sampled_laser S d lo hi np p nm nte L0 h :
  laser_init d lo hi np p nm nte = Ok L0 -> length np = ndims_of d -> (d = Xyt \/ Forall no_resample h) ->
  let q := (ndims_of d - 1)%nat in
  nth q lo 0 < nth q hi 0 ->
  exists f, g_isenv (l_grid (lrun S L0 h)) = true /\
    sampled (l_grid (lrun S L0 h)) f (nth q np 0%nat) (spacing (nth q lo 0) (nth q hi 0) (nth q np 0%nat)).
Proof.
  intros Hi Hl Hd q Hlt.
  destruct (laser_init_Inv _ _ _ _ _ _ _ _ Hi) as (g & m0 & m1 & mt & Hg & Hmt & D1 & D2 & D3 & D4 & D5 & Hn' & GS & HI).
  assert (Hd' : l_dim L0 = Xyt \/ Forall no_resample h) by (rewrite D1; exact Hd).
  destruct (history_plain S L0 m0 m1 mt h HI Hd') as (HR & HM & R1 & R2 & R3).
  destruct (window_plain S d lo hi np p nm nte L0 h Hi Hd) as (nt' & N' & La & Wlo & Whi & Lt & Ht & Hdt & Hax).
  fold q in N', Ht, Hdt, Lt. set (L := lrun S L0 h) in *.
  assert (Hex : exists g, grid_init d lo hi np (Some nm) true = Ok g) by eauto.
  apply grid_init_ok_iff in Hex. destruct Hex as (_ & _ & _ & Hnn & _).
  assert (Hq : (q < ndims_of d)%nat) by (unfold q; destruct d; simpl; lia).
  destruct (Hnn q Hq) as (? & Q & G2). rewrite N' in Q. injection Q as <-.
  assert (Hnq : nth q np 0%nat = nt') by (apply nth_error_nth; exact N'). rewrite Hnq.
  destruct (i_read _ _ _ _ HR) as (a & Ha). exists a. split; [apply (proj1 (i_coh _ _ _ _ HR))|].
  assert (Hgs : shp a = g_shape (l_grid L)) by apply (tread_shape _ _ (proj1 (i_coh _ _ _ _ HR)) Ha).
  destruct (grid_init_shape _ _ _ _ _ _ _ Hg) as (_ & _ & S3 & S4 & S5).
  assert (Hsh0 : g_shape (l_grid L) = g_shape g).
  { destruct HM as (_&_&_&_&_&_&_&E8&_). rewrite E8. unfold shift_domain. cbn [with_domain g_shape].
    destruct Hmt as (_&_&_&_&_&_&_&G8&_). exact G8. }
  assert (H3 : length (g_shape g) = 3%nat /\ nth 2 (g_shape g) 0%nat = nt').
  { destruct d; [| |congruence].
    - destruct (S4 eq_refl) as (M & ->). split; [reflexivity|exact Hnq].
    - rewrite (S3 eq_refl). split; [exact Hl|exact Hnq]. }
  assert (Ldx : length (g_dx (l_grid L)) = ndims_of d).
  { pose proof (gs_dx _ _ _ _ _ (i_shape _ _ _ _ HR)) as Q. rewrite R1, D1 in Q. exact Q. }
  unfold sampled. rewrite Hgs, Hsh0. destruct H3 as (H3 & H4). conj; try assumption; try reflexivity.
  - apply spacing_pos; assumption.
  - rewrite last_nth, Ldx. exact Hdt.
  - intros k Hk. rewrite last_nth, La. fold q. destruct (Ht (Datatypes.S k) Hk) as (T1 & _). destruct (Ht k ltac:(lia)) as (T0 & _).
    unfold axis_at in *. rewrite T1, T0. unfold coord, spacing. rewrite S_INR. unfold Rdiv. ring.
Qed.

(** ** Convention of the raw spectrum *)
Lemma fourier_plus N dt x y w : fourier N dt (fun n => Cplus (x n) (y n)) w = Cplus (fourier N dt x w) (fourier N dt y w).
Proof. unfold fourier. rewrite <- Cmult_plus_distr_l, <- csum_plus. f_equal. apply csum_ext. intros; ring. Qed.
Lemma fourier_scal N dt s x w : fourier N dt (fun n => Cmult s (x n)) w = Cmult s (fourier N dt x w).
Proof.
  unfold fourier. transitivity (Cmult (RtoC dt) (Cmult s (csum N (fun n => Cmult (x n) (cis (w * (INR n * dt))))))); [|ring].
  f_equal. rewrite <- csum_scal_l. apply csum_ext. intros; ring.
Qed.
Lemma fourier_conj N dt x w : fourier N dt (fun n => Cconj (x n)) w = Cconj (fourier N dt x (- w)).
Proof.
  unfold fourier. rewrite Cconj_mult, Cconj_csum. f_equal; [symmetry; apply Cconj_R|].
  apply csum_ext. intros n _. rewrite Cconj_mult. f_equal. rewrite <- cis_opp. f_equal. ring.
Qed.
Lemma fourier_shift N dt x w0 w : fourier N dt (fun n => Cmult (x n) (cis (- (w0 * (INR n * dt))))) w = fourier N dt x (w - w0).
Proof.
  unfold fourier. f_equal. apply csum_ext. intros n _. rewrite <- Cmult_assoc, <- cis_plus. f_equal. f_equal. ring.
Qed.
Lemma c70_convention N dt (x : nat -> C) w0 w :
  fourier N dt (fun n => RtoC (Re (Cmult (x n) (cis (- (w0 * (INR n * dt))))))) (- w) =
  Cplus (Cconj (Cmult (RtoC (/ 2)) (fourier N dt x (w - w0)))) (Cmult (RtoC (/ 2)) (fourier N dt x (- w - w0))).
Proof.
  set (y := fun n => Cmult (x n) (cis (- (w0 * (INR n * dt))))).
  transitivity (fourier N dt (fun n => Cmult (RtoC (/ 2)) (Cplus (y n) (Cconj (y n)))) (- w)).
  - f_equal. apply FunctionalExtensionality.functional_extensionality. intros n. fold (y n). destruct (y n) as (a, b). unfold RtoC, Cmult, Cplus, Cconj, Re; simpl. f_equal; field.
  - rewrite fourier_scal, fourier_plus, fourier_conj, Ropp_involutive. unfold y. rewrite !fourier_shift, Cconj_mult.
    replace (Cconj (RtoC (/ 2))) with (RtoC (/ 2)) by (unfold Cconj, RtoC; simpl; f_equal; ring). ring.
Qed.

(** ** Energy of the spectrum of a real field *)
Lemma fft1_sym N x k : (0 < k)%nat -> (k < N)%nat -> (forall n, (n < N)%nat -> Im (x n) = 0) -> Cnorm2 (fft1 N x (N - k)) = Cnorm2 (fft1 N x k).
Proof.
  intros Hk HN Hx. pose proof (INR_pos N ltac:(lia)) as HNp.
  assert (E : fft1 N x (N - k) = Cconj (fft1 N x k)).
  { unfold fft1. rewrite Cconj_csum. apply csum_ext. intros n Hn. rewrite Cconj_mult, <- cis_opp. f_equal.
    - specialize (Hx n Hn). destruct (x n) as (a, b). unfold Im in Hx. simpl in Hx. subst b. unfold Cconj; simpl. f_equal. ring.
    - rewrite <- (cis_period (- (2 * PI * (INR n * INR (N - k)) / INR N)) (Z.of_nat n)). f_equal. rewrite minus_INR by lia. rewrite <- INR_IZR_INZ. field. lra. }
  rewrite E. unfold Cnorm2, Cconj; simpl. ring.
Qed.
Lemma half_sum N a : (2 <= N)%nat -> (forall k, (0 < k)%nat -> (k < N)%nat -> a (N - k)%nat = a k) ->
  2 * rsum (N / 2) a = rsum N a + a 0%nat - (if Nat.even N then 1 else 2) * a (N / 2)%nat.
Proof.
  intros HN Hs. set (K := (N / 2)%nat).
  assert (HK : (1 <= K)%nat) by (apply (Nat.div_le_lower_bound N 2 1); lia).
  assert (EN : N = if Nat.even N then (2 * K)%nat else (2 * K + 1)%nat).
  { pose proof (Nat.div2_odd N) as Q. rewrite Nat.div2_div in Q. fold K in Q. rewrite <- Nat.negb_even in Q. destruct (Nat.even N); simpl in Q; lia. }
  destruct K as [|K'] eqn:EK; [lia|]. clear HK.
  assert (HR : rsum (S K') a = a 0%nat + rsum K' (fun i => a (S i))) by apply rsum_first.
  destruct (Nat.even N).
  - assert (E : rsum N a = rsum (S K') a + (a (S K') + rsum K' (fun i => a (S (S K') + i)%nat))).
    { rewrite EN at 1. replace (2 * S K')%nat with (S K' + S K')%nat by lia. rewrite rsum_split. f_equal. rewrite rsum_first.
      rewrite Nat.add_0_r. f_equal. apply rsum_ext. intros i _. f_equal. lia. }
    assert (E2 : rsum K' (fun i => a (S (S K') + i)%nat) = rsum K' (fun i => a (S i))).
    { rewrite <- (rsum_rev K' (fun i => a (S i))). apply rsum_ext. intros i Hi.
      rewrite <- (Hs (S (K' - 1 - i))) by lia. f_equal. lia. }
    rewrite E, E2, HR. ring.
  - assert (E : rsum N a = rsum (S K') a + rsum (S K') (fun i => a (S (S K') + i)%nat) + a (S K')).
    { rewrite EN at 1. replace (2 * S K' + 1)%nat with (S K' + S (S K'))%nat by lia. rewrite rsum_split, (rsum_first (S K')), Nat.add_0_r.
      assert (Q : rsum (S K') (fun i => a (S K' + S i)%nat) = rsum (S K') (fun i => a (S (S K') + i)%nat)) by (apply rsum_ext; intros; f_equal; lia). rewrite Q. ring. }
    assert (E2 : rsum (S K') (fun i => a (S (S K') + i)%nat) = rsum K' (fun i => a (S i)) + a (S K')).
    { rewrite <- (rsum_rev (S K') (fun i => a (S (S K') + i)%nat)). cbn [rsum].
      f_equal; [apply rsum_ext; intros i Hi|].
      - rewrite <- (Hs (S i)) by lia. f_equal. lia.
      - rewrite <- (Hs (S K')) by lia. f_equal. lia. }
    rewrite E, E2, HR. ring.
Qed.
Lemma total_rsum l : fold_right Rplus 0 l = rsum (length l) (fun q => nth q l 0).
Proof. induction l as [|x l IH]; [reflexivity|]. cbn [length fold_right]. rewrite rsum_first, IH. reflexivity. Qed.
Lemma c71 d g f N dt e bins o : sampled g f N dt -> g_isenv g = false ->
  let n0 := nth 0 (shp f) 0%nat in let n1 := nth 1 (shp f) 0%nat in
  (forall i j k, (i < n0)%nat -> (j < n1)%nat -> (k < N)%nat -> Im (at3 f i j k) = 0) -> (d = Xyt \/ n0 = 1%nat) ->
  snd (compute_laser_energy d g) = Ok e ->
  let dw := 2 * PI / (INR N * dt) in
  let W w := rsum n0 (fun i => rsum n1 (fun j => area d g j * density (fourier N dt (at3 f i j) (- w)))) in
  exists l om, snd (get_spectrum d g None bins o MSum) = Ok (Sp1 l, om) /\
    fold_right Rplus 0 l * dw = e + dw / 2 * W 0 - (if Nat.even N then / 2 else 1) * dw * W (INR (N / 2) * dw).
Proof.
  intros H He n0 n1 Him Hd Hen. cbn zeta. set (dw := 2 * PI / (INR N * dt)).
  pose proof H as (Hf & Hs & Hl & HN & H2 & Hdt & Hdx & Hax). pose proof (sm_N _ _ _ _ H) as Hd2.
  pose proof (INR_pos N ltac:(lia)) as HNp. pose proof PI_RGT_0 as HP. pose proof c_light_pos as Hc.
  destruct (c70_real d g f N dt o H He) as (om & Hom & HR). destruct (HR MSum bins) as (v & Hv & Hsp).
  destruct v as [l|a]; [|contradiction]. exists l, om. split; [exact Hv|]. destruct Hsp as (Hll & Hsp).
  set (K := (N / 2)%nat) in *. assert (HLo : length om = K) by (rewrite Hom, map_length, seq_length; reflexivity).
  assert (Hnth : forall q, (q < K)%nat -> nth q om 0 = INR q * dw).
  { intros q Hq. rewrite Hom. rewrite (nth_indep _ 0 ((fun q => 2 * PI * INR q / (INR N * dt)) 0%nat)) by (rewrite map_length, seq_length; exact Hq).
    rewrite (map_nth (fun q => 2 * PI * INR q / (INR N * dt))), seq_nth by exact Hq. unfold dw. cbn [Nat.add]. field. lra. }
  set (a := fun i j k => Cnorm2 (fft1 N (at3 f i j) k)).
  assert (HD : forall i j q, (q <= N / 2)%nat -> density (fourier N dt (at3 f i j) (- (INR q * dw))) = eps0 * c_light / PI * dt ^ 2 * a i j q).
  { intros i j q Hq. unfold density, a. rewrite <- (Rmult_1_r (dt ^ 2)).
    assert (E : fourier N dt (at3 f i j) (- (INR q * dw)) = Cmult (RtoC dt) (fft1 N (at3 f i j) q)).
    { unfold fourier, fft1. f_equal. apply csum_ext. intros n _. f_equal. f_equal. unfold dw. field. lra. }
    rewrite E, Cnorm2_mult, Cnorm2_R. field. lra. }
  set (A := eps0 * c_light / PI * dt ^ 2) in *.
  assert (HS : fold_right Rplus 0 l = rsum n0 (fun i => rsum n1 (fun j => area d g j * (A * rsum K (a i j))))).
  { rewrite total_rsum, Hll, HLo.
    transitivity (rsum K (fun q => rsum n0 (fun i => rsum n1 (fun j => area d g j * (A * a i j q))))).
    - apply rsum_ext. intros q Hq. rewrite Hsp by (rewrite HLo; exact Hq). rewrite Hnth by exact Hq.
      destruct Hd as [-> | Hd].
      + apply rsum_ext. intros i _. apply rsum_ext. intros j _. rewrite HD by lia. reflexivity.
      + rewrite Hd. cbn [rsum]. rewrite Rplus_0_l. destruct d.
        * apply rsum_ext. intros j _. rewrite HD by lia. reflexivity.
        * fold n0 n1. rewrite Hd. cbn [rsum]. rewrite Rplus_0_l. apply rsum_ext. intros j _. rewrite HD by lia. reflexivity.
        * apply rsum_ext. intros j _. rewrite HD by lia. reflexivity.
    - rewrite rsum_swap. apply rsum_ext. intros i _. rewrite rsum_swap. apply rsum_ext. intros j _. rewrite !rsum_scal_l. reflexivity. }
  assert (HE : e = rsum n0 (fun i => rsum n1 (fun j => area d g j * (A * PI / (INR N * dt) * rsum N (a i j))))).
  { destruct (compute_energy_eq d g f Hf) as (Q & _). rewrite Q in Hen. injection Hen as <-.
    rewrite energy_of_eq. unfold env_factor. rewrite He. change (dim0 f) with n0. change (dim1 f) with n1. rewrite Hd2. unfold rsum3.
    rewrite <- rsum_scal_l. apply rsum_ext. intros i _. rewrite <- rsum_scal_l. apply rsum_ext. intros j _.
    rewrite rsum_scal_l. unfold a. rewrite parseval_fft by lia.
    rewrite <- (area_eq g f N dt H d j) by lra. unfold cell_volume, A.
    destruct (sm_meta g) as (M1 & M2 & _). unfold cell_volume_xyt, cell_volume_rt. rewrite M1, M2.
    destruct d; field; repeat split; lra. }
  assert (HW : forall q, (q <= N / 2)%nat -> rsum n0 (fun i => rsum n1 (fun j => area d g j * density (fourier N dt (at3 f i j) (- (INR q * dw))))) =
     rsum n0 (fun i => rsum n1 (fun j => area d g j * (A * a i j q)))).
  { intros q Hq. apply rsum_ext. intros i _. apply rsum_ext. intros j _. rewrite HD by exact Hq. reflexivity. }
  pose proof (HW 0%nat ltac:(lia)) as HW0. replace (INR 0 * dw) with 0 in HW0 by (simpl; ring). rewrite HW0, HW by lia. rewrite HS, HE.
  set (D := fun F : nat -> nat -> R => rsum n0 (fun i => rsum n1 (fun j => area d g j * F i j))).
  assert (HDs : forall s F, D (fun i j => s * F i j) = s * D F).
  { intros s F. unfold D. rewrite <- rsum_scal_l. apply rsum_ext. intros i _. rewrite <- rsum_scal_l. apply rsum_ext. intros j _. ring. }
  assert (HDp : forall F G, D (fun i j => F i j + G i j) = D F + D G).
  { intros F G. unfold D. rewrite <- rsum_plus. apply rsum_ext. intros i _. rewrite <- rsum_plus. apply rsum_ext. intros j _. ring. }
  set (cN := if Nat.even N then 1 else 2).
  assert (HH : D (fun i j => 2 * rsum K (a i j)) = D (fun i j => (rsum N (a i j) + a i j 0%nat) + (- cN) * a i j K)).
  { unfold D. apply rsum_ext. intros i Hi. apply rsum_ext. intros j Hj. f_equal. unfold K, cN. rewrite (half_sum N (a i j)) by
      (assumption || (intros k Hk0 Hk; unfold a; apply fft1_sym; [assumption|assumption|intros n Hn; apply Him; assumption])). ring. }
  rewrite HDs, !HDp, HDs in HH.
  change (D (fun i j => A * rsum K (a i j)) * dw = D (fun i j => A * PI / (INR N * dt) * rsum N (a i j)) + dw / 2 * D (fun i j => A * a i j 0%nat) -
    (if Nat.even N then / 2 else 1) * dw * D (fun i j => A * a i j K)).
  rewrite !HDs. 
  replace (if Nat.even N then / 2 else 1) with (cN / 2) by (unfold cN; destruct (Nat.even N); field).
  replace (A * PI / (INR N * dt)) with (A * dw / 2) by (unfold dw; field; lra).
  replace (D (fun i j => rsum K (a i j))) with ((D (fun i j => rsum N (a i j)) + D (fun i j => a i j 0%nat) + - cN * D (fun i j => a i j K)) / 2) by (rewrite <- HH; field).
  field.
Qed.

(** ** range *)
From Verif Require Import FromArrayProofs FromArraySpec FromArrayModel DataProofs.
Lemma sorted_ascending l : StronglySorted Rlt l -> ascending l = true.
Proof.
  induction 1 as [|x l Hs IH Hf]; [reflexivity|]. cbn [ascending]. destruct l as [|y l]; [reflexivity|].
  rewrite IH, Bool.andb_true_r. apply Rltb_true. inversion Hf; assumption.
Qed.
Lemma seq_res_map {A B} (F : A -> res B) (G : A -> B) l : (forall x, In x l -> F x = Ok (G x)) -> seq_res (map F l) = Ok (map G l).
Proof.
  induction l as [|x l IH]; intros HF; [reflexivity|]. cbn [map seq_res]. rewrite HF by (left; reflexivity). cbn [bind].
  rewrite IH by (intros; apply HF; right; assumption). reflexivity.
Qed.
(** the piecewise linear function through the points (om_i, l_i), continued by its end values *)
Lemma np_interp_total om l t : om <> [] -> length om = length l -> exists y, np_interp om l t = Ok y.
Proof.
  intros Hne Hl. unfold np_interp, np_interp_with. destruct om as [|x0 om]; [congruence|]. rewrite Hl, Nat.eqb_refl. eexists; reflexivity.
Qed.
Lemma spectrum_sorted d g f N dt o m bins v om : sampled g f N dt -> snd (get_spectrum d g None bins o m) = Ok (v, om) ->
  StronglySorted Rlt om /\ (forall l, v = Sp1 l -> length l = length om) /\ (m = MSum \/ m = MOnAxis <-> exists l, v = Sp1 l).
Proof.
  intros H E. assert (HX : exists om' v', snd (get_spectrum d g None bins o m) = Ok (v', om') /\ StronglySorted Rlt om' /\ exists amp, is_spectrum d g f m amp om' v').
  { destruct (g_isenv g) eqn:He.
    - destruct o as [w0|].
      + destruct (c70_env d g f N dt w0 H He) as (om' & S1 & _ & HR). destruct (HR m bins) as (v' & E' & Hv). exists om', v'. eauto.
      + rewrite (c70_env_no_omega0 d g f None bins m) in E; [discriminate|apply H|exact He].
    - destruct (c70_real d g f N dt o H He) as (om' & Hom & HR). destruct (HR m bins) as (v' & E' & Hv). exists om', v'. split; [exact E'|]. split; [|eauto].
      destruct H as (_ & _ & _ & _ & H2 & Hdt & _). pose proof (INR_pos N ltac:(lia)) as HNp. pose proof PI_RGT_0.
      rewrite Hom. generalize (N / 2)%nat. intros K. generalize 0%nat at 1. induction K as [|K IH]; intros s; cbn [seq map]; constructor; [apply IH|].
      apply Forall_forall. intros y Hy. apply in_map_iff in Hy. destruct Hy as (q & <- & Hq). apply in_seq in Hq.
      unfold Rdiv. apply Rmult_lt_compat_r; [apply Rinv_0_lt_compat, Rmult_lt_0_compat; lra|]. apply Rmult_lt_compat_l; [lra|]. apply lt_INR. lia. }
  destruct HX as (om' & v' & E' & HS & amp & Hv). rewrite E in E'. injection E' as <- <-. split; [exact HS|].
  unfold is_spectrum in Hv. split.
  - intros l ->. destruct m; try contradiction; apply Hv.
  - destruct m, v; try contradiction; split; intros Q; try (destruct Q as [Q|Q]; discriminate); try (destruct Q as (? & Q); discriminate); eauto.
Qed.
Lemma c72 d g f N dt o m bins a b l om : sampled g f N dt -> snd (get_spectrum d g None bins o m) = Ok (Sp1 l, om) -> om <> [] ->
  exists r, snd (get_spectrum d g (Some (a, b)) bins o m) = Ok (Sp1 r, linspace a b bins) /\ length r = bins /\
    forall q, (q < bins)%nat -> let w := nth q (linspace a b bins) 0 in
      (w <= nth 0 om 0 -> nth q r 0 = nth 0 l 0) /\
      (nth (length om - 1) om 0 <= w -> nth q r 0 = nth (length om - 1) l 0) /\
      (forall i, (S i < length om)%nat -> nth i om 0 <= w <= nth (S i) om 0 ->
         nth q r 0 = nth i l 0 + (nth (S i) l 0 - nth i l 0) * ((w - nth i om 0) / (nth (S i) om 0 - nth i om 0))).
Proof.
  intros H E Hne. destruct (spectrum_sorted d g f N dt o m bins _ _ H E) as (HS & HL & _). specialize (HL l eq_refl).
  pose proof (sorted_ascending om HS) as HA.
  set (G := fun t => match np_interp om l t with Ok y => y | Err _ => 0 end).
  assert (HG : forall t, np_interp om l t = Ok (G t)).
  { intros t. unfold G. destruct (np_interp_total om l t Hne ltac:(congruence)) as (y & ->). reflexivity. }
  exists (map G (linspace a b bins)). split; [|split; [rewrite map_length; apply linspace_length|]].
  - assert (E' : exists X, snd (get_spectrum d g None bins o m) = bind X (fun p => Ok p) /\ snd (get_spectrum d g (Some (a, b)) bins o m) = bind X (fun p => sp_range (Some (a, b)) bins (fst p) (snd p))).
    { unfold get_spectrum, with_field. cbn [snd]. set (g' := fst (get_temporal_field g)). destruct (snd (get_temporal_field g)) as [f'|e]; [|exists (Err e); split; reflexivity].
      match goal with |- context [bind ?k _] => destruct k as [kept|e] end; [|exists (Err e); split; reflexivity]. cbn [bind].
      exists (Ok (sp_values d g' f' m (map snd kept), map fst kept)). split; reflexivity. }
    destruct E' as (X & X1 & X2). rewrite X1 in E. destruct X as [p|e]; [|discriminate]. cbn [bind] in E, X2. injection E as ->. rewrite X2.
    cbn [fst snd sp_range]. rewrite (seq_res_map _ G) by (intros; apply HG). reflexivity.
  - intros q Hq. cbn zeta. set (w := nth q (linspace a b bins) 0).
    assert (EQ : nth q (map G (linspace a b bins)) 0 = G w).
    { rewrite (nth_indep _ 0 (G 0)) by (rewrite map_length, linspace_length; exact Hq). rewrite (map_nth G). reflexivity. }
    rewrite EQ. pose proof (HG w) as HGw. unfold np_interp in *.
    assert (H0 : (0 < length om)%nat) by (destruct om; [congruence|simpl; lia]).
    assert (HLa : last l 0 = nth (length om - 1) l 0) by (rewrite <- HL; apply last_nth).
    assert (HLo : last om 0 = nth (length om - 1) om 0) by apply last_nth.
    conj.
    + intros Hw. destruct (Rle_lt_or_eq_dec _ _ Hw) as [Hlt|Heq].
      * rewrite np_interp_low in HGw by (assumption || congruence). injection HGw as <-. reflexivity.
      * rewrite Heq in HGw. change (nth 0 om 0) with (vget om 0) in HGw. rewrite np_interp_node in HGw by (assumption || congruence). rewrite Heq. injection HGw as HGw. symmetry. exact HGw.
    + intros Hw. destruct (Rle_lt_or_eq_dec _ _ Hw) as [Hlt|Heq].
      * rewrite np_interp_high in HGw by (assumption || congruence || (rewrite HLo; exact Hlt)). injection HGw as <-. exact HLa.
      * rewrite <- Heq in HGw. change (nth (length om - 1) om 0) with (vget om (length om - 1)) in HGw. rewrite np_interp_node in HGw by (assumption || congruence || lia).
        rewrite <- Heq. injection HGw as HGw. symmetry. exact HGw.
    + intros i Hi Hc. rewrite (np_interp_cell _ _ _ _ _ i) in HGw; [|congruence|exact HA|split; assumption].
      injection HGw as <-. unfold lerp, vget.
      assert (nth i om 0 < nth (S i) om 0) by (apply (ascending_nth _ HA); lia). try (field; lra); reflexivity.
Qed.
Lemma c72_raw d g o m bins r v om : snd (get_spectrum d g None bins o m) = Ok (v, om) -> m = MRaw \/ m = MOther ->
  snd (get_spectrum d g (Some r) bins o m) = Ok (v, om).
Proof.
  intros E Hm. rewrite <- E. unfold get_spectrum, with_field. cbn [snd]. destruct (snd (get_temporal_field g)) as [f'|e]; [|reflexivity].
  match goal with |- context [bind ?k _] => destruct k as [kept|e] end; [|reflexivity]. cbn [bind]. destruct Hm as [-> | ->]; destruct r; reflexivity.
Qed.
Lemma c72_empty d g o m bins a b l : snd (get_spectrum d g None bins o m) = Ok (Sp1 l, []) -> (0 < bins)%nat ->
  snd (get_spectrum d g (Some (a, b)) bins o m) = Err ValueError.
Proof.
  unfold get_spectrum, with_field. cbn [snd]. destruct (snd (get_temporal_field g)) as [f'|e]; [|discriminate].
  match goal with |- context [bind ?k _] => destruct k as [kept|e] end; [|discriminate]. cbn [bind]. unfold sp_range at 1.
  set (g' := fst (get_temporal_field g)). intros E Hb. assert (E1 : sp_values d g' f' m (map snd kept) = Sp1 l /\ map fst kept = []) by (split; congruence).
  destruct E1 as (E1 & E2). rewrite E1, E2. cbn [sp_range].
  assert (Hli : length (linspace a b bins) = bins) by apply linspace_length. destruct (linspace a b bins) as [|x t]; [simpl in Hli; lia|]. reflexivity.
Qed.

(** ** Witnesses *)
Definition spw_env : ndarray := mkArr [2;2;4]%nat Complex128 (fun _ _ _ => Ci).
Definition spw_real : ndarray := mkArr [2;2;2]%nat Float64 (fun _ _ _ => RtoC 1).
Lemma spw_read g0 a : shp a = shp (g_tf g0) -> dty a = g_dtype g0 ->
  snd (get_temporal_field (grun5 g0 [Call (SetT a)])) = Ok (mkArr (shp (g_tf g0)) (dty (g_tf g0)) (fun i j k => cast (dty (g_tf g0)) (at3 a i j k))).
Proof.
  intros H1 H2. cbn [grun5 gstep5 gstep fst]. unfold set_temporal_field. rewrite H1, H2.
  replace (shape_eqb (shp (g_tf g0)) (shp (g_tf g0))) with true by (symmetry; apply shape_eqb_refl).
  replace (dtype_eqb (g_dtype g0) (g_dtype g0)) with true by (destruct (g_dtype g0); reflexivity). reflexivity.
Qed.
Lemma spw_env_grid : exists g0, grid_init Xyt [0;0;0] [1;1;3] [2;2;4]%nat None true = Ok g0 /\ g_isenv (grun5 g0 [Call (SetT spw_env)]) = true /\
  exists f, sampled (grun5 g0 [Call (SetT spw_env)]) f 4 1 /\ shp f = [2;2;4]%nat /\ forall i j k, at3 f i j k = Ci.
Proof.
  eexists. split; [reflexivity|]. split; [reflexivity|].
  match goal with |- exists f, sampled (grun5 ?g0 [Call (SetT ?a)]) f _ _ /\ _ => pose proof (spw_read g0 a eq_refl eq_refl) as Hf end.
  eexists. split.
  - pose proof (c70_sampled Xyt [0;0;0] [1;1;3] [2;2;4]%nat None true _ [Call (SetT spw_env)] _ eq_refl eq_refl ltac:(simpl; lra) Hf) as Q. cbn [ndims_of Nat.sub nth] in Q.
    replace (spacing 0 3 4) with 1 in Q by (unfold spacing; simpl; field). exact Q.
  - split; [reflexivity|]. intros. reflexivity.
Qed.
Lemma spw_real_grid : exists g0, grid_init Xyt [0;0;0] [1;1;1] [2;2;2]%nat None false = Ok g0 /\ g_isenv (grun5 g0 [Call (SetT spw_real)]) = false /\
  nth 0 (g_dx (grun5 g0 [Call (SetT spw_real)])) 0 = 1 /\ nth 1 (g_dx (grun5 g0 [Call (SetT spw_real)])) 0 = 1 /\
  exists f, sampled (grun5 g0 [Call (SetT spw_real)]) f 2 1 /\ shp f = [2;2;2]%nat /\ forall i j k, at3 f i j k = RtoC 1.
Proof.
  eexists. split; [reflexivity|]. split; [reflexivity|]. split; [simpl; unfold vget; simpl; field|]. split; [simpl; unfold vget; simpl; field|].
  match goal with |- exists f, sampled (grun5 ?g0 [Call (SetT ?a)]) f _ _ /\ _ => pose proof (spw_read g0 a eq_refl eq_refl) as Hf end.
  eexists. split.
  - pose proof (c70_sampled Xyt [0;0;0] [1;1;1] [2;2;2]%nat None false _ [Call (SetT spw_real)] _ eq_refl eq_refl ltac:(simpl; lra) Hf) as Q. cbn [ndims_of Nat.sub nth] in Q.
    replace (spacing 0 1 2) with 1 in Q by (unfold spacing; simpl; field). exact Q.
  - split; [reflexivity|]. intros. reflexivity.
Qed.
Lemma c70_raw_refuted : exists g f om a q, sampled g f 4 1 /\ g_isenv g = true /\
  snd (get_spectrum Xyt g None 20 (Some (PI / 2)) MRaw) = Ok (Sp3 a, om) /\ (q < length om)%nat /\
  at3 a 0%nat 0%nat q <> fourier 4 1 (fun n => RtoC (Re (Cmult (at3 f 0%nat 0%nat n) (cis (- (PI / 2 * (INR n * 1))))))) (- nth q om 0).
Proof.
  destruct spw_env_grid as (g0 & _ & He & f & Hs & Hsh0 & Hf). exists (grun5 g0 [Call (SetT spw_env)]), f.
  destruct (c70_env Xyt _ f 4 1 (PI / 2) Hs He) as (om & HS & HI & HR). destruct (HR MRaw 20%nat) as (v & Hv & Hsp).
  destruct v as [l|a]; [contradiction|]. destruct Hsp as (Hsh & _ & Hat). rewrite Hsh0 in Hat. cbn [nth] in Hat.
  assert (Hin : In (PI / 2) om).
  { apply HI. pose proof PI_RGT_0. split; [lra|]. exists 0%Z. split; [simpl; lia|]. simpl. field. }
  apply In_nth with (d := 0) in Hin. destruct Hin as (q & Hq & Eq).
  exists om, a, q. conj; try assumption. rewrite Hat by lia. rewrite c70_convention, Eq.
  replace (at3 f 0%nat 0%nat) with (fun _ : nat => Ci) by (apply FunctionalExtensionality.functional_extensionality; intros; symmetry; apply Hf).
  replace (- (PI / 2) - PI / 2) with (- PI) by field. replace (PI / 2 - PI / 2) with 0 by ring. unfold fourier. cbn [csum INR].
  intros Q. apply (f_equal Im) in Q. revert Q.
  replace (0 * (0 * 1)) with 0 by ring. replace (0 * (1 * 1)) with 0 by ring. replace (0 * ((1 + 1) * 1)) with 0 by ring. replace (0 * ((1 + 1 + 1) * 1)) with 0 by ring.
  replace (- PI * (0 * 1)) with 0 by ring. replace (- PI * (1 * 1)) with (- PI) by ring. 
  replace (- PI * ((1 + 1) * 1)) with (0 + 2 * PI * IZR (-1)) by (simpl; ring). replace (- PI * ((1 + 1 + 1) * 1)) with (- PI + 2 * PI * IZR (-1)) by (simpl; ring).
  rewrite !cis_period, cis_0, cis_opp, cis_PI. unfold Cconj, Ci, RtoC, Cmult, Cplus, Im. simpl. lra.
Qed.
Lemma c71_refuted : exists g f e l om, sampled g f 2 1 /\ g_isenv g = false /\ (forall i j k, Im (at3 f i j k) = 0) /\
  snd (compute_laser_energy Xyt g) = Ok e /\ snd (get_spectrum Xyt g None 20 None MSum) = Ok (Sp1 l, om) /\
  fold_right Rplus 0 l * (2 * PI / (INR 2 * 1)) = 2 * e /\ 0 < e.
Proof.
  destruct spw_real_grid as (g0 & _ & He & Hd0 & Hd1 & f & Hs & Hsh0 & Hf). exists (grun5 g0 [Call (SetT spw_real)]), f.
  destruct (compute_energy_eq Xyt (grun5 g0 [Call (SetT spw_real)]) f (proj1 Hs)) as (Q & _).
  destruct (c71 Xyt _ f 2 1 _ 20%nat None Hs He ltac:(intros; rewrite Hf; reflexivity) (or_introl eq_refl) Q) as (l & om & Hl & E).
  exists (energy_of Xyt (grun5 g0 [Call (SetT spw_real)]) f), l, om. pose proof eps0_pos. pose proof c_light_pos. pose proof PI_RGT_0.
  assert (HW : forall i j w, density (fourier 2 1 (at3 f i j) w) = eps0 * c_light / PI * Cnorm2 (Cplus (RtoC 1) (cis w))).
  { intros. unfold density. f_equal. f_equal. unfold fourier. cbn [csum INR]. rewrite !Hf. replace (w * (0 * 1)) with 0 by ring. replace (w * (1 * 1)) with w by ring. rewrite cis_0. ring. }
  assert (HEn : energy_of Xyt (grun5 g0 [Call (SetT spw_real)]) f = 8 * eps0 * c_light).
  { rewrite energy_of_eq. unfold env_factor. rewrite He. unfold rsum3, dim0, dim1, dim2. rewrite Hsh0. cbn [nth rsum cell_volume]. rewrite !Hf.
    unfold cell_volume_xyt. change (vget (g_dx (grun5 g0 [Call (SetT spw_real)])) 0) with (nth 0 (g_dx (grun5 g0 [Call (SetT spw_real)])) 0).
    change (vget (g_dx (grun5 g0 [Call (SetT spw_real)])) 1) with (nth 1 (g_dx (grun5 g0 [Call (SetT spw_real)])) 0). rewrite Hd0, Hd1.
    unfold lastR. destruct Hs as (_ & _ & _ & _ & _ & _ & -> & _). rewrite Cnorm2_R. ring. }
  rewrite HEn in *. conj; try assumption; [intros; rewrite Hf; reflexivity| |nra].
  rewrite E. rewrite Hsh0. cbn [nth rsum Nat.even]. unfold area. rewrite Hd0, Hd1. rewrite !HW.
  replace (2 / 2)%nat with 1%nat by reflexivity. 
  replace (- (INR 1 * (2 * PI / (INR 2 * 1)))) with (- PI) by (simpl; field). replace (- 0) with 0 by ring. rewrite cis_0, cis_opp, cis_PI.
  replace (Cnorm2 (Cplus (RtoC 1) (RtoC 1))) with 4 by (unfold Cnorm2, Cplus, RtoC; simpl; ring).
  replace (Cnorm2 (Cplus (RtoC 1) (Cconj (RtoC (-1))))) with 0 by (unfold Cnorm2, Cplus, RtoC, Cconj; simpl; ring).
  simpl (INR 2). field. lra.
Qed.
Lemma c72_points a b n q : (2 <= n)%nat -> (q < n)%nat -> nth q (linspace a b n) 0 = a + INR q * ((b - a) / (INR n - 1)).
Proof. intros H1 H2. apply (linspace_nth a b n q H1 H2). Qed.
