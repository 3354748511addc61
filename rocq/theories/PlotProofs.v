(** C30-C32: get_full_field and show. *)
From Verif Require Import PyBase CSum NpFFT NumPy NpMath NpMathProofs GridModel GridSpec GridProofs LaserSpec GridObs
  EnergyModel AngularProofs LaserModel OpticsModel LaserOps LaserInv LaserInitProofs LaserStepProofs
  PropagateProofs HistoryProofs OpticsProofs LaserExamples AnalysisModel AnalysisExamples.
Open Scope R_scope.

Lemma modes_nth_slot (M : nat) m : (1 <= M)%nat -> (- Z.of_nat M < m < Z.of_nat M)%Z ->
  nth (mode_slot M m) (azimuthal_modes (Z.of_nat M)) 0%Z = m.
Proof. intros H1 H2. apply nth_error_nth, azimuthal_modes_slot; assumption. Qed.

Lemma azimuthal_sum_recon (M : nat) f s theta j k : (1 <= M)%nat -> dim0 f = (2 * M - 1)%nat ->
  azimuthal_sum (azimuthal_modes (Z.of_nat M)) f s theta j k = recon M (comp M f j k) (- s * theta).
Proof.
  intros HM Hd. unfold azimuthal_sum, recon. rewrite Hd, csum_slots by exact HM. apply csum_ext. intros q Hq.
  rewrite modes_nth_slot by lia. unfold comp. f_equal. f_equal. ring.
Qed.

Lemma recon_period M E theta theta' : cis theta = cis theta' -> recon M E theta = recon M E theta'.
Proof.
  intros H. apply NpMathProofs.cis_inj in H. destruct H as (z & ->). unfold recon. apply csum_ext. intros q _. f_equal.
  set (m := (Z.of_nat q - (Z.of_nat M - 1))%Z).
  replace (- (IZR m * (theta' + 2 * PI * IZR z))) with (- (IZR m * theta') + 2 * PI * IZR (- (m * z)))
    by (rewrite opp_IZR, mult_IZR; ring). apply cis_period.
Qed.
Lemma recon_one E theta : recon 1 E theta = E 0%Z.
Proof. unfold recon. cbn. rewrite Rmult_0_l, Ropp_0, cis_0. ring. Qed.

(** An rt laser as seen by the analysis functions. *)
Lemma rt_view L n0 n1 nt : Inv L n0 n1 nt -> l_dim L = Rt ->
  exists M a, (1 <= M)%nat /\ tread (l_grid L) = Ok a /\ shp a = [(2 * M - 1)%nat; n1; nt] /\ (2 <= n1)%nat /\ (2 <= nt)%nat /\
    g_modes (l_grid L) = Some (azimuthal_modes (Z.of_nat M)) /\ g_isenv (l_grid L) = true /\
    length (time_axis (l_grid L)) = nt.
Proof.
  intros HI Hd. destruct (i_read _ _ _ _ HI) as (a & Ha).
  destruct (tread_shape _ _ (proj1 (i_coh _ _ _ _ HI)) Ha) as (Hsh & _).
  pose proof (i_shape _ _ _ _ HI) as GS. rewrite (gs_shape _ _ _ _ _ GS) in Hsh.
  destruct (gs_rt _ _ _ _ _ GS Hd) as (M & HM & Hn0 & Hmod & _). subst n0.
  exists M, a. pose proof (gs_pos _ _ _ _ _ GS). conj; try assumption; try lia.
  - apply (proj1 (i_coh _ _ _ _ HI)).
  - apply (gs_tax _ _ _ _ _ GS).
Qed.

(** What get_full_field shows in rt geometry. *)
Lemma full_rt S L theta s sa : reachable S L -> l_dim L = Rt ->
  exists M a n1 nt im,
    (1 <= M)%nat /\ (2 <= n1)%nat /\ snd (get_temporal_field (l_grid L)) = Ok a /\ shp a = [(2 * M - 1)%nat; n1; nt] /\
    snd (get_full_field L theta s sa) =
      Ok (Some (im, [lastR (g_lo (l_grid L)); lastR (g_hi (l_grid L)); - vget (g_hi (l_grid L)) 0; vget (g_hi (l_grid L)) 0])) /\
    shp im = [(2 * n1 - 1)%nat; nt] /\
    let carrier k z := RtoC (Re (Cmult z (cis (- (p_omega0 (l_prof L) * vget (time_axis (l_grid L)) k))))) in
    (forall j k, (j < n1)%nat -> at3 im (n1 - 1 + j) k 0 = carrier k (recon M (comp M a j k) theta)) /\
    (forall j k, (1 <= j < n1)%nat -> at3 im (n1 - 1 - j) k 0 = carrier k (recon M (comp M a j k) (- theta))).
Proof.
  intros HR Hd. destruct (reachable_Inv S L HR) as (n0 & n1 & nt & HI).
  destruct (rt_view L n0 n1 nt HI Hd) as (M & a & HM & Ha & Hs & Hn1 & Hnt & Hmod & Henv & Hta).
  assert (Hd0 : dim0 a = (2 * M - 1)%nat) by (unfold dim0; rewrite Hs; reflexivity).
  assert (Hd1 : dim1 a = n1) by (unfold dim1; rewrite Hs; reflexivity).
  assert (Hd2 : dim2 a = nt) by (unfold dim2; rewrite Hs; reflexivity).
  destruct (get_t_meta (l_grid L)) as (E1&E2&E3&E4&E5&E6&E7&E8&E9&E10).
  exists M, a, n1, nt.
  unfold get_full_field, with_field. cbn [snd fst]. change (snd (get_temporal_field (l_grid L))) with (tread (l_grid L)).
  rewrite Ha. unfold full_field. rewrite Hd.
  assert (Hen' : g_isenv (fst (get_temporal_field (l_grid L))) = true) by congruence.
  assert (Hm' : g_modes (fst (get_temporal_field (l_grid L))) = Some (azimuthal_modes (Z.of_nat M))) by congruence.
  assert (Ht' : time_axis (fst (get_temporal_field (l_grid L))) = time_axis (l_grid L)) by (unfold time_axis; congruence).
  rewrite Hen', Hm'. cbn [negb].
  eexists. split; [exact HM|]. split; [exact Hn1|]. split; [reflexivity|]. split; [exact Hs|].
  split; [unfold full_extent; rewrite E1, E2; reflexivity|]. split.
  { cbn [shp]. rewrite Hd1, Hd2. f_equal. lia. }
  cbn zeta. cbn [at3]. unfold with_carrier. rewrite Ht'. split; intros j k Hj; do 2 f_equal; f_equal.
  - unfold full_env_rt. rewrite Hd1. destruct (Nat.ltb_spec (n1 - 1 + j) (n1 - 1)); [lia|].
    replace (n1 - 1 + j - (n1 - 1))%nat with j by lia. rewrite azimuthal_sum_recon by assumption.
    f_equal. ring.
  - unfold full_env_rt. rewrite Hd1. destruct (Nat.ltb_spec (n1 - 1 - j) (n1 - 1)); [|lia].
    replace (n1 - 1 - (n1 - 1 - j))%nat with j by lia. rewrite azimuthal_sum_recon by assumption.
    f_equal. ring.
Qed.

Lemma cis_opp_plus_PI theta : cos theta = 0 -> cis (- theta) = cis (theta + PI).
Proof. intros H. unfold cis. rewrite neg_cos, neg_sin, cos_neg, sin_neg, H. f_equal. ring. Qed.

(** Rows below the axis are right when cos theta = 0 or when there is a single mode. *)
Lemma full_rt_below M E theta : cos theta = 0 \/ M = 1%nat -> recon M E (- theta) = recon M E (theta + PI).
Proof.
  intros [H| ->]; [|rewrite !recon_one; reflexivity]. apply recon_period, cis_opp_plus_PI, H.
Qed.

Lemma full_rt_refuted : exists L a im ext,
  laser_init Rt [0;0] [2;1] [4;5]%nat ex_vortex 2 None = Ok L /\ snd (get_temporal_field (l_grid L)) = Ok a /\
  snd (get_full_field L 0 0 SliceX) = Ok (Some (im, ext)) /\ shp im = [7;5]%nat /\
  at3 im 0 0 0 <> RtoC (Re (Cmult (recon 2 (comp 2 a 3 0) (0 + PI))
                     (cis (- (p_omega0 (l_prof L) * vget (time_axis (l_grid L)) 0))))).
Proof.
  destruct (vortex_field_at 0 1) as (L & a & HL & Ha & Hs & Hd & Hm & _ & _ & Hp & Ht & Hv); [lra|].
  pose proof (reachable_init id_solvers _ _ _ _ _ _ _ L [] HL ltac:(constructor) ltac:(constructor)) as HR. cbn [lrun] in HR.
  destruct (full_rt id_solvers L 0 0 SliceX HR Hd) as (M & a' & n1 & nt & im & HM & Hn1 & Ha' & Hs' & Hf & Hsi & _ & Hlow).
  rewrite Ha in Ha'. injection Ha' as <-. rewrite Hs in Hs'. injection Hs' as HM' <- <-. assert (M = 2%nat) by lia. subst M.
  exists L, a, im. eexists. split; [exact HL|]. split; [exact Ha|]. split; [exact Hf|]. split; [exact Hsi|].
  specialize (Hlow 3%nat 0%nat ltac:(lia)). change (4 - 1 - 3)%nat with 0%nat in Hlow. rewrite Hlow.
  assert (Hrec : forall th, recon 2 (comp 2 a 3 0) th = Cmult (RtoC 2) (cis (- th))).
  { intros th. unfold recon. cbn [csum Nat.mul Nat.sub Nat.add]. unfold comp. cbn.
    destruct (Hv 3%nat 0%nat) as (V0 & V1 & V2); [lia|lia|]. unfold mode_slot; cbn. change (Pos.to_nat 1) with 1%nat.
    change (Pos.to_nat 2) with 2%nat. rewrite V0, V1, V2.
    replace (coord 0 2 4 3) with 2 by (unfold coord; simpl; field).
    replace (1 * th) with th by ring. ring. }
  rewrite !Hrec, Ht, Rmult_0_r, Ropp_0, cis_0, Ropp_0, cis_0, Rplus_0_l, cis_opp, cis_PI.
  intros H. apply RtoC_inj in H. unfold Cconj, RtoC, Cmult, Re in H; cbn [fst snd] in H. lra.
Qed.

(** ** C31 *)
Lemma powerRZ_m1 m : RtoC (powerRZ (-1) m) = cis (- (IZR m * PI)).
Proof.
  assert (HN : forall n, RtoC ((-1) ^ n) = cis (INR n * PI)).
  { induction n as [|n IH]; [cbn; rewrite Rmult_0_l, cis_0; reflexivity|].
    rewrite <- tech_pow_Rmult, RtoC_mult, IH, S_INR, Rmult_plus_distr_r, Rmult_1_l, cis_plus, cis_PI. ring. }
  assert (HC : forall n, Cconj (cis (INR n * PI)) = cis (INR n * PI)) by (intros n; rewrite <- HN; apply Cconj_R).
  destruct m as [|q|q]; cbn [powerRZ].
  - rewrite Rmult_0_l, Ropp_0, cis_0. reflexivity.
  - rewrite HN, cis_opp, INR_IPR. change (IZR (Z.pos q)) with (IPR q). rewrite <- INR_IPR. symmetry. apply HC.
  - change (IZR (Z.neg q)) with (- IPR q). rewrite <- INR_IPR. replace (- (- INR (Pos.to_nat q) * PI)) with (INR (Pos.to_nat q) * PI) by ring.
    rewrite <- HN. f_equal. assert (H1 : (-1) ^ Pos.to_nat q * (-1) ^ Pos.to_nat q = 1).
    { rewrite <- Rpow_mult_distr. replace (-1 * -1) with 1 by ring. apply pow1. }
    assert ((-1) ^ Pos.to_nat q <> 0) by (intros E; rewrite E in H1; lra).
    apply (Rmult_eq_reg_l ((-1) ^ Pos.to_nat q)); [|assumption]. rewrite Rinv_r by assumption. symmetry. exact H1.
Qed.

Lemma show_sum (M : nat) f j k (ph : Z -> C) : (1 <= M)%nat -> dim0 f = (2 * M - 1)%nat ->
  csum (length (azimuthal_modes (Z.of_nat M))) (fun a =>
    let m := nth a (azimuthal_modes (Z.of_nat M)) 0%Z in
    let i := match py_index (dim0 f) m with Some i => i | None => 0%nat end in Cmult (ph m) (at3 f i j k)) =
  csum (2 * M - 1) (fun q => let m := (Z.of_nat q - (Z.of_nat M - 1))%Z in Cmult (ph m) (comp M f j k m)).
Proof.
  intros HM Hd. rewrite azimuthal_modes_length by lia. replace (Z.to_nat (2 * Z.of_nat M - 1)) with (2 * M - 1)%nat by lia.
  rewrite csum_slots by exact HM. apply csum_ext. intros q Hq. cbn zeta.
  rewrite modes_nth_slot by lia. rewrite Hd, py_index_slot by lia. reflexivity.
Qed.

Lemma show_rt S L : reachable S L -> l_dim L = Rt ->
  exists M a n1 nt im,
    (1 <= M)%nat /\ snd (get_temporal_field (l_grid L)) = Ok a /\ shp a = [(2 * M - 1)%nat; n1; nt] /\
    snd (show_image L) =
      Ok (im, [lastR (g_lo (l_grid L)); lastR (g_hi (l_grid L)); - vget (g_hi (l_grid L)) 0; vget (g_hi (l_grid L)) 0]) /\
    shp im = [(2 * n1)%nat; nt] /\
    forall j k, (j < n1)%nat ->
      at3 im (n1 + j) k 0 = RtoC (Cmod (recon M (comp M a j k) 0)) /\
      at3 im (n1 - 1 - j) k 0 = RtoC (Cmod (recon M (comp M a j k) PI)).
Proof.
  intros HR Hd. destruct (reachable_Inv S L HR) as (n0 & n1 & nt & HI).
  destruct (rt_view L n0 n1 nt HI Hd) as (M & a & HM & Ha & Hs & Hn1 & Hnt & Hmod & Henv & Hta).
  assert (Hd0 : dim0 a = (2 * M - 1)%nat) by (unfold dim0; rewrite Hs; reflexivity).
  assert (Hd1 : dim1 a = n1) by (unfold dim1; rewrite Hs; reflexivity).
  assert (Hd2 : dim2 a = nt) by (unfold dim2; rewrite Hs; reflexivity).
  destruct (get_t_meta (l_grid L)) as (E1&E2&E3&E4&E5&E6&E7&E8&E9&E10).
  exists M, a, n1, nt.
  unfold show_image, with_field. cbn [snd fst]. change (snd (get_temporal_field (l_grid L))) with (tread (l_grid L)).
  rewrite Ha, Hd. replace (g_modes (fst (get_temporal_field (l_grid L)))) with (Some (azimuthal_modes (Z.of_nat M))) by congruence.
  replace (forallb _ (azimuthal_modes (Z.of_nat M))) with true.
  2:{ symmetry. apply forallb_forall. intros m Hm. apply azimuthal_modes_In in Hm. rewrite Hd0, py_index_slot by tauto. reflexivity. }
  eexists. split; [exact HM|]. split; [reflexivity|]. split; [exact Hs|].
  split; [unfold full_extent; rewrite E1, E2; reflexivity|]. split.
  { cbn [shp]. rewrite Hd1, Hd2. f_equal. lia. }
  intros j k Hj. cbn [at3]. unfold show_rt_env. rewrite Hd1.
  destruct (Nat.ltb_spec (n1 + j) n1); [lia|]. destruct (Nat.ltb_spec (n1 - 1 - j) n1); [|lia].
  replace (n1 + j - n1)%nat with j by lia. replace (n1 - 1 - (n1 - 1 - j))%nat with j by lia.
  split; f_equal; f_equal.
  - transitivity (csum (length (azimuthal_modes (Z.of_nat M))) (fun q =>
      let m := nth q (azimuthal_modes (Z.of_nat M)) 0%Z in
      let i := match py_index (dim0 a) m with Some i => i | None => 0%nat end in Cmult (RtoC 1) (at3 a i j k))).
    { apply csum_ext. intros q _. cbn zeta. rewrite Cmult_1_l. reflexivity. }
    rewrite (show_sum M a j k (fun _ => RtoC 1)) by assumption. unfold recon. apply csum_ext. intros q _. cbn zeta.
    rewrite Rmult_0_r, Ropp_0, cis_0. ring.
  - etransitivity; [exact (show_sum M a j k (fun m => RtoC (powerRZ (-1) m)) HM Hd0)|]. unfold recon. apply csum_ext. intros q _. cbn zeta.
    rewrite powerRZ_m1. ring.
Qed.

(** ** C32 *)
Lemma Rfloor_nonneg x : 0 <= x -> (0 <= Rfloor x)%Z.
Proof.
  intros H. destruct (Rfloor_bounds x) as (_ & H2). assert (IZR (-1) < IZR (Rfloor x)) by (simpl; lra).
  apply lt_IZR in H0. lia.
Qed.
Lemma half_bounds N : (2 <= N)%nat -> let h := (Z.of_nat N / 2 - 1)%Z in (0 <= h)%Z /\ (2 * h + 2 <= Z.of_nat N <= 2 * h + 3)%Z.
Proof.
  intros HN. cbn zeta. pose proof (Z.div_mod (Z.of_nat N) 2 ltac:(lia)). pose proof (Z.mod_pos_bound (Z.of_nat N) 2 ltac:(lia)). lia.
Qed.
Lemma slice_index_ok N s : (2 <= N)%nat -> -1/2 <= s <= 1/2 ->
  exists q, py_index N (slice_index N s) = Some q /\ (q < N)%nat /\
    INR q <= (1 + s) * IZR (Z.of_nat N / 2 - 1) < INR q + 1.
Proof.
  intros HN Hs. destruct (half_bounds N HN) as (H0 & H1). cbn zeta in *. set (h := (Z.of_nat N / 2 - 1)%Z) in *.
  assert (Hh : 0 <= IZR h) by (apply (IZR_le 0); exact H0).
  assert (Hx : 0 <= (1 + s) * IZR h) by nra.
  unfold slice_index, py_int. fold h. destruct (Rleb 0 _) eqn:E; [clear E|apply Rleb_false in E; contradiction].
  pose proof (Rfloor_nonneg _ Hx) as Hf. pose proof (Rfloor_bounds ((1 + s) * IZR h)) as Hb.
  set (z := Rfloor ((1 + s) * IZR h)) in *.
  assert (Hz : (z < Z.of_nat N)%Z).
  { apply lt_IZR. destruct H1 as (H1 & H1'). apply IZR_le in H1. rewrite plus_IZR, mult_IZR in H1. nra. }
  exists (Z.to_nat z). unfold py_index. destruct (Z.leb_spec 0 z); [|lia]. destruct (Z.ltb_spec z (Z.of_nat N)); [|lia].
  split; [reflexivity|]. split; [lia|]. rewrite INR_IZR_INZ, Z2Nat.id by exact Hf. exact Hb.
Qed.
(** ... the position of the index for slice 0 and for the documented edges. *)
Lemma slice_index_centre N q : (2 <= N)%nat -> py_index N (slice_index N 0) = Some q -> q = (N / 2 - 1)%nat.
Proof.
  intros HN Hq. destruct (slice_index_ok N 0 HN) as (q' & Hq' & _ & Hb); [lra|]. rewrite Hq in Hq'. injection Hq' as <-.
  destruct (half_bounds N HN) as (H0 & H1). cbn zeta in *.
  assert (E : Z.of_nat q = (Z.of_nat N / 2 - 1)%Z).
  { rewrite Rplus_0_r, Rmult_1_l, INR_IZR_INZ in Hb. destruct Hb as (B1 & B2). apply le_IZR in B1.
    rewrite <- plus_IZR in B2. apply lt_IZR in B2. lia. }
  assert (Hd : Z.of_nat (N / 2) = (Z.of_nat N / 2)%Z) by (rewrite Nat2Z.inj_div; reflexivity). lia.
Qed.
Lemma slice_index_edges N q : (6 <= N)%nat ->
  (py_index N (slice_index N (1/2)) = Some q -> (q < N - 1)%nat) /\
  (py_index N (slice_index N (-1/2)) = Some q -> (0 < q)%nat).
Proof.
  intros HN. destruct (half_bounds N) as (H0 & H1); [lia|]. cbn zeta in *.
  split; intros Hq.
  - destruct (slice_index_ok N (1/2)) as (q' & Hq' & Hlt & Hb); [lia|lra|]. rewrite Hq in Hq'. injection Hq' as <-.
    set (h := (Z.of_nat N / 2 - 1)%Z) in *.
    assert (H : INR q < INR (N - 1)).
    { rewrite minus_INR by lia. rewrite (INR_IZR_INZ N). assert (IZR 2 <= IZR h) by (apply IZR_le; lia).
      destruct H1 as (H1 & _). apply IZR_le in H1. rewrite plus_IZR, mult_IZR in H1. simpl (INR 1). lra. }
    apply INR_lt. exact H.
  - destruct (slice_index_ok N (-1/2)) as (q' & Hq' & Hlt & Hb); [lia|lra|]. rewrite Hq in Hq'. injection Hq' as <-.
    set (h := (Z.of_nat N / 2 - 1)%Z) in *. assert (IZR 2 <= IZR h) by (apply IZR_le; lia).
    apply INR_lt. simpl (INR 0). lra.
Qed.

Lemma xyt_view L n0 n1 nt : Inv L n0 n1 nt -> l_dim L = Xyt ->
  exists a, tread (l_grid L) = Ok a /\ shp a = [n0; n1; nt] /\ (1 <= n0)%nat /\ (2 <= n1)%nat /\ (2 <= nt)%nat /\
    g_isenv (l_grid L) = true /\ length (time_axis (l_grid L)) = nt.
Proof.
  intros HI Hd. destruct (i_read _ _ _ _ HI) as (a & Ha).
  destruct (tread_shape _ _ (proj1 (i_coh _ _ _ _ HI)) Ha) as (Hsh & _).
  pose proof (i_shape _ _ _ _ HI) as GS. rewrite (gs_shape _ _ _ _ _ GS) in Hsh.
  exists a. pose proof (gs_pos _ _ _ _ _ GS). conj; try assumption; try lia.
  - apply (proj1 (i_coh _ _ _ _ HI)).
  - apply (gs_tax _ _ _ _ _ GS).
Qed.

Lemma full_xyt S L theta s : reachable S L -> l_dim L = Xyt -> -1/2 <= s <= 1/2 ->
  exists a n0 n1 nt,
    snd (get_temporal_field (l_grid L)) = Ok a /\ shp a = [n0; n1; nt] /\
    let carrier k z := RtoC (Re (Cmult z (cis (- (p_omega0 (l_prof L) * vget (time_axis (l_grid L)) k))))) in
    let ext := [lastR (g_lo (l_grid L)); lastR (g_hi (l_grid L)); vget (g_lo (l_grid L)) 0; vget (g_hi (l_grid L)) 0] in
    (exists q im, (q < n1)%nat /\ INR q <= (1 + s) * IZR (Z.of_nat n1 / 2 - 1) < INR q + 1 /\
       (s = 0 -> q = (n1 / 2 - 1)%nat) /\
       snd (get_full_field L theta s SliceY) = Ok (Some (im, ext)) /\ shp im = [n0; nt] /\
       forall i k, at3 im i k 0 = carrier k (at3 a i q k)) /\
    ((2 <= n0)%nat -> exists q im, (q < n0)%nat /\ INR q <= (1 + s) * IZR (Z.of_nat n0 / 2 - 1) < INR q + 1 /\
       (s = 0 -> q = (n0 / 2 - 1)%nat) /\
       snd (get_full_field L theta s SliceX) = Ok (Some (im, ext)) /\ shp im = [n1; nt] /\
       forall j k, at3 im j k 0 = carrier k (at3 a q j k)) /\
    snd (get_full_field L theta s SliceOther) = Ok None.
Proof.
  intros HR Hd Hs. destruct (reachable_Inv S L HR) as (n0 & n1 & nt & HI).
  destruct (xyt_view L n0 n1 nt HI Hd) as (a & Ha & Hsh & Hn0 & Hn1 & Hnt & Henv & Hta).
  assert (Hd0 : dim0 a = n0) by (unfold dim0; rewrite Hsh; reflexivity).
  assert (Hd1 : dim1 a = n1) by (unfold dim1; rewrite Hsh; reflexivity).
  assert (Hd2 : dim2 a = nt) by (unfold dim2; rewrite Hsh; reflexivity).
  destruct (get_t_meta (l_grid L)) as (E1&E2&E3&E4&E5&E6&E7&E8&E9&E10).
  assert (Hen' : g_isenv (fst (get_temporal_field (l_grid L))) = true) by congruence.
  assert (Ht' : time_axis (fst (get_temporal_field (l_grid L))) = time_axis (l_grid L)) by (unfold time_axis; congruence).
  exists a, n0, n1, nt. split; [exact Ha|]. split; [exact Hsh|]. cbn zeta. split; [|split].
  - destruct (slice_index_ok n1 s Hn1 Hs) as (q & Hq & Hlt & Hb). exists q.
    unfold get_full_field, with_field. cbn [snd fst]. change (snd (get_temporal_field (l_grid L))) with (tread (l_grid L)).
    rewrite Ha. unfold full_field. rewrite Hen', Hd. cbn [negb]. rewrite Hd1, Hq.
    eexists. split; [exact Hlt|]. split; [exact Hb|]. split; [intros ->; apply slice_index_centre; assumption|].
    split; [unfold full_extent; rewrite E1, E2; reflexivity|]. split; [cbn [shp]; rewrite Hd0, Hd2; reflexivity|].
    intros i k. cbn [at3]. unfold with_carrier. rewrite Ht'. reflexivity.
  - intros Hn0'. destruct (slice_index_ok n0 s Hn0' Hs) as (q & Hq & Hlt & Hb). exists q.
    unfold get_full_field, with_field. cbn [snd fst]. change (snd (get_temporal_field (l_grid L))) with (tread (l_grid L)).
    rewrite Ha. unfold full_field. rewrite Hen', Hd. cbn [negb]. rewrite Hd0, Hq.
    eexists. split; [exact Hlt|]. split; [exact Hb|]. split; [intros ->; apply slice_index_centre; assumption|].
    split; [unfold full_extent; rewrite E1, E2; reflexivity|]. split; [cbn [shp]; rewrite Hd1, Hd2; reflexivity|].
    intros i k. cbn [at3]. unfold with_carrier. rewrite Ht'. reflexivity.
  - unfold get_full_field, with_field. cbn [snd fst]. change (snd (get_temporal_field (l_grid L))) with (tread (l_grid L)).
    rewrite Ha. unfold full_field. rewrite Hen', Hd. reflexivity.
Qed.
(** The extent returned for slice_axis="x" is the x range, although the data is over y and t. *)
Lemma full_xyt_extent_refuted : exists L im ext,
  laser_init Xyt [-1;-2;-3] [1;2;4] [4;3;5]%nat (ex_prof None) 1 None = Ok L /\
  snd (get_full_field L 0 0 SliceX) = Ok (Some (im, ext)) /\ shp im = [3; 5]%nat /\
  vget ext 2 <> vget (nth 1 (g_axes (l_grid L)) []) 0 /\ vget ext 3 <> last (nth 1 (g_axes (l_grid L)) []) 0.
Proof.
  destruct (ex_xyt None I) as (L & HL).
  pose proof (reachable_init id_solvers _ _ _ _ _ _ _ L [] HL ltac:(constructor) ltac:(constructor)) as HR. cbn [lrun] in HR.
  destruct (laser_init_Inv _ _ _ _ _ _ _ _ HL) as (g & n0 & n1 & nt & Hg & Hmt & D1 & _).
  destruct (xyt_samples _ _ _ _ _ _ _ _ _ HL) as (b & s & H1 & H2 & _); simpl nth; try lra; [exact I|].
  destruct (full_xyt id_solvers L 0 0 HR D1) as (a & m0 & m1 & mt & Ha & Hs & _ & HX & _); [lra|].
  rewrite H1 in Ha. injection Ha as <-. rewrite H2 in Hs. injection Hs as <- <- <-.
  destruct (HX ltac:(lia)) as (q & im & _ & _ & _ & Hf & Hsi & _).
  exists L, im. eexists. split; [exact HL|]. split; [exact Hf|]. split; [exact Hsi|].
  destruct Hmt as (Elo&Ehi&_&Eax&_). destruct (grid_init_axes _ _ _ _ _ _ _ Hg) as (Glo & Ghi & _ & _ & Hax).
  destruct (Hax 1%nat ltac:(simpl; lia)) as (n & Hn & Hlen & A0 & A1 & _). simpl in Hn. injection Hn as <-.
  cbn zeta in *. cbn [vget nth]. unfold vget at 1 3. cbn [nth]. rewrite Eax, last_nth, Hlen.
  unfold vget in *. rewrite A1, A0, Elo, Ehi, Glo, Ghi. cbn [nth]. split; lra.
Qed.
