(** Proofs of C73: get_full_field with Nt. *)
From Verif Require Import PyBase CSum NpFFT NumPy NpMath NpMathProofs GridModel GridSpec GridProofs LaserSpec GridObs
  EnergyModel AngularProofs LaserModel OpticsModel LaserOps LaserInv LaserInitProofs LaserStepProofs
  PropagateProofs HistoryProofs OpticsProofs LaserExamples AnalysisModel AnalysisExamples PlotProofs
  FromArraySpec FromArrayModel FromArrayProofs FromArrayProps DataModel DataProofs TransDataProofs FullFieldModel FullFieldSpec AnalysisSpec ReadOnlyProofs.
Open Scope R_scope.

Lemma nt_none L theta s sa : get_full_field_nt L theta s sa None = get_full_field L theta s sa.
Proof.
  assert (E : with_field (l_grid L) (full_field_nt L theta s sa None) = with_field (l_grid L) (full_field L theta s sa)).
  { unfold with_field. destruct (snd (get_temporal_field (l_grid L))) as [f|e]; [|reflexivity]. apply (f_equal (pair _)).
    unfold full_field_nt, full_field, plane_env. destruct (negb _); [reflexivity|]. destruct (l_dim L); destruct sa; try (destruct (g_modes _)); try (destruct (py_index _ _)); reflexivity. }
  unfold get_full_field_nt, get_full_field. rewrite E. reflexivity.
Qed.

Lemma Re_le_Cmod z : Rabs (Re z) <= Cmod z.
Proof. pose proof (Rmax_Cmod z). pose proof (Rmax_l (Rabs (fst z)) (Rabs (snd z))). unfold Re. lra. Qed.
(** One row. *)
Lemma resampled_row ts w0 env T n : monotone ts = true -> (2 <= length ts)%nat ->
  resampled ts w0 env T n (fun q => with_carrier w0 (T q) (resample_row ts env (T q))).
Proof.
  intros Ha H2. split; [|split].
  - intros q k _ Hk HT. unfold with_carrier, resample_row. rewrite HT, !interp1m_node by assumption. rewrite cis_unwrap, angle_polar. reflexivity.
  - intros q k r0 r1 th s _ Hc H0 H1 Hs Z0 Z1 lam. pose proof (interp_time ts env k (T q) r0 r1 th s Ha Hc H0 H1 Hs Z0 Z1) as X. cbn zeta in X. fold lam in X.
    unfold with_carrier, resample_row.
    assert (P : 0 <= interp1m ts (fun k => Cmod (env k)) (T q)).
    { destruct Hc as [Hk Ht]. pose proof (Rmax_l (Cmod (env k)) (Cmod (env (S k)))). pose proof (Rmax_r (Cmod (env k)) (Cmod (env (S k)))). pose proof (Cmod_ge_0 (env k)). pose proof (Cmod_ge_0 (env (S k))).
      apply (interp1m_cell_between ts _ (T q) k 0 (Rmax (Cmod (env k)) (Cmod (env (S k))))); try assumption; split; lra. }
    rewrite Rabs_pos_eq in X by exact P. rewrite X. f_equal. rewrite <- Cmult_assoc, <- cis_plus. unfold cis, Cmult, RtoC, Re; cbn [fst snd].
    replace (th + lam * s + - (w0 * T q)) with (th + lam * s - w0 * T q) by ring. ring.
  - intros q k B _ [Hk Ht] B0 B1. unfold with_carrier, resample_row. rewrite Cmod_R.
    assert (P : 0 <= interp1m ts (fun k => Cmod (env k)) (T q) <= B).
    { pose proof (Cmod_ge_0 (env k)). pose proof (Cmod_ge_0 (env (S k))). apply (interp1m_cell_between ts _ (T q) k 0 B); try assumption; split; lra. }
    eapply Rle_trans; [apply Re_le_Cmod|]. rewrite !Cmod_mult, !Cmod_cis, Cmod_R, Rabs_pos_eq by lra. lra.
Qed.

Lemma resampled_ext ts w0 env env' T n row : (forall k, env k = env' k) -> resampled ts w0 env T n row -> resampled ts w0 env' T n row.
Proof.
  intros E (R1 & R2 & R3). split; [|split].
  - intros q k. rewrite <- E. apply R1.
  - intros q k r0 r1 th s. rewrite <- !E. apply R2.
  - intros q k B. rewrite <- !E. apply R3.
Qed.
(** Everything after the plane has been chosen. *)
Lemma nt_core L theta s sa f rows env nt n lo hi :
  snd (get_temporal_field (l_grid L)) = Ok f -> g_isenv (l_grid L) = true ->
  plane_env L theta s sa (fst (get_temporal_field (l_grid L))) f = Ok (Some (rows, env)) ->
  lastR (g_lo (l_grid L)) = lo -> lastR (g_hi (l_grid L)) = hi -> lo < hi -> (2 <= nt)%nat ->
  length (time_axis (l_grid L)) = nt -> (forall k, (k < nt)%nat -> vget (time_axis (l_grid L)) k = coord lo hi nt k) ->
  exists im, snd (get_full_field_nt L theta s sa (Some n)) = Ok (Some (im, full_extent (l_dim L) (l_grid L))) /\ shp im = [rows; n] /\
    forall p, resampled (time_axis (l_grid L)) (p_omega0 (l_prof L)) (env p) (coord lo hi n) n (fun q => at3 im p q 0).
Proof.
  intros Hf He Hp Hlo Hhi Hlt Hnt Hlen Hax. destruct (get_t_meta (l_grid L)) as (E1&E2&E3&E4&E5&E6&E7&E8&E9&E10).
  set (g := fst (get_temporal_field (l_grid L))) in *.
  assert (Et : time_axis g = time_axis (l_grid L)) by (unfold time_axis; congruence).
  assert (Hasc : ascending (time_axis (l_grid L)) = true).
  { apply ascending_iff. rewrite Hlen. intros i Hi. rewrite !Hax by lia. unfold coord. rewrite S_INR. assert (0 < (hi - lo) / (INR nt - 1)); [|lra].
    apply Rdiv_lt_0_compat; [lra|]. assert (2 <= INR nt) by (apply (le_INR 2); exact Hnt). lra. }
  assert (T : forall q, (q < n)%nat -> vget (linspace lo hi n) q = coord lo hi n q).
  { intros q Hq. destruct n as [|[|n]]; [lia| |apply linspace_coord; lia]. destruct q; [|lia]. unfold coord, vget. cbn. ring. }
  assert (Hin : interp1d_ok (time_axis g) (linspace (lastR (g_lo g)) (lastR (g_hi g)) n) = true).
  { rewrite Et, E1, E2, Hlo, Hhi. unfold interp1d_ok. apply forallb_forall. intros v Hv. apply (In_nth _ _ 0) in Hv. destruct Hv as (q & Hq & <-). rewrite linspace_length in Hq.
    change (nth q (linspace lo hi n) 0) with (vget (linspace lo hi n) q). rewrite T by exact Hq. rewrite in_axis_m_asc by exact Hasc. unfold in_axis.
    assert (A0 : vget (time_axis (l_grid L)) 0 = lo) by (rewrite Hax by lia; unfold coord; simpl; ring).
    assert (A1 : last (time_axis (l_grid L)) 0 = hi).
    { rewrite last_vget, Hlen, Hax by lia. unfold coord. rewrite minus_INR by lia. cbn [INR]. assert (2 <= INR nt) by (apply (le_INR 2); exact Hnt). field. lra. }
    rewrite A0, A1. assert (0 <= coord lo hi n q - lo <= hi - lo).
    { unfold coord. pose proof (pos_INR q). assert (INR q + 1 <= INR n) by (rewrite <- S_INR; apply le_INR; lia).
      destruct (Nat.eq_dec n 1) as [-> |Hn1]; [assert (q = 0)%nat by lia; subst q; cbn [INR]; lra|].
      assert (2 <= INR n) by (apply (le_INR 2); lia). set (d := hi - lo) in *. set (m := INR n - 1) in *.
      assert (Em : d = m * (d / m)) by (field; unfold m; lra). assert (0 < d / m) by (apply Rdiv_lt_0_compat; unfold m, d; lra).
      replace (lo + INR q * (d / m) - lo) with (INR q * (d / m)) by ring. split; [apply Rmult_le_pos; lra|]. apply Rle_trans with (m * (d / m)); [apply Rmult_le_compat_r; [lra|unfold m; lra]|lra]. }
    apply andb_true_intro; split; apply Rleb_true; lra. }
  eexists. split; [|split].
  - unfold get_full_field_nt, with_field. cbn [snd]. rewrite Hf. fold g. unfold full_field_nt. replace (g_isenv g) with true by congruence. cbn [negb]. rewrite Hp. cbn [bind]. rewrite Hin, Bool.orb_true_r.
    replace (full_extent (l_dim L) g) with (full_extent (l_dim L) (l_grid L)) by (unfold full_extent; rewrite E1, E2; reflexivity). reflexivity.
  - reflexivity.
  - intros p. cbn [at3]. rewrite Et, E1, E2, Hlo, Hhi. pose proof (resampled_row (time_axis (l_grid L)) (p_omega0 (l_prof L)) (env p) (coord lo hi n) n (asc_mono _ Hasc) ltac:(lia)) as (R1 & R2 & R3).
    split; [|split].
    + intros q k Hq. rewrite T by exact Hq. apply R1, Hq.
    + intros q k r0 r1 th s0 Hq. rewrite T by exact Hq. apply R2, Hq.
    + intros q k B Hq. rewrite T by exact Hq. apply R3, Hq.
Qed.

Lemma window_last S d lo hi np p nm nte L0 h : laser_init d lo hi np p nm nte = Ok L0 -> (d = Xyt \/ Forall no_resample h) ->
  nth (ndims_of d - 1) lo 0 < nth (ndims_of d - 1) hi 0 ->
  let L := lrun S L0 h in
  exists n0 n1 nt, Inv L n0 n1 nt /\ (2 <= nt)%nat /\ l_dim L = d /\
    lastR (g_lo (l_grid L)) < lastR (g_hi (l_grid L)) /\ length (time_axis (l_grid L)) = nt /\
    forall k, (k < nt)%nat -> vget (time_axis (l_grid L)) k = coord (lastR (g_lo (l_grid L))) (lastR (g_hi (l_grid L))) nt k.
Proof.
  intros H Hh Hlt L. destruct (laser_init_Inv _ _ _ _ _ _ _ _ H) as (g & n0 & n1 & nt & _ & _ & D1 & _ & _ & _ & _ & Hn & _ & HI).
  destruct (history_plain S L0 n0 n1 nt h HI) as (HI' & _ & D' & _); [rewrite D1; exact Hh|]. fold L in HI', D'.
  destruct (window_plain S d lo hi np p nm nte L0 h H Hh) as (nt' & Hn' & La & Wl & Wh & Wlen & Wk & _). rewrite Hn in Hn'. injection Hn' as <-. fold L in La, Wl, Wh, Wlen, Wk.
  pose proof (i_shape _ _ _ _ HI') as GS. assert (Dd : l_dim L = d) by congruence. rewrite Dd in GS.
  assert (Tq : time_axis (l_grid L) = nth (ndims_of d - 1) (g_axes (l_grid L)) []) by (unfold time_axis; rewrite last_nth, La; reflexivity).
  assert (Lq : lastR (g_lo (l_grid L)) = nth (ndims_of d - 1) (g_lo (l_grid L)) 0) by (unfold lastR; rewrite last_nth, (gs_lo _ _ _ _ _ GS); reflexivity).
  assert (Hq : lastR (g_hi (l_grid L)) = nth (ndims_of d - 1) (g_hi (l_grid L)) 0) by (unfold lastR; rewrite last_nth, (gs_hi _ _ _ _ _ GS); reflexivity).
  exists n0, n1, nt. split; [exact HI'|]. split; [apply (gs_pos _ _ _ _ _ GS)|]. split; [exact Dd|]. rewrite Lq, Hq. split; [rewrite Wl, Wh; lra|]. rewrite Tq. split; [exact Wlen|].
  intros k Hk. apply (proj2 (Wk k Hk)).
Qed.

(** C73, rt *)
Lemma c73_rt S lo hi np p nm nte L0 h theta s sa n : laser_init Rt lo hi np p nm nte = Ok L0 -> Forall no_resample h -> nth 1 lo 0 < nth 1 hi 0 ->
  let L := lrun S L0 h in
  let T := coord (lastR (g_lo (l_grid L))) (lastR (g_hi (l_grid L))) n in
  exists M a n1 nt im,
    (1 <= M)%nat /\ (2 <= n1)%nat /\ snd (get_temporal_field (l_grid L)) = Ok a /\ shp a = [(2 * M - 1)%nat; n1; nt] /\
    snd (get_full_field_nt L theta s sa (Some n)) =
      Ok (Some (im, [lastR (g_lo (l_grid L)); lastR (g_hi (l_grid L)); - vget (g_hi (l_grid L)) 0; vget (g_hi (l_grid L)) 0])) /\
    shp im = [(2 * n1 - 1)%nat; n] /\
    (forall j, (j < n1)%nat -> resampled (time_axis (l_grid L)) (p_omega0 (l_prof L)) (fun k => recon M (comp M a j k) theta) T n (fun q => at3 im (n1 - 1 + j) q 0)) /\
    (forall j, (1 <= j < n1)%nat -> resampled (time_axis (l_grid L)) (p_omega0 (l_prof L)) (fun k => recon M (comp M a j k) (- theta)) T n (fun q => at3 im (n1 - 1 - j) q 0)).
Proof.
  intros H Hh Hlt L T. destruct (window_last S Rt lo hi np p nm nte L0 h H (or_intror Hh) Hlt) as (n0 & n1 & nt & HI & Hnt & Hd & Hw & Hlen & Hax). fold L in HI, Hd, Hw, Hlen, Hax.
  destruct (rt_view L n0 n1 nt HI Hd) as (M & a & HM & Ha & Hs & Hn1 & _ & Hmod & Henv & _).
  assert (Hd0 : dim0 a = (2 * M - 1)%nat) by (unfold dim0; rewrite Hs; reflexivity).
  assert (Hd1 : dim1 a = n1) by (unfold dim1; rewrite Hs; reflexivity).
  destruct (get_t_meta (l_grid L)) as (E1&E2&E3&E4&E5&E6&E7&E8&E9&E10).
  destruct (nt_core L theta s sa a (dim1 a - 1 + dim1 a)%nat (full_env_rt (azimuthal_modes (Z.of_nat M)) a theta) nt n _ _ Ha Henv ltac:(unfold plane_env; rewrite Hd; replace (g_modes (fst (get_temporal_field (l_grid L)))) with (Some (azimuthal_modes (Z.of_nat M))) by congruence; reflexivity) eq_refl eq_refl Hw Hnt Hlen Hax) as (im & G & Sh & Hr).
  exists M, a, n1, nt, im. split; [exact HM|]. split; [exact Hn1|]. split; [exact Ha|]. split; [exact Hs|]. split; [rewrite G, Hd; reflexivity|]. split; [rewrite Sh, Hd1; f_equal; lia|].
  split; intros j Hj.
  - eapply resampled_ext; [|apply (Hr (n1 - 1 + j)%nat)]. intros k. unfold full_env_rt. rewrite Hd1. destruct (Nat.ltb_spec (n1 - 1 + j) (n1 - 1)); [lia|].
    replace (n1 - 1 + j - (n1 - 1))%nat with j by lia. rewrite azimuthal_sum_recon by assumption. f_equal. ring.
  - eapply resampled_ext; [|apply (Hr (n1 - 1 - j)%nat)]. intros k. unfold full_env_rt. rewrite Hd1. destruct (Nat.ltb_spec (n1 - 1 - j) (n1 - 1)); [|lia].
    replace (n1 - 1 - (n1 - 1 - j))%nat with j by lia. rewrite azimuthal_sum_recon by assumption. f_equal. ring.
Qed.
Lemma c73_xyt S lo hi np p nm nte L0 h theta s n : laser_init Xyt lo hi np p nm nte = Ok L0 -> nth 2 lo 0 < nth 2 hi 0 -> -1/2 <= s <= 1/2 ->
  let L := lrun S L0 h in
  let T := coord (lastR (g_lo (l_grid L))) (lastR (g_hi (l_grid L))) n in
  exists a n0 n1 nt,
    snd (get_temporal_field (l_grid L)) = Ok a /\ shp a = [n0; n1; nt] /\
    let ext := [lastR (g_lo (l_grid L)); lastR (g_hi (l_grid L)); vget (g_lo (l_grid L)) 0; vget (g_hi (l_grid L)) 0] in
    (exists q im, (q < n1)%nat /\ INR q <= (1 + s) * IZR (Z.of_nat n1 / 2 - 1) < INR q + 1 /\
       snd (get_full_field_nt L theta s SliceY (Some n)) = Ok (Some (im, ext)) /\ shp im = [n0; n] /\
       forall i, resampled (time_axis (l_grid L)) (p_omega0 (l_prof L)) (fun k => at3 a i q k) T n (fun k => at3 im i k 0)) /\
    ((2 <= n0)%nat -> exists q im, (q < n0)%nat /\ INR q <= (1 + s) * IZR (Z.of_nat n0 / 2 - 1) < INR q + 1 /\
       snd (get_full_field_nt L theta s SliceX (Some n)) = Ok (Some (im, ext)) /\ shp im = [n1; n] /\
       forall j, resampled (time_axis (l_grid L)) (p_omega0 (l_prof L)) (fun k => at3 a q j k) T n (fun k => at3 im j k 0)) /\
    snd (get_full_field_nt L theta s SliceOther (Some n)) = Ok None.
Proof.
  intros H Hlt Hs L T. destruct (window_last S Xyt lo hi np p nm nte L0 h H (or_introl eq_refl) Hlt) as (n0 & n1 & nt & HI & Hnt & Hd & Hw & Hlen & Hax). fold L in HI, Hd, Hw, Hlen, Hax.
  destruct (xyt_view L n0 n1 nt HI Hd) as (a & Ha & Hsh & Hn0 & Hn1 & _ & Henv & _).
  assert (Hd0 : dim0 a = n0) by (unfold dim0; rewrite Hsh; reflexivity).
  assert (Hd1 : dim1 a = n1) by (unfold dim1; rewrite Hsh; reflexivity).
  destruct (get_t_meta (l_grid L)) as (E1&E2&E3&E4&E5&E6&E7&E8&E9&E10).
  exists a, n0, n1, nt. split; [exact Ha|]. split; [exact Hsh|]. cbn zeta. split; [|split].
  - destruct (slice_index_ok n1 s Hn1 Hs) as (q & Hq & Hql & Hb). exists q.
    destruct (nt_core L theta s SliceY a n0 (fun i k => at3 a i q k) nt n _ _ Ha Henv ltac:(unfold plane_env; rewrite Hd, Hd1, Hq, Hd0; reflexivity) eq_refl eq_refl Hw Hnt Hlen Hax) as (im & G & Sh & Hr).
    exists im. split; [exact Hql|]. split; [exact Hb|]. split; [rewrite G, Hd; reflexivity|]. split; [exact Sh|]. intros i. apply Hr.
  - intros Hn0'. destruct (slice_index_ok n0 s Hn0' Hs) as (q & Hq & Hql & Hb). exists q.
    destruct (nt_core L theta s SliceX a n1 (fun j k => at3 a q j k) nt n _ _ Ha Henv ltac:(unfold plane_env; rewrite Hd, Hd0, Hq, Hd1; reflexivity) eq_refl eq_refl Hw Hnt Hlen Hax) as (im & G & Sh & Hr).
    exists im. split; [exact Hql|]. split; [exact Hb|]. split; [rewrite G, Hd; reflexivity|]. split; [exact Sh|]. intros j. apply Hr.
  - unfold get_full_field_nt, with_field. cbn [snd]. change (snd (get_temporal_field (l_grid L))) with (tread (l_grid L)). rewrite Ha. unfold full_field_nt. replace (g_isenv (fst (get_temporal_field (l_grid L)))) with true by congruence.
    cbn [negb]. unfold plane_env. rewrite Hd. reflexivity.
Qed.
(** C73: asking for as many points as there are changes nothing. *)
Lemma c73_same S d lo hi np p nm nte L0 h theta s sa im ext : laser_init d lo hi np p nm nte = Ok L0 -> (d = Xyt \/ Forall no_resample h) ->
  nth (ndims_of d - 1) lo 0 < nth (ndims_of d - 1) hi 0 ->
  let L := lrun S L0 h in
  snd (get_full_field L theta s sa) = Ok (Some (im, ext)) ->
  exists nt im', length (time_axis (l_grid L)) = nt /\ snd (get_full_field_nt L theta s sa (Some nt)) = Ok (Some (im', ext)) /\ shp im' = shp im /\
    forall i k, (k < nt)%nat -> at3 im' i k 0 = at3 im i k 0.
Proof.
  intros H Hh Hlt L G. destruct (window_last S d lo hi np p nm nte L0 h H Hh Hlt) as (n0 & n1 & nt & HI & Hnt & Hd & Hw & Hlen & Hax). fold L in HI, Hd, Hw, Hlen, Hax.
  rewrite <- nt_none in G. unfold get_full_field_nt, with_field in G. cbn [snd] in G. destruct (get_t_meta (l_grid L)) as (E1&E2&E3&E4&E5&E6&E7&E8&E9&E10).
  destruct (snd (get_temporal_field (l_grid L))) as [f|] eqn:Ef; [|discriminate].
  assert (Hf2 : dim2 f = nt).
  { destruct (tread_shape _ _ (proj1 (i_coh _ _ _ _ HI)) Ef) as (Hsh & _). rewrite (gs_shape _ _ _ _ _ (i_shape _ _ _ _ HI)) in Hsh. unfold dim2. rewrite Hsh. reflexivity. }
  unfold full_field_nt in G. destruct (g_isenv (fst (get_temporal_field (l_grid L)))) eqn:Ee; [|discriminate]. cbn [negb] in G.
  destruct (plane_env L theta s sa (fst (get_temporal_field (l_grid L))) f) as [pe|] eqn:Ep; [|discriminate]. cbn [bind] in G. destruct pe as [(rows, env)|]; [|discriminate].
  assert (Ext : ext = full_extent (l_dim L) (l_grid L)) by (injection G as _ <-; unfold full_extent; rewrite E1, E2; reflexivity).
  assert (Him : im = mkArr [rows; dim2 f] Float64 (fun p k _ => with_carrier (p_omega0 (l_prof L)) (vget (time_axis (fst (get_temporal_field (l_grid L)))) k) (env p k))) by (injection G as <- _; reflexivity). clear G.
  destruct (nt_core L theta s sa f rows env nt nt _ _ Ef ltac:(congruence) Ep eq_refl eq_refl Hw Hnt Hlen Hax) as (im' & G' & Sh & Hr).
  exists nt, im'. split; [exact Hlen|]. split; [rewrite Ext; exact G'|]. split; [rewrite Sh, Him; cbn [shp]; rewrite Hf2; reflexivity|].
  intros i k Hk. destruct (Hr i) as (R1 & _). rewrite (R1 k k Hk ltac:(lia)) by (symmetry; apply Hax, Hk). rewrite Him. cbn [at3]. unfold with_carrier.
  replace (time_axis (fst (get_temporal_field (l_grid L)))) with (time_axis (l_grid L)) by (unfold time_axis; congruence). rewrite (Hax k Hk). reflexivity.
Qed.
Lemma c73_readonly L theta s sa Nt : let L' := fst (get_full_field_nt L theta s sa Nt) in
  l_prof L' = l_prof L /\ l_dim L' = l_dim L /\ same_contents (l_grid L) (l_grid L').
Proof. cbn zeta. unfold get_full_field_nt. cbn [fst]. unfold set_grid; cbn [l_prof l_dim l_grid]. split; [reflexivity|]. split; [reflexivity|]. apply same_with_field. Qed.
