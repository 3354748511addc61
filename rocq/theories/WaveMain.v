(** C91: assembly, and concrete lasers meeting the hypotheses. *)
From Coquelicot Require Import Coquelicot.
From Verif Require Import PyBase CSum NpFFT FFTProofs NumPy GridModel GridSpec GridProofs GridObs LaserSpec LaserModel LaserOps LaserInv LaserInitProofs LaserStepProofs
  HistoryProofs SolverSpec SolverProofs DelayProofs LaserExamples WaveSpec WaveProofs WaveEq WaveSolver WaveDecomp WaveRt BesselODE.
Open Scope R_scope.

Lemma dft_bound n h u : (u < n)%nat -> 0 < h -> Rabs (dft_omega n h u) <= PI / h.
Proof.
  intros Hu Hh. unfold dft_omega. pose proof PI_RGT_0 as Ppi. assert (Pn : 0 < INR n) by (apply lt_0_INR; lia).
  set (q := if Nat.ltb u (Datatypes.S (Nat.div (n - 1) 2)) then INR u else INR u - INR n).
  assert (Q : Rabs q <= INR n / 2).
  { unfold q. pose proof (Nat.div_mod (n - 1) 2 ltac:(lia)) as DM. pose proof (Nat.mod_upper_bound (n - 1) 2 ltac:(lia)) as MB.
    set (K := ((n - 1) / 2)%nat) in *. set (m := ((n - 1) mod 2)%nat) in *. clearbody K m.
    destruct (Nat.ltb_spec u (S K)) as [H|H].
    - rewrite Rabs_pos_eq by apply pos_INR. assert (2 * u <= n)%nat as Q by lia. apply le_INR in Q. rewrite mult_INR in Q. cbn [INR] in Q. lra.
    - assert (n <= 2 * u)%nat as Q by lia. apply le_INR in Q. rewrite mult_INR in Q. cbn [INR] in Q. apply lt_INR in Hu. rewrite Rabs_left1 by lra. lra. }
  unfold Rdiv. rewrite !Rabs_mult, (Rabs_pos_eq (/ (INR n * h))) by (apply Rlt_le, Rinv_0_lt_compat, Rmult_lt_0_compat; lra).
  rewrite (Rabs_pos_eq 2), (Rabs_pos_eq PI) by lra.
  apply (Rle_trans _ (2 * PI * (INR n / 2) * / (INR n * h))).
  - apply Rmult_le_compat_r; [apply Rlt_le, Rinv_0_lt_compat, Rmult_lt_0_compat; lra|]. apply Rmult_le_compat_l; lra.
  - apply Req_le. field. split; lra.
Qed.
Lemma sq_bound k b : Rabs k <= b -> k ^ 2 <= b ^ 2.
Proof. intros H. rewrite <- (pow2_abs k). apply pow_incr. split; [apply Rabs_pos|exact H]. Qed.

Lemma c91_every_field S L z : reachable S L -> l_dim L = Xyt -> exact_xyt S ->
  (forall q, (q < 3)%nat -> nth q (g_lo (l_grid L)) 0 < nth q (g_hi (l_grid L)) 0) ->
  (let w := p_omega0 (l_prof L) - PI / time_step L in
   0 < w /\ (PI / axis_step L 0) ^ 2 + (PI / axis_step L 1) ^ 2 <= (w / c_light) ^ 2) ->
  exists u, solves_wave_equation u /\ shows_xyt L u z /\
    forall h : list (R * backend_t), let ops := map (fun e => OpPropagate (fst e) None None (snd e)) h in
      all_ok S L ops /\ shows_xyt (lrun S L ops) u (z + fold_right Rplus 0 (map fst h)).
Proof.
  intros HR Ed HS Hlh (Pw & Hk). pose proof c_light_pos as Pc. cbn zeta in *.
  assert (Pa : forall q, (q < 3)%nat -> 0 < axis_step L q).
  { intros q Hq. destruct (reachable_xyt_axes S L HR Ed q Hq) as (N & _). apply spacing_pos; [exact N|apply Hlh, Hq]. }
  assert (Pdt : 0 < time_step L).
  { destruct (reachable_xyt_axes S L HR Ed 2%nat ltac:(lia)) as (N & H). unfold time_step.
    destruct (reachable_Inv S L HR) as (n0 & n1 & nt & HI). pose proof (i_shape _ _ _ _ HI) as GS.
    assert (La : length (g_axes (l_grid L)) = 3%nat) by (rewrite (gs_axes _ _ _ _ _ GS), Ed; reflexivity).
    rewrite (last_nth2 _ _ La), (H 1%nat) by lia. rewrite (H 0%nat) by lia. cbn [INR]. specialize (Pa 2%nat ltac:(lia)). lra. }
  destruct (c91_complete S L z HR Ed Hlh) as (ws & Hf & Hs).
  { intros kx ky w (u & Hu & ->) (v & Hv & ->) (q & Hq & Hw).
    pose proof (dft_bound _ _ q Hq Pdt) as Bq. rewrite <- Hw in Bq. apply Rabs_le_between in Bq.
    pose proof (sq_bound _ _ (dft_bound _ _ u Hu (Pa 0%nat ltac:(lia)))) as Bu. pose proof (sq_bound _ _ (dft_bound _ _ v Hv (Pa 1%nat ltac:(lia)))) as Bv.
    split; [lra|]. apply (Rle_trans _ ((PI / axis_step L 0) ^ 2 + (PI / axis_step L 1) ^ 2)); [lra|]. apply (Rle_trans _ _ _ Hk).
    apply pow_incr. split; [apply Rlt_le, Rdiv_lt_0_compat; lra|]. unfold Rdiv. apply Rmult_le_compat_r; [apply Rlt_le, Rinv_0_lt_compat, Pc|lra]. }
  exists (plane_waves ws). split; [|split; [exact Hs|]].
  - apply plane_waves_solve. revert Hf. apply Forall_impl. intros v H. apply H.
  - intros h. apply (c91_run S ws HS h L z HR Ed Hlh Hf Hs).
Qed.

(** A Cartesian laser whose carrier the grid resolves: 4 x 3 x 5 points, w0 = 100 c + 100. *)
Definition wave_prof : profile :=
  mkProfile (100 * c_light + 100) 1 (RtoC 1, RtoC 0) None Complex128
    (fun x y t => Cmult (RtoC (exp (- (x ^ 2 + 2 * y ^ 2 + t ^ 2)))) (cis (x + t ^ 2))).
Lemma wave_xyt_ex S : exists L, laser_init Xyt [-1;-2;-3] [1;2;4] [4;3;5]%nat wave_prof 1 None = Ok L /\ reachable S L /\ l_dim L = Xyt /\
  (forall q, (q < 3)%nat -> nth q (g_lo (l_grid L)) 0 < nth q (g_hi (l_grid L)) 0) /\
  (let w := p_omega0 (l_prof L) - PI / time_step L in
   0 < w /\ (PI / axis_step L 0) ^ 2 + (PI / axis_step L 1) ^ 2 <= (w / c_light) ^ 2).
Proof.
  destruct (xyt_construct_ok [-1;-2;-3] [1;2;4] 4 3 5 wave_prof 1 None) as (L & HL); try (cbn; lra); try (cbn; lia); try reflexivity; try exact I.
  exists L. split; [exact HL|].
  assert (HR : reachable S L) by apply (reachable_init S _ _ _ _ _ _ _ _ [] HL (Forall_nil _) (Forall_nil _)). split; [exact HR|].
  destruct (laser_init_Inv _ _ _ _ _ _ _ _ HL) as (g & n0 & n1 & nt & Hg & Hm & D1 & D2 & D3 & _ & _ & Hn & GS & HI).
  split; [exact D1|].
  pose proof (window_plain S Xyt _ _ _ _ _ _ L [] HL (or_introl eq_refl)) as W. cbn zeta in W. cbn [ndims_of lrun travelled Nat.sub] in W.
  destruct W as (nt' & Hn' & La & W1 & W2 & W3 & W4 & W5 & W6). injection Hn' as <-.
  destruct (W6 0%nat ltac:(lia)) as (m0 & Q0 & A1 & A2 & _ & A3 & _). injection Q0 as <-.
  destruct (W6 1%nat ltac:(lia)) as (m1 & Q1 & B1 & B2 & _ & B3 & _). injection Q1 as <-.
  cbn [nth] in *.
  split.
  - intros q Hq. destruct q as [|[|[|q]]]; try lia; [rewrite A1, A2|rewrite B1, B2|rewrite W1, W2]; lra.
  - cbn zeta. rewrite D2. unfold axis_step, axis_points, time_step. rewrite A1, A2, A3, B1, B2, B3. rewrite (last_nth2 _ _ La).
    destruct (W4 1%nat ltac:(lia)) as (E1 & _). destruct (W4 0%nat ltac:(lia)) as (E0 & _). unfold axis_at, vget in E1, E0. rewrite E1, E0. unfold coord, spacing, wave_prof. cbn [p_omega0 INR].
    pose proof c_light_pos as Pc. pose proof PI_4 as P4. pose proof PI_RGT_0 as P0.
    replace (-3 + 1 * ((4 - -3) / (1 + 1 + 1 + 1 + 1 - 1)) + 0 / c_light - (-3 + 0 * ((4 - -3) / (1 + 1 + 1 + 1 + 1 - 1)) + 0 / c_light)) with (7 / 4) by (field; lra).
    replace ((1 - -1) / (1 + 1 + 1 + 1 - 1)) with (2 / 3) by field. replace ((2 - -2) / (1 + 1 + 1 - 1)) with 2 by field.
    replace (PI / (7 / 4)) with (PI * (4 / 7)) by field. replace (PI / (2 / 3)) with (PI * (3 / 2)) by field. replace (PI / 2) with (PI * (1 / 2)) by field.
    split; [lra|]. apply (Rle_trans _ (100 ^ 2)); [nra|]. apply pow_incr. split; [lra|].
    apply (Rmult_le_reg_r c_light); [exact Pc|]. unfold Rdiv. rewrite Rmult_assoc, Rinv_l by lra. lra.
Qed.

(** A cylindrical laser that is the Bessel beam J_0(r) exp(i (kz z - w0 t)), w0 = 10 c. *)
Definition bessel_prof : profile :=
  mkProfile (10 * c_light) 1 (RtoC 1, RtoC 0) None Complex128 (fun x y t => RtoC (bessel 0 (sqrt (x ^ 2 + y ^ 2)))).
Lemma bessel0_0 : bessel 0 0 = 1.
Proof. unfold bessel. replace ((0 / 2) ^ 2) with 0 by field. rewrite PSeries_0. unfold bessel_coef. cbn. field. Qed.
Lemma bessel0_abs x : bessel 0 (Rabs x) = bessel 0 x.
Proof. unfold bessel. cbn [pow]. f_equal. f_equal. unfold Rabs. destruct (Rcase_abs x); field. Qed.
Lemma bessel_content r t theta : p_eval bessel_prof (r * cos theta) (r * sin theta) t = recon 1 (fun m => RtoC (bessel 0 r)) theta.
Proof.
  unfold bessel_prof, recon; cbn [p_eval]. cbn [Nat.mul Nat.add Nat.sub csum]. change (Z.of_nat 0 - (Z.of_nat 1 - 1))%Z with 0%Z.
  replace (- (0 * theta)) with 0 by ring. rewrite cis_0.
  replace ((r * cos theta) ^ 2 + (r * sin theta) ^ 2) with (r ^ 2).
  - replace (r ^ 2) with (Rsqr r) by (unfold Rsqr; ring). rewrite sqrt_Rsqr_abs, bessel0_abs. ring.
  - pose proof (sin2_cos2 theta) as Q. unfold Rsqr in Q. replace ((r * cos theta) ^ 2 + (r * sin theta) ^ 2) with (r ^ 2 * (sin theta * sin theta + cos theta * cos theta)) by ring. rewrite Q. ring.
Qed.
Definition bessel_beam : list bwave := [mkBW (RtoC 1) 0 1 (10 * c_light)].
Lemma wave_rt_ex S : exists L, laser_init Rt [0;-3] [2;4] [4;5]%nat bessel_prof 2 None = Ok L /\ reachable S L /\ l_dim L = Rt /\ 0 < time_step L /\
  (forall rnew, Forall (fits_rt 2 (one_beam 1) L rnew) bessel_beam) /\ shows_rt 2 L (bessel_waves bessel_beam) 0 /\
  axis_points L 1 = 5%nat /\ g_modes (l_grid L) = Some [0;1;-1]%Z.
Proof.
  destruct (rt_construct_ok [0;-3] [2;4] [4;5]%nat 4 5 bessel_prof 2 None) as (L & HL); try (cbn; lra); try (cbn; lia); try reflexivity; try exact I.
  exists L. change (Z.of_nat 2) with 2%Z in HL. split; [exact HL|].
  split; [apply (reachable_init S _ _ _ _ _ _ _ _ [] HL (Forall_nil _) (Forall_nil _))|].
  destruct (laser_init_Inv _ _ _ _ _ _ _ _ HL) as (g & n0 & n1 & nt & Hg & Hm & D1 & D2 & D3 & _ & _ & Hn & GS & HI).
  split; [exact D1|].
  pose proof (window_plain S Rt _ _ _ _ _ _ L [] HL (or_intror (Forall_nil _))) as W. cbn zeta in W. cbn [ndims_of lrun travelled Nat.sub] in W.
  destruct W as (nt' & Hn' & La & W1 & W2 & W3 & W4 & W5 & W6). injection Hn' as <-.
  destruct (W6 0%nat ltac:(lia)) as (m0 & Q0 & A1 & A2 & _ & A3 & A4). injection Q0 as <-. cbn [nth] in *.
  pose proof c_light_pos as Pc.
  assert (Ets : time_step L = 7 / 4).
  { unfold time_step. rewrite (last_nth2 _ _ La). destruct (W4 1%nat ltac:(lia)) as (E1 & _). destruct (W4 0%nat ltac:(lia)) as (E0 & _). unfold axis_at, vget in E1, E0. rewrite E1, E0. unfold coord. cbn [INR]. field. lra. }
  split; [rewrite Ets; lra|].
  assert (E0 : nth 0 (nth 0 (g_axes (l_grid L)) []) 0 = 0).
  { pose proof (A4 0%nat ltac:(lia)) as Q. unfold axis_at, vget, coord in Q. rewrite Q. cbn [INR]. ring. }
  split.
  { intros rnew. constructor; [|constructor]. unfold fits_rt. cbn [bw_m bw_w bw_kr]. rewrite D2. cbn [p_omega0 bessel_prof].
    split; [lia|]. split; [exists 0%nat; split; [unfold axis_points; rewrite W3; lia|]|].
    - unfold dft_omega. cbn [INR]. destruct (Nat.ltb _ _) eqn:E; [unfold Rdiv; ring|]. apply Nat.ltb_ge in E. lia.
    - split; [lra|]. split; [replace (10 * c_light / c_light) with 10 by (field; lra); lra|].
      intros b. split; [reflexivity|]. cbn [rp_r rp_mode]. split; [intros Q; rewrite Q in A3; discriminate|].
      rewrite E0, Rmult_0_r. change (Z.abs_nat 0) with 0%nat. rewrite bessel0_0. lra. }
  split; [|split; [exact W3|]].
  - destruct (rt_modes [0;-3] [2;4] [4;5]%nat 4 5 bessel_prof 2 None L 0 (fun m r t => RtoC (bessel 0 r)) HL) as (a & s & Ha & Sa & _ & Hc & Es); try reflexivity; try (cbn; lra); try lia; [exact bessel_content|].
    cbn in Es. subst s. exists a. split; [exact Ha|]. split; [unfold dim0; rewrite Sa; reflexivity|]. rewrite A3, W3. intros j k th Hj Hk. cbn zeta.
    unfold recon. cbn [Nat.mul Nat.add Nat.sub csum]. unfold comp. rewrite !Hc by lia. cbn [Z.of_nat]. cbn -[RtoC bessel coord IZR cis bessel_waves].
    rewrite D2. cbn [p_omega0 bessel_prof]. pose proof (A4 j Hj) as Q. unfold axis_at, vget in Q. cbn [nth] in Q. rewrite Q.
    set (t := nth k _ 0). unfold bessel_waves, bessel_beam, lsum. cbn [fold_right bw_A bw_m bw_kr bw_w]. change (Z.abs_nat 0) with 0%nat.
    rewrite (Rmult_1_l (coord 0 2 4 j)). set (B := RtoC (bessel 0 _)). replace (- (0 * th)) with 0 by ring. rewrite cis_0.
    transitivity (Cmult B (Cmult (cis (0 + bw_kz (mkBW (RtoC 1) 0 1 (10 * c_light)) * 0 - 10 * c_light * t)) (cis (10 * c_light * t)))); [|ring].
    rewrite <- cis_plus. replace (0 + bw_kz (mkBW (RtoC 1) 0 1 (10 * c_light)) * 0 - 10 * c_light * t + 10 * c_light * t) with 0 by ring. rewrite cis_0. ring.
  - destruct Hm as (_ & _ & _ & _ & _ & _ & -> & _). destruct (grid_init_GShape_rt _ _ _ _ _ _ Hg) as (m1 & mt & _ & _ & _ & GS').
    destruct (gs_rt _ _ _ _ _ GS' eq_refl) as (M & HM & EM & -> & _). change (Z.to_nat 2) with 2%nat in EM. assert (M = 2%nat) by lia. subst M. reflexivity.
Qed.
