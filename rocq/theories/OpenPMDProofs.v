(** C27-C29: openPMD output and input. *)
From Verif Require Import PyBase CSum NpFFT FFTProofs NumPy NpMath NpMathProofs GridModel GridSpec GridProofs LaserSpec GridObs
  EnergyModel EnergyProofs AngularProofs LaserModel OpticsModel LaserOps LaserInv LaserInitProofs LaserStepProofs
  PropagateProofs HistoryProofs OpticsProofs LaserExamples FromArrayModel FromArrayProofs AnalysisModel OpenPMDModel AnalysisExamples.
Open Scope R_scope.

(** ** C27 *)
Lemma mode_data_cos (M m : nat) a r t : dim0 a = (2 * M - 1)%nat -> (1 <= m < M)%nat ->
  mode_data a (2 * m - 1) r t = Cplus (at3 a (mode_slot M (Z.of_nat m)) r t) (at3 a (mode_slot M (- Z.of_nat m)) r t) /\
  mode_data a (2 * m) r t = Cplus (Cmult (Copp Ci) (at3 a (mode_slot M (Z.of_nat m)) r t))
                                  (Cmult Ci (at3 a (mode_slot M (- Z.of_nat m)) r t)).
Proof.
  intros Hd Hm.
  assert (S1 : mode_slot M (Z.of_nat m) = m).
  { unfold mode_slot. destruct (Z.leb_spec 0 (Z.of_nat m)); lia. }
  assert (S2 : mode_slot M (- Z.of_nat m) = (dim0 a - m)%nat).
  { unfold mode_slot. destruct (Z.leb_spec 0 (- Z.of_nat m)); lia. }
  rewrite S1, S2. unfold mode_data.
  replace ((2 * m - 1 + 1) / 2)%nat with m by (replace (2 * m - 1 + 1)%nat with (m * 2)%nat by lia; rewrite Nat.div_mul; lia).
  replace ((2 * m + 1) / 2)%nat with m.
  2:{ replace (2 * m + 1)%nat with (1 + m * 2)%nat by lia. rewrite Nat.div_add by lia. reflexivity. }
  replace (Nat.eqb (2 * m - 1) 0) with false by (symmetry; apply Nat.eqb_neq; lia).
  replace (Nat.eqb (2 * m) 0) with false by (symmetry; apply Nat.eqb_neq; lia).
  replace (Nat.odd (2 * m - 1)) with true.
  2:{ replace (2 * m - 1)%nat with (2 * (m - 1) + 1)%nat by lia. rewrite Nat.add_1_r, Nat.odd_succ, Nat.even_mul. reflexivity. }
  replace (Nat.odd (2 * m)) with false by (rewrite Nat.odd_mul; reflexivity).
  split; reflexivity.
Qed.

(** sum over -(M-1)..(M-1) as the zero term plus pairs *)
Lemma recon_pairs M E theta : (1 <= M)%nat ->
  recon M E theta = Cplus (E 0%Z) (csum (M - 1) (fun q =>
    Cplus (Cmult (E (Z.of_nat (S q))) (cis (- (INR (S q) * theta))))
          (Cmult (E (- Z.of_nat (S q))%Z) (cis (INR (S q) * theta))))).
Proof.
  intros HM. unfold recon. replace (2 * M - 1)%nat with ((M - 1) + S (M - 1))%nat by lia.
  rewrite csum_split, csum_first, csum_plus.
  rewrite <- (csum_rev (M - 1) (fun q => Cmult (E (Z.of_nat q - (Z.of_nat M - 1))%Z) _)).
  rewrite Nat.add_0_r.
  replace (Z.of_nat (M - 1) - (Z.of_nat M - 1))%Z with 0%Z by lia.
  rewrite Rmult_0_l, Ropp_0, cis_0, Cmult_1_r.
  rewrite (csum_ext (M - 1) (fun i => Cmult (E (Z.of_nat (M - 1 - 1 - i) - (Z.of_nat M - 1))%Z) _)
     (fun q => Cmult (E (- Z.of_nat (S q))%Z) (cis (INR (S q) * theta)))).
  2:{ intros i Hi. replace (Z.of_nat (M - 1 - 1 - i) - (Z.of_nat M - 1))%Z with (- Z.of_nat (S i))%Z by lia.
      f_equal. f_equal. rewrite opp_IZR, <- INR_IZR_INZ. ring. }
  rewrite (csum_ext (M - 1) (fun i => Cmult (E (Z.of_nat (M - 1 + S i) - (Z.of_nat M - 1))%Z) _)
     (fun q => Cmult (E (Z.of_nat (S q))) (cis (- (INR (S q) * theta))))).
  2:{ intros i Hi. replace (Z.of_nat (M - 1 + S i) - (Z.of_nat M - 1))%Z with (Z.of_nat (S i))%Z by lia.
      f_equal. f_equal. rewrite <- INR_IZR_INZ. reflexivity. }
  ring.
Qed.

Lemma c27_field M a r t theta : (1 <= M)%nat -> dim0 a = (2 * M - 1)%nat ->
  recon M (comp M a r t) theta =
  Cplus (mode_data a 0 r t) (csum (M - 1) (fun q =>
    Cplus (Cmult (RtoC (cos (INR (S q) * theta))) (mode_data a (2 * S q - 1) r t))
          (Cmult (RtoC (sin (INR (S q) * theta))) (mode_data a (2 * S q) r t)))).
Proof.
  intros HM Hd. rewrite recon_pairs by exact HM. f_equal. apply csum_ext. intros q Hq.
  destruct (mode_data_cos M (S q) a r t Hd) as (-> & ->); [lia|].
  unfold comp. generalize (at3 a (mode_slot M (Z.of_nat (S q))) r t) (at3 a (mode_slot M (- Z.of_nat (S q))) r t).
  intros u v. unfold cis. rewrite cos_neg, sin_neg. generalize (cos (INR (S q) * theta)) (sin (INR (S q) * theta)). intros cc ss.
  destruct u, v. unfold Ci, Copp, Cmult, Cplus, RtoC; cbn [fst snd]. f_equal; ring.
Qed.

Lemma c27_inverse M a r t m : dim0 a = (2 * M - 1)%nat -> (1 <= m < M)%nat ->
  comp M a r t 0 = mode_data a 0 r t /\
  comp M a r t (Z.of_nat m) = Cmult (RtoC (/ 2)) (Cplus (mode_data a (2 * m - 1) r t) (Cmult Ci (mode_data a (2 * m) r t))) /\
  comp M a r t (- Z.of_nat m) = Cmult (RtoC (/ 2)) (Cminus (mode_data a (2 * m - 1) r t) (Cmult Ci (mode_data a (2 * m) r t))).
Proof.
  intros Hd Hm. destruct (mode_data_cos M m a r t Hd Hm) as (-> & ->). unfold comp.
  generalize (at3 a (mode_slot M (Z.of_nat m)) r t) (at3 a (mode_slot M (- Z.of_nat m)) r t).
  intros (u1, u2) (v1, v2). split; [reflexivity|].
  unfold Ci, Cminus, Copp, Cmult, Cplus, RtoC; cbn [fst snd]. split; f_equal; field.
Qed.

Lemma rev_spacings2 h0 h1 l0 l1 n0 n1 : rev (spacings [h0;h1] [l0;l1] [n0;n1]) = [spacing l1 h1 n1; spacing l0 h0 n0].
Proof. reflexivity. Qed.
Lemma rev_spacings3 h0 h1 h2 l0 l1 l2 n0 n1 n2 :
  rev (spacings [h0;h1;h2] [l0;l1;l2] [n0;n1;n2]) = [spacing l2 h2 n2; spacing l1 h1 n1; spacing l0 h0 n0].
Proof. reflexivity. Qed.

Lemma list2 (l : list R) : length l = 2%nat -> l = [nth 0 l 0; nth 1 l 0].
Proof. destruct l as [|a [|b [|c l]]]; simpl; intros; try discriminate; reflexivity. Qed.
Lemma list3 (l : list R) : length l = 3%nat -> l = [nth 0 l 0; nth 1 l 0; nth 2 l 0].
Proof. destruct l as [|a [|b [|c [|d l]]]]; simpl; intros; try discriminate; reflexivity. Qed.

Lemma c27 S d lo hi n1 nt p nm nte L0 h : d = Rt ->
  laser_init d lo hi [n1; nt] p nm nte = Ok L0 -> Forall no_resample h ->
  let L := lrun S L0 h in
  exists M a m,
    nm = Z.of_nat M /\ (1 <= M)%nat /\
    snd (get_temporal_field (l_grid L)) = Ok a /\ shp a = [(2 * M - 1)%nat; n1; nt] /\
    snd (build_mesh (l_dim L) (l_grid L) (p_lambda0 p) (p_pol p) false) = Ok m /\
    ms_geom m = Rt /\ ms_labels m = [AxT; AxR] /\ ms_omega m = 2 * PI * c_light / p_lambda0 p /\
    ms_pol m = p_pol p /\ ms_vec m = false /\
    ms_offset m = [nth 1 lo 0 + travelled S L0 h / c_light; nth 0 lo 0] /\
    ms_spacing m = [spacing (nth 1 lo 0) (nth 1 hi 0) nt; spacing (nth 0 lo 0) (nth 0 hi 0) n1] /\
    shp (ms_data m) = [(2 * M - 1)%nat; nt; n1] /\
    (forall r t theta, recon M (comp M a r t) theta =
       Cplus (at3 (ms_data m) 0 t r) (csum (M - 1) (fun q =>
         Cplus (Cmult (RtoC (cos (INR (Datatypes.S q) * theta))) (at3 (ms_data m) (2 * Datatypes.S q - 1) t r))
               (Cmult (RtoC (sin (INR (Datatypes.S q) * theta))) (at3 (ms_data m) (2 * Datatypes.S q) t r))))) /\
    (forall r t, comp M a r t 0 = at3 (ms_data m) 0 t r) /\
    (forall r t q, (1 <= q < M)%nat ->
       comp M a r t (Z.of_nat q) = Cmult (RtoC (/ 2)) (Cplus (at3 (ms_data m) (2 * q - 1) t r) (Cmult Ci (at3 (ms_data m) (2 * q) t r))) /\
       comp M a r t (- Z.of_nat q) = Cmult (RtoC (/ 2)) (Cminus (at3 (ms_data m) (2 * q - 1) t r) (Cmult Ci (at3 (ms_data m) (2 * q) t r)))).
Proof.
  intros -> Hi Hh. cbn zeta.
  destruct (laser_init_Inv _ _ _ _ _ _ _ _ Hi) as (g & m0 & m1 & mt & Hg & Hmt & D1 & D2 & D3 & D4 & D5 & Hn' & GS & HI).
  destruct (history_plain S L0 m0 m1 mt h HI (or_intror Hh)) as (HR & HM & R1 & R2 & R3).
  destruct (window_plain S Rt lo hi [n1;nt] p nm nte L0 h Hi (or_intror Hh)) as (nt' & N' & La & Wlo & Whi & _ & _ & _ & Hax).
  destruct (grid_init_GShape_rt _ _ _ _ _ _ Hg) as (n1' & nt'' & N1 & N2 & HM1 & GS').
  simpl in N1, N2, N'. injection N1 as <-. injection N2 as <-. injection N' as <-.
  assert (E : [m0;m1;mt] = [(2 * Z.to_nat nm - 1)%nat; n1; nt]).
  { rewrite <- (gs_shape _ _ _ _ _ GS), (gs_shape _ _ _ _ _ GS'). reflexivity. }
  injection E as -> -> ->.
  set (L := lrun S L0 h) in *.
  destruct (i_read _ _ _ _ HR) as (a & Ha).
  destruct (tread_shape _ _ (proj1 (i_coh _ _ _ _ HR)) Ha) as (Hsh & Hdt).
  rewrite (gs_shape _ _ _ _ _ (i_shape _ _ _ _ HR)) in Hsh.
  assert (Hnp : g_npoints (l_grid L) = [n1; nt] /\ g_nmodes (l_grid L) = Some (Z.to_nat nm)).
  { destruct HM as (_&_&H3&_&_&H6&_). cbn [shift_domain with_domain g_npoints g_nmodes] in H3, H6. rewrite H3, H6.
    destruct Hmt as (_&_&H3'&_&_&H6'&_). rewrite H3', H6'.
    clear - Hg. unfold grid_init in Hg. cbn [pyassert bind] in Hg.
    destruct (pyassert (Nat.eqb (length lo) 2)); [cbn [bind] in Hg|discriminate].
    destruct (pyassert (Nat.eqb (length hi) 2)); [cbn [bind] in Hg|discriminate].
    destruct (build_axes 2 0 lo hi [n1;nt]); [cbn [bind] in Hg|discriminate].
    destruct (Z.ltb _ 0); [discriminate|]. injection Hg as <-. split; reflexivity. }
  destruct Hnp as (Hnp & Hnm).
  assert (Hlo : g_lo (l_grid L) = [nth 0 lo 0; nth 1 lo 0 + travelled S L0 h / c_light]).
  { rewrite (list2 (g_lo (l_grid L))). 2:{ pose proof (gs_lo _ _ _ _ _ (i_shape _ _ _ _ HR)) as Q. rewrite R1, D1 in Q. exact Q. }
    simpl ndims_of in Wlo. simpl Nat.sub in Wlo. rewrite Wlo. destruct (Hax 0%nat) as (? & _ & E & _); [simpl; lia|]. rewrite E. reflexivity. }
  assert (Hhi : g_hi (l_grid L) = [nth 0 hi 0; nth 1 hi 0 + travelled S L0 h / c_light]).
  { rewrite (list2 (g_hi (l_grid L))). 2:{ pose proof (gs_hi _ _ _ _ _ (i_shape _ _ _ _ HR)) as Q. rewrite R1, D1 in Q. exact Q. }
    simpl ndims_of in Whi. simpl Nat.sub in Whi. rewrite Whi. destruct (Hax 0%nat) as (? & _ & _ & E & _); [simpl; lia|]. rewrite E. reflexivity. }
  assert (Hd0 : dim0 a = (2 * Z.to_nat nm - 1)%nat) by (unfold dim0; rewrite Hsh; reflexivity).
  exists (Z.to_nat nm), a. eexists. split; [lia|]. split; [lia|]. split; [exact Ha|]. split; [exact Hsh|]. split.
  { unfold build_mesh. change (snd (get_temporal_field (l_grid L))) with (tread (l_grid L)). rewrite Ha. cbn [fst snd].
    rewrite R1, D1, Hnm. cbn [snd]. reflexivity. }
  cbn [ms_geom ms_labels ms_spacing ms_offset ms_omega ms_pol ms_vec ms_data].
  conj; try reflexivity.
  - rewrite Hlo. reflexivity.
  - rewrite Hlo, Hhi, Hnp, rev_spacings2. f_equal. unfold spacing. f_equal. ring.
  - cbn [theta_data shp]. rewrite Hnp. reflexivity.
  - intros r t theta. cbn [theta_data at3]. rewrite Hdt. cbn [cast]. apply c27_field; [lia|exact Hd0].
  - intros r t. cbn [theta_data at3]. rewrite Hdt. reflexivity.
  - intros r t q Hq. cbn [theta_data at3]. rewrite Hdt. cbn [cast]. apply (c27_inverse (Z.to_nat nm)); assumption.
Qed.

(** ** C28 *)
Lemma roundtrip_profile m n0 n1 nt a lo hi pol :
  shp a = [n0; n1; nt] -> dty a = Complex128 -> (2 <= n0)%nat -> (2 <= n1)%nat -> (2 <= nt)%nat ->
  length lo = 3%nat -> length hi = 3%nat ->
  nth 0 lo 0 < nth 0 hi 0 -> nth 1 lo 0 < nth 1 hi 0 -> nth 2 lo 0 < nth 2 hi 0 ->
  ms_labels m = [AxT; AxY; AxX] -> ms_data m = transpose3 a ->
  ms_offset m = rev lo -> ms_spacing m = rev (spacings hi lo [n0; n1; nt]) ->
  exists p, from_openpmd_xyt m pol = Ok p /\ p_lambda0 p = 2 * PI * c_light / ms_omega m /\
    p_energy p = None /\ p_dtype p = Complex128 /\ p_pol p = norm_pol pol /\
    forall i j k, (i < n0)%nat -> (j < n1)%nat -> (k < nt)%nat ->
      p_eval p (coord (nth 0 lo 0) (nth 0 hi 0) n0 i) (coord (nth 1 lo 0) (nth 1 hi 0) n1 j)
               (coord (nth 2 lo 0) (nth 2 hi 0) nt k) = at3 a i j k.
Proof.
  intros Ha Hty G0 G1 G2 Llo Lhi B0 B1 B2 ML MD MO MS.
  rewrite (list3 lo Llo) in MO, MS. rewrite (list3 hi Lhi) in MS. rewrite rev_spacings3 in MS. cbn [rev app] in MO.
  assert (P0 : 0 < spacing (nth 0 lo 0) (nth 0 hi 0) n0) by (apply spacing_pos; assumption).
  assert (P1 : 0 < spacing (nth 1 lo 0) (nth 1 hi 0) n1) by (apply spacing_pos; assumption).
  assert (P2 : 0 < spacing (nth 2 lo 0) (nth 2 hi 0) nt) by (apply spacing_pos; assumption).
  set (xs := viewer_axis (nth 0 lo 0) (spacing (nth 0 lo 0) (nth 0 hi 0) n0) n0).
  set (ys := viewer_axis (nth 1 lo 0) (spacing (nth 1 lo 0) (nth 1 hi 0) n1) n1).
  set (ts := viewer_axis (nth 2 lo 0) (spacing (nth 2 lo 0) (nth 2 hi 0) nt) nt).
  assert (HA : ascending xs = true /\ ascending ys = true /\ ascending ts = true).
  { unfold xs, ys, ts. repeat split; apply uniform_ascending; assumption. }
  destruct HA as (A0 & A1 & A2).
  assert (HL : length xs = n0 /\ length ys = n1 /\ length ts = nt) by (repeat split; apply uniform_length).
  destruct HL as (L0 & L1 & L2).
  assert (HF : from_openpmd_xyt m pol = from_array_xyt (2 * PI * c_light / ms_omega m) pol (swap02 (transpose3 a)) xs ys ts SpaceTime).
  { unfold from_openpmd_xyt, reorder_array_xyt, md_of_xyt. cbn [md_labels]. rewrite ML, MD, MO, MS. cbn [labels_eqb label_eqb andb orb pyassert bind existsb fst snd md_axis].
    unfold vget, dim0, dim1, dim2; cbn [transpose3 shp nth]. unfold dim0, dim1, dim2. rewrite Ha. reflexivity. }
  rewrite HF. unfold from_array_xyt. apply asc_mono in A0, A1, A2. rewrite A0, A1, A2. cbn [andb negb].
  replace (shape_eqb _ _) with true.
  2:{ symmetry. apply shape_eqb_true. cbn [swap02 transpose3 shp]. unfold dim0, dim1, dim2. cbn [transpose3 shp nth].
      unfold dim0, dim1, dim2. rewrite Ha, L0, L1, L2. reflexivity. }
  cbn [negb]. eexists. split; [reflexivity|]. cbn [array_profile p_lambda0 p_energy p_dtype p_pol p_eval].
  conj; try reflexivity. intros i j k Hi Hj Hk.
  change (coord (nth 0 lo 0) (nth 0 hi 0) n0 i) with (nth 0 lo 0 + INR i * spacing (nth 0 lo 0) (nth 0 hi 0) n0).
  change (coord (nth 1 lo 0) (nth 1 hi 0) n1 j) with (nth 1 lo 0 + INR j * spacing (nth 1 lo 0) (nth 1 hi 0) n1).
  change (coord (nth 2 lo 0) (nth 2 hi 0) nt k) with (nth 2 lo 0 + INR k * spacing (nth 2 lo 0) (nth 2 hi 0) nt).
  rewrite <- (uniform_nth (nth 0 lo 0) _ n0 i Hi), <- (uniform_nth (nth 1 lo 0) _ n1 j Hj), <- (uniform_nth (nth 2 lo 0) _ nt k Hk).
  change (uniform_axis ?a ?b ?c) with (viewer_axis a b c). fold xs ys ts.
  rewrite eval_xyt_node by (rewrite ?L0, ?L1, ?L2; assumption). reflexivity.
Qed.

Lemma c28 S lo hi n0 n1 nt p nm nte L0 h pol nm' nte' :
  laser_init Xyt lo hi [n0;n1;nt] p nm nte = Ok L0 ->
  nth 0 lo 0 < nth 0 hi 0 -> nth 1 lo 0 < nth 1 hi 0 -> nth 2 lo 0 < nth 2 hi 0 -> p_lambda0 p <> 0 ->
  let L := lrun S L0 h in
  exists m p' L' a b,
    snd (build_mesh (l_dim L) (l_grid L) (p_lambda0 p) (p_pol p) false) = Ok m /\
    from_openpmd_xyt m pol = Ok p' /\ p_lambda0 p' = p_lambda0 p /\
    laser_init Xyt (g_lo (l_grid L)) (g_hi (l_grid L)) (g_npoints (l_grid L)) p' nm' nte' = Ok L' /\
    snd (get_temporal_field (l_grid L)) = Ok a /\ snd (get_temporal_field (l_grid L')) = Ok b /\
    arr_eq a b.
Proof.
  intros Hi B0 B1 B2 Hlam. cbn zeta.
  destruct (laser_init_Inv _ _ _ _ _ _ _ _ Hi) as (g & m0 & m1 & mt & Hg & Hmt & D1 & D2 & D3 & D4 & D5 & Hn' & GS & HI).
  destruct (history_plain S L0 m0 m1 mt h HI (or_introl D1)) as (HR & HM & R1 & R2 & R3).
  destruct (window_plain S Xyt lo hi [n0;n1;nt] p nm nte L0 h Hi (or_introl eq_refl)) as (nt' & N' & La & Wlo & Whi & _ & _ & _ & Hax).
  destruct (grid_init_GShape_xyt _ _ _ _ _ _ Hg eq_refl) as (n0' & n1' & nt'' & N0 & _ & GS').
  simpl in N'. injection N' as <-. injection N0 as <- <- <-.
  assert (E : [m0;m1;mt] = [n0; n1; nt]).
  { rewrite <- (gs_shape _ _ _ _ _ GS), (gs_shape _ _ _ _ _ GS'). reflexivity. }
  injection E as -> -> ->.
  assert (Hex : exists g, grid_init Xyt lo hi [n0;n1;nt] (Some nm) true = Ok g) by eauto.
  apply grid_init_ok_iff in Hex. destruct Hex as (_ & Hllo & Hlhi & Hnn & _).
  destruct (Hnn 0%nat ltac:(simpl; lia)) as (? & Q & G0). injection Q as <-.
  destruct (Hnn 1%nat ltac:(simpl; lia)) as (? & Q & G1). injection Q as <-.
  destruct (Hnn 2%nat ltac:(simpl; lia)) as (? & Q & G2). injection Q as <-.
  set (L := lrun S L0 h) in *.
  destruct (i_read _ _ _ _ HR) as (a & Ha).
  destruct (tread_shape _ _ (proj1 (i_coh _ _ _ _ HR)) Ha) as (Hsh & Hty).
  rewrite (gs_shape _ _ _ _ _ (i_shape _ _ _ _ HR)) in Hsh.
  assert (Hnp : g_npoints (l_grid L) = [n0; n1; nt]).
  { destruct HM as (_&_&H3&_). cbn [shift_domain with_domain g_npoints] in H3. rewrite H3.
    destruct Hmt as (_&_&H3'&_). rewrite H3'.
    clear - Hg. unfold grid_init in Hg. cbn [pyassert bind] in Hg.
    destruct (pyassert (Nat.eqb (length lo) 3)); [cbn [bind] in Hg|discriminate].
    destruct (pyassert (Nat.eqb (length hi) 3)); [cbn [bind] in Hg|discriminate].
    destruct (build_axes 3 0 lo hi [n0;n1;nt]); [cbn [bind] in Hg|discriminate].
    injection Hg as <-. reflexivity. }
  pose proof (gs_lo _ _ _ _ _ (i_shape _ _ _ _ HR)) as Glo. pose proof (gs_hi _ _ _ _ _ (i_shape _ _ _ _ HR)) as Ghi.
  rewrite R1, D1 in Glo, Ghi. simpl in Glo, Ghi. simpl ndims_of in *. simpl Nat.sub in *.
  destruct (Hax 0%nat) as (? & _ & X1 & X2 & _); [lia|]. destruct (Hax 1%nat) as (? & _ & Y1 & Y2 & _); [lia|].
  set (m := mkMesh Xyt [AxT; AxY; AxX] (rev (spacings (g_hi (l_grid L)) (g_lo (l_grid L)) (g_npoints (l_grid L))))
              (rev (g_lo (l_grid L))) (2 * PI * c_light / p_lambda0 p) (p_pol p) false (transpose3 a)).
  assert (Hm : snd (build_mesh (l_dim L) (l_grid L) (p_lambda0 p) (p_pol p) false) = Ok m).
  { unfold build_mesh. change (snd (get_temporal_field (l_grid L))) with (tread (l_grid L)). rewrite Ha. cbn [fst snd].
    rewrite R1, D1. reflexivity. }
  destruct (roundtrip_profile m n0 n1 nt a (g_lo (l_grid L)) (g_hi (l_grid L)) pol) as (p' & HP & Hlam' & HE & HD & _ & HV);
    try assumption; try reflexivity; try lra.
  { unfold m; cbn [ms_spacing]. rewrite Hnp. reflexivity. }
  destruct (xyt_construct_ok (g_lo (l_grid L)) (g_hi (l_grid L)) n0 n1 nt p' nm' nte') as (L' & HL'); try assumption; try lra.
  { rewrite HE. exact I. }
  destruct (xyt_samples _ _ _ _ _ _ _ _ _ HL') as (b & s & Hb & Hsb & _ & Hv & Hs); try lra; [rewrite HE; exact I|].
  rewrite HE in Hs. simpl in Hs. subst s.
  exists m, p', L', a, b. rewrite Hnp. conj; try assumption.
  - rewrite Hlam'. cbn [ms_omega m]. pose proof PI_RGT_0. pose proof c_light_pos. field. repeat split; first [exact Hlam|lra].
  - split; [congruence|]. split.
    + rewrite Hty. destruct (laser_init_Inv _ _ _ _ _ _ _ _ HL') as (_ & ? & ? & ? & _ & _ & _ & _ & _ & _ & _ & _ & _ & HI').
      destruct (tread_shape _ _ (proj1 (i_coh _ _ _ _ HI')) Hb) as (_ & Hty'). congruence.
    + intros i j k (H1 & H2 & H3). unfold dim0, dim1, dim2 in *. rewrite Hsh in *. cbn [nth] in *.
      rewrite Hv, Cmult_1_l by assumption. symmetry. apply HV; assumption.
Qed.

(** ** C29 *)
(** The four accepted orders of a 3-D array; [sample3 l a i j k] is the entry whose position is i along
    x, j along y, k along the remaining axis. *)
Inductive order3 : list axlabel -> bool -> bool -> Prop :=   (* labels, transposed?, z? *)
| O3_xyz : order3 [AxX; AxY; AxZ] false true
| O3_zyx : order3 [AxZ; AxY; AxX] true true
| O3_xyt : order3 [AxX; AxY; AxT] false false
| O3_tyx : order3 [AxT; AxY; AxX] true false.
Definition sample3 (tr : bool) (a : ndarray) (i j k : nat) : C := if tr then at3 a k j i else at3 a i j k.
Definition uniform_list (z : list R) (dz : R) : Prop :=
  forall i, (i < length z)%nat -> vget z i = vget z 0 + INR i * dz.

Lemma vget_map f (l : list R) i : (i < length l)%nat -> vget (map f l) i = f (vget l i).
Proof.
  intros H. unfold vget. rewrite (nth_indep _ 0 (f 0)) by (rewrite map_length; exact H). apply map_nth.
Qed.
Lemma z_to_t_uniform z dz k : uniform_list z dz -> (k < length z)%nat ->
  vget (z_to_t z) k = (vget z (length z - 1) - vget z (length z - 1 - k)) / c_light.
Proof.
  intros Hu Hk. unfold z_to_t. rewrite vget_map by exact Hk.
  rewrite (Hu k), (Hu (length z - 1)%nat), (Hu (length z - 1 - k)%nat) by lia.
  f_equal. rewrite (minus_INR (length z - 1) k) by lia. ring.
Qed.

Lemma c29_xyt l tr isz a md nx ny nl : order3 l tr isz -> md_labels md = l ->
  shp a = (if tr then [nl; ny; nx] else [nx; ny; nl]) ->
  exists b t, reorder_array_xyt a md = Ok (b, [md_axis md AxX; md_axis md AxY; t]) /\ shp b = [nx; ny; nl] /\
    (isz = false -> t = md_axis md AxT /\ forall i j k, at3 b i j k = sample3 tr a i j k) /\
    (isz = true -> length t = length (md_axis md AxZ) /\
       (forall i j k, (k < nl)%nat -> at3 b i j k = sample3 tr a i j (nl - 1 - k)) /\
       (forall dz k, uniform_list (md_axis md AxZ) dz -> (k < length (md_axis md AxZ))%nat ->
          vget t k = (vget (md_axis md AxZ) (length (md_axis md AxZ) - 1)
                      - vget (md_axis md AxZ) (length (md_axis md AxZ) - 1 - k)) / c_light)).
Proof.
  intros HO HL Hs. unfold reorder_array_xyt. rewrite HL.
  destruct HO; cbn [labels_eqb label_eqb andb orb pyassert bind existsb];
    do 2 eexists; (split; [reflexivity|]).
  all: (split; [cbn [flip_last3 swap02 shp]; unfold dim0, dim1, dim2; rewrite Hs; reflexivity|]).
  all: split; intros E; try discriminate E; clear E.
  all: try (split; [reflexivity|]; intros; reflexivity).
  all: (split; [unfold z_to_t; apply map_length|]); split; [intros i j k Hk|intros dz k; apply z_to_t_uniform].
  all: cbn [flip_last3 swap02 at3 sample3]; unfold dim2; cbn [swap02 shp nth]; unfold dim0; rewrite Hs; reflexivity.
Qed.

Lemma c29_xyt_reject a md : (forall tr isz, ~ order3 (md_labels md) tr isz) -> reorder_array_xyt a md = Err AssertionError.
Proof.
  intros H. unfold reorder_array_xyt. set (l := md_labels md) in *.
  assert (HE : forall x y, labels_eqb x y = true -> x = y).
  { induction x as [|u x IH]; intros [|v y] E; try reflexivity; try discriminate. cbn in E.
    apply andb_prop in E. destruct E as (E1 & E2). f_equal; [destruct u, v; try discriminate; reflexivity|apply IH, E2]. }
  destruct (labels_eqb l [AxX; AxY; AxZ]) eqn:E1; [apply HE in E1; exfalso; eapply H; rewrite E1; constructor|].
  destruct (labels_eqb l [AxZ; AxY; AxX]) eqn:E2; [apply HE in E2; exfalso; eapply H; rewrite E2; constructor|].
  destruct (labels_eqb l [AxX; AxY; AxT]) eqn:E3; [apply HE in E3; exfalso; eapply H; rewrite E3; constructor|].
  destruct (labels_eqb l [AxT; AxY; AxX]) eqn:E4; [apply HE in E4; exfalso; eapply H; rewrite E4; constructor|].
  reflexivity.
Qed.

Inductive order2 : list axlabel -> bool -> bool -> Prop :=
| O2_rz : order2 [AxR; AxZ] false true
| O2_zr : order2 [AxZ; AxR] true true
| O2_rt : order2 [AxR; AxT] false false
| O2_tr : order2 [AxT; AxR] true false.
(** Entry at radial index i and longitudinal index k. *)
Definition sample2 (tr : bool) (a : ndarray) (i k : nat) : C := if tr then at3 a k i 0 else at3 a i k 0.

Lemma c29_rt l tr isz a md h nl : order2 l tr isz -> md_labels md = l -> (1 <= h)%nat ->
  shp a = (if tr then [nl; (2 * h)%nat] else [(2 * h)%nat; nl]) -> length (md_axis md AxR) = (2 * h)%nat ->
  exists b r t, reorder_array_rt a md = Ok (b, [r; t]) /\ shp b = [h; nl] /\ length r = h /\
    (forall i, (i < h)%nat -> vget r i = vget (md_axis md AxR) (h + i)) /\
    (isz = false -> t = md_axis md AxT /\
       forall i k, at3 b i k 0 = Cmult (RtoC (/ 2)) (Cplus (sample2 tr a (h + i) k) (sample2 tr a (h - 1 - i) k))) /\
    (isz = true -> length t = length (md_axis md AxZ) /\
       (forall i k, (k < nl)%nat -> at3 b i k 0 =
          Cmult (RtoC (/ 2)) (Cplus (sample2 tr a (h + i) (nl - 1 - k)) (sample2 tr a (h - 1 - i) (nl - 1 - k)))) /\
       (forall dz k, uniform_list (md_axis md AxZ) dz -> (k < length (md_axis md AxZ))%nat ->
          vget t k = (vget (md_axis md AxZ) (length (md_axis md AxZ) - 1)
                      - vget (md_axis md AxZ) (length (md_axis md AxZ) - 1 - k)) / c_light)).
Proof.
  intros HO HL Hh Hs Hr. unfold reorder_array_rt. rewrite HL.
  assert (Hdiv : Nat.div (2 * h) 2 = h) by (rewrite Nat.mul_comm; apply Nat.div_mul; lia).
  assert (HR : forall i, (i < h)%nat -> vget (skipn h (md_axis md AxR)) i = vget (md_axis md AxR) (h + i)).
  { intros i Hi. unfold vget. rewrite <- (firstn_skipn h (md_axis md AxR)) at 2.
    rewrite app_nth2; rewrite firstn_length, Hr; [|lia]. f_equal. lia. }
  assert (HLr : length (skipn h (md_axis md AxR)) = h) by (rewrite skipn_length, Hr; lia).
  destruct HO; cbn [labels_eqb label_eqb andb orb pyassert bind existsb]; cbn zeta.
  all: rewrite Hr, Hdiv.
  all: match goal with |- context [Nat.eqb (dim0 ?b - _) _] =>
      assert (Hd : dim0 b = (2 * h)%nat /\ dim1 b = nl) by
        (split; unfold dim0, dim1; cbn [flip_last2 swap01 shp nth]; unfold dim0, dim1; rewrite Hs; reflexivity) end.
  all: destruct Hd as (Hd0 & Hd1); rewrite Hd0, Hd1, Hdiv.
  all: replace (Nat.eqb (2 * h - h) h) with true by (symmetry; apply Nat.eqb_eq; lia).
  all: do 3 eexists; (split; [reflexivity|]); (split; [reflexivity|]); (split; [exact HLr|]); (split; [exact HR|]).
  all: split; intros E; try discriminate E; clear E.
  all: try (split; [reflexivity|]; intros; reflexivity).
  all: (split; [unfold z_to_t; apply map_length|]); split; [intros i k Hk|intros dz k; apply z_to_t_uniform].
  all: cbn [flip_last2 swap01 at3 sample2]; unfold dim1; cbn [swap01 shp nth]; unfold dim0; rewrite Hs; cbn [nth];
       reflexivity.
Qed.

Lemma c29_rt_reject a md : (forall tr isz, ~ order2 (md_labels md) tr isz) -> reorder_array_rt a md = Err AssertionError.
Proof.
  intros H. unfold reorder_array_rt. set (l := md_labels md) in *.
  assert (HE : forall x y, labels_eqb x y = true -> x = y).
  { induction x as [|u x IH]; intros [|v y] E; try reflexivity; try discriminate. cbn in E.
    apply andb_prop in E. destruct E as (E1 & E2). f_equal; [destruct u, v; try discriminate; reflexivity|apply IH, E2]. }
  destruct (labels_eqb l [AxR; AxZ]) eqn:E1; [apply HE in E1; exfalso; eapply H; rewrite E1; constructor|].
  destruct (labels_eqb l [AxZ; AxR]) eqn:E2; [apply HE in E2; exfalso; eapply H; rewrite E2; constructor|].
  destruct (labels_eqb l [AxR; AxT]) eqn:E3; [apply HE in E3; exfalso; eapply H; rewrite E3; constructor|].
  destruct (labels_eqb l [AxT; AxR]) eqn:E4; [apply HE in E4; exfalso; eapply H; rewrite E4; constructor|].
  reflexivity.
Qed.

(** An odd number 2h+1 >= 5 of radial samples raises; 3 samples are silently mixed up: the outermost
    lower sample (radius r_0 = -r_2) is averaged into both rows. *)
Lemma c29_rt_odd a md h nl : md_labels md = [AxR; AxT] -> (2 <= h)%nat ->
  shp a = [(2 * h + 1)%nat; nl] -> reorder_array_rt a md = Err ValueError.
Proof.
  intros HL Hh Hs. unfold reorder_array_rt. rewrite HL. cbn [labels_eqb label_eqb andb orb pyassert bind existsb]. cbn zeta.
  unfold dim0. rewrite Hs. cbn [nth].
  assert (Hdiv : Nat.div (2 * h + 1) 2 = h).
  { replace (2 * h + 1)%nat with (1 + h * 2)%nat by lia. rewrite Nat.div_add by lia. reflexivity. }
  rewrite Hdiv. replace (Nat.eqb (2 * h + 1 - h) h) with false by (symmetry; apply Nat.eqb_neq; lia).
  replace (Nat.eqb h 1) with false by (symmetry; apply Nat.eqb_neq; lia).
  replace (Nat.eqb (2 * h + 1 - h) 1) with false by (symmetry; apply Nat.eqb_neq; lia). reflexivity.
Qed.
Lemma c29_rt_three a md nl : md_labels md = [AxR; AxT] -> shp a = [3%nat; nl] ->
  exists b r, reorder_array_rt a md = Ok (b, [r; md_axis md AxT]) /\ shp b = [2%nat; nl] /\
    forall k, at3 b 0 k 0 = Cmult (RtoC (/ 2)) (Cplus (at3 a 1 k 0) (at3 a 0 k 0)) /\
              at3 b 1 k 0 = Cmult (RtoC (/ 2)) (Cplus (at3 a 2 k 0) (at3 a 0 k 0)).
Proof.
  intros HL Hs. unfold reorder_array_rt. rewrite HL. cbn [labels_eqb label_eqb andb orb pyassert bind existsb]. cbn zeta.
  unfold dim0, dim1. rewrite Hs. cbn. do 2 eexists. split; [reflexivity|]. split; [reflexivity|]. intros k. split; reflexivity.
Qed.

Lemma c27_any_grid g lam pol M a m : g_nmodes g = Some M -> (1 <= M)%nat ->
  snd (get_temporal_field g) = Ok a -> dim0 a = (2 * M - 1)%nat -> dty a = Complex128 ->
  snd (build_mesh Rt g lam pol false) = Ok m ->
  forall r t theta, recon M (comp M a r t) theta =
    Cplus (at3 (ms_data m) 0 t r) (csum (M - 1) (fun q =>
      Cplus (Cmult (RtoC (cos (INR (S q) * theta))) (at3 (ms_data m) (2 * S q - 1) t r))
            (Cmult (RtoC (sin (INR (S q) * theta))) (at3 (ms_data m) (2 * S q) t r)))).
Proof.
  intros H1 H2 H3 H4 HD H5 r t theta. unfold build_mesh in H5. rewrite H3 in H5. cbn [fst snd] in H5. rewrite H1 in H5.
  cbn [snd] in H5. injection H5 as <-. cbn [ms_data theta_data at3]. rewrite HD. cbn [cast]. apply c27_field; assumption.
Qed.

(** A real field on an rt grid: the sine part is imaginary and is dropped on writing. *)
Definition ex_odd : ndarray :=
  mkArr [3;4;5]%nat Float64 (fun q _ _ => match q with 1%nat => RtoC 1 | 2%nat => RtoC (-1) | _ => RtoC 0 end).
Lemma c27_real_lost : exists g0 g a m,
  grid_init Rt [0;-3] [2;4] [4;5]%nat (Some 2%Z) false = Ok g0 /\
  set_temporal_field g0 ex_odd = (g, Ok tt) /\ snd (get_temporal_field g) = Ok a /\ arr_eq a ex_odd /\
  snd (build_mesh Rt g 1 (RtoC 1, RtoC 0) false) = Ok m /\
  shp (ms_data m) = [3;5;4]%nat /\ (forall q t r, (q < 3)%nat -> at3 (ms_data m) q t r = RtoC 0).
Proof.
  destruct (grid_init Rt [0;-3] [2;4] [4;5]%nat (Some 2%Z) false) as [g|e] eqn:E.
  2:{ exfalso. unfold grid_init in E. cbn in E. discriminate. }
  unfold grid_init in E. cbn -[linspace vget Z.ltb] in E. injection E as <-.
  unfold set_temporal_field. cbn -[linspace vget].
  do 4 eexists. split; [reflexivity|]. split; [reflexivity|]. cbn -[linspace vget]. split; [reflexivity|].
  split; [|split; [reflexivity|split; [reflexivity|]]].
  - split; [reflexivity|]. split; [reflexivity|]. intros i j k _. cbn [at3]. unfold cast.
    destruct i as [|[|[|i]]]; reflexivity.
  - intros q t r Hq. cbn [ms_data theta_data at3 dty cast]. unfold mode_data, dim0. cbn [shp nth at3].
    destruct q as [|[|[|q]]]; [| | |lia]; cbn; unfold RtoC, Cplus, Cmult, Copp, Ci, Re; cbn [fst snd].
    all: f_equal; change (Pos.to_nat 3 - 1)%nat with 2%nat; cbn [fst snd]; ring.
Qed.

Lemma c27_example : exists L0 M a m,
  laser_init Rt [0;-3] [2;4] [4;5]%nat ex_vortex 2 None = Ok L0 /\
  snd (get_temporal_field (l_grid L0)) = Ok a /\
  snd (build_mesh (l_dim L0) (l_grid L0) (p_lambda0 ex_vortex) (p_pol ex_vortex) false) = Ok m /\ M = 2%nat /\
  at3 (ms_data m) 1 0 3 = RtoC 2 /\ at3 (ms_data m) 2 0 3 = Copp (Cmult Ci (RtoC 2)).
Proof.
  destruct vortex_field as (L & a & HL & Ha & Hs & Hd & Hm & Hnm & Hnp & Hv).
  exists L, 2%nat, a. eexists. split; [exact HL|]. split; [exact Ha|].
  split; [unfold build_mesh; rewrite Ha; cbn [fst snd]; rewrite Hd, Hnm; reflexivity|].
  assert (HD : dty a = Complex128).
  { destruct (laser_init_Inv _ _ _ _ _ _ _ _ HL) as (? & ? & ? & ? & _ & _ & _ & _ & _ & _ & _ & _ & _ & HI).
    exact (proj2 (tread_shape _ _ (proj1 (i_coh _ _ _ _ HI)) Ha)). }
  split; [reflexivity|]. cbn [ms_data theta_data at3]. rewrite HD. cbn [cast]. unfold mode_data, dim0. rewrite Hs.
  cbn [nth Nat.sub Nat.add Nat.div Nat.divmod fst snd Nat.eqb Nat.odd Nat.even negb].
  destruct (Hv 3%nat 0%nat) as (_ & V1 & V2); [lia|lia|]. rewrite V1, V2.
  replace (coord 0 2 4 3) with 2 by (unfold coord; simpl; field).
  split; unfold Ci, Copp, Cmult, Cplus, RtoC; cbn [fst snd]; f_equal; ring.
Qed.
