(** Proofs of C75: FromOpenPMDProfile. *)
From Verif Require Import PyBase CSum NpFFT FFTProofs NumPy NpMath NpMathProofs GridModel GridSpec GridProofs LaserSpec GridObs
  EnergyModel EnergyProofs AngularProofs LaserModel OpticsModel LaserOps LaserInv LaserInitProofs LaserStepProofs
  PropagateProofs HistoryProofs OpticsProofs LaserExamples FromArrayModel FromArrayProofs FromArraySpec FromArrayProps AnalysisModel AnalysisExamples
  CreateGridProofs OpenPMDModel OpenPMDProofs OpenPMDProfileModel OpenPMDProfileSpec.
Open Scope R_scope.

Lemma z_to_t_asc z : ascending z = true -> ascending (z_to_t z) = true.
Proof.
  intros H. apply ascending_iff. unfold z_to_t. rewrite map_length. intros i Hi.
  assert (E : forall k, (k < length z)%nat -> vget (map (fun v => (v - vget z 0) / c_light) z) k = (vget z k - vget z 0) / c_light).
  { intros k Hk. unfold vget at 1. rewrite (nth_indep _ 0 ((0 - vget z 0) / c_light)) by (rewrite map_length; exact Hk). apply (map_nth (fun v => (v - vget z 0) / c_light)). }
  rewrite !E by lia. pose proof (ascending_nth _ H i (S i) ltac:(lia)). apply Rmult_lt_compat_r; [apply Rinv_0_lt_compat, c_light_pos|lra].
Qed.

(** Cartesian envelopes. *)
Lemma c75_xyt hilb a md l tr isz nx ny nl w pol : order3 l tr isz -> md_labels md = l ->
  shp a = (if tr then [nl; ny; nx] else [nx; ny; nl]) ->
  good_axis (md_axis md AxX) nx -> good_axis (md_axis md AxY) ny -> good_long md isz nl ->
  exists p, from_openpmd hilb a md None (Some true) (Ok w) pol = Ok p /\ p_lambda0 p = 2 * PI * c_light / w /\
    forall i j k, (i < nx)%nat -> (j < ny)%nat -> (k < nl)%nat ->
      p_eval p (vget (md_axis md AxX) i) (vget (md_axis md AxY) j) (pass_time md isz k) = sample3 tr a i j k.
Proof.
  intros HO HL Hs (X1 & X2 & X3) (Y1 & Y2 & Y3) ((T1 & T2 & T3) & Hz).
  destruct (c29_xyt l tr isz a md nx ny nl HO HL Hs) as (b & t & Er & Sb & Ht & Hzz).
  assert (Tl : length t = nl /\ ascending t = true).
  { destruct isz; [destruct (Hzz eq_refl) as (A & _)|destruct (Ht eq_refl) as (-> & _); split; assumption].
    unfold long_axis in *. split; [rewrite A; exact T1|].
    unfold reorder_array_xyt in Er. rewrite HL in Er. clear HL. inversion HO; subst l tr; cbn [labels_eqb label_eqb andb orb pyassert bind existsb] in Er; injection Er as _ <-; apply z_to_t_asc, T3. }
  destruct Tl as (Tl & Ta). unfold from_openpmd. rewrite Er. cbn [bind fst snd].
  assert (Ha : exists p, from_array_xyt (2 * PI * c_light / w) pol b (md_axis md AxX) (md_axis md AxY) t SpaceTime = Ok p).
  { unfold from_array_xyt. rewrite !asc_mono by assumption. cbn [andb negb]. rewrite Sb, X1, Y1, Tl, shape_eqb_refl. cbn [negb]. eexists. reflexivity. }
  destruct Ha as (p & Hp). exists p. split; [exact Hp|]. destruct (from_array_xyt_inv _ _ _ _ _ _ _ _ Hp) as (_ & _ & _ & _ & _ & El). split; [exact El|].
  intros i j k Hi Hj Hk. pose proof (c46_nodes _ _ _ _ _ _ _ Hp ltac:(lia) ltac:(lia) ltac:(lia) i j) as N. destruct isz; unfold pass_time.
  - destruct (Hzz eq_refl) as (_ & Hv & Htv). unfold long_axis in T1. destruct (Hz eq_refl) as (dz & Hdz).
    specialize (N (nl - 1 - k)%nat ltac:(lia) ltac:(lia) ltac:(lia)). rewrite Hv in N by lia. replace (nl - 1 - (nl - 1 - k))%nat with k in N by lia.
    rewrite (Htv dz) in N by (assumption || lia). rewrite T1 in N. replace (nl - 1 - (nl - 1 - k))%nat with k in N by lia. rewrite T1. exact N.
  - destruct (Ht eq_refl) as (Et & Hv). specialize (N k ltac:(lia) ltac:(lia) ltac:(lia)). rewrite Hv, Et in N. exact N.
Qed.
(** Cylindrical envelopes. *)
Lemma c75_rt hilb a md th l tr isz h nl w pol : order2 l tr isz -> md_labels md = l -> (2 <= h)%nat ->
  shp a = (if tr then [nl; (2 * h)%nat] else [(2 * h)%nat; nl]) ->
  good_radial md h -> 0 <= vget (md_axis md AxR) h -> good_long md isz nl ->
  exists p, from_openpmd hilb a md (Some th) (Some true) (Ok w) pol = Ok p /\ p_lambda0 p = 2 * PI * c_light / w /\
    forall i k x y, (i < h)%nat -> (k < nl)%nat -> sqrt (x ^ 2 + y ^ 2) = vget (md_axis md AxR) (h + i) ->
      p_eval p x y (pass_time md isz k) = Cmult (RtoC (/ 2)) (Cplus (sample2 tr a (h + i) k) (sample2 tr a (h - 1 - i) k)).
Proof.
  intros HO HL Hh Hs (R1 & R3) R0 ((T1 & T2 & T3) & Hz).
  destruct (c29_rt l tr isz a md h nl HO HL ltac:(lia) Hs R1) as (b & r & t & Er & Sb & Lr & Hr & Ht & Hzz).
  assert (Tl : length t = nl /\ ascending t = true).
  { destruct isz; [destruct (Hzz eq_refl) as (A & _)|destruct (Ht eq_refl) as (-> & _); split; assumption].
    unfold long_axis in *. split; [rewrite A; exact T1|]. replace t with (z_to_t (md_axis md AxZ)); [apply z_to_t_asc, T3|].
    unfold reorder_array_rt in Er. rewrite HL in Er. clear HL. inversion HO; subst l tr; cbn [labels_eqb label_eqb andb orb pyassert bind existsb] in Er; cbn zeta in Er;
      repeat (match type of Er with (if ?c then _ else _) = _ => destruct c end); try discriminate; injection Er as _ _ <-; reflexivity. }
  destruct Tl as (Tl & Ta). unfold from_openpmd. rewrite Er. cbn [bind fst snd].
  assert (Ra : ascending r = true).
  { apply ascending_iff. rewrite Lr. intros i Hi. rewrite !Hr by lia. replace (h + S i)%nat with (S (h + i)) by lia. apply R3. lia. }
  assert (Ha : exists p, from_array_rt (2 * PI * c_light / w) pol b r t SpaceTime = Ok p).
  { assert (V0 : vget r 0 = vget (md_axis md AxR) h) by (rewrite Hr by lia; f_equal; lia).
    unfold from_array_rt, mirror_axis, mirror_arr. destruct (Reqb (vget r 0) 0) eqn:B.
    - rewrite !asc_mono by assumption. cbn [andb negb]. rewrite Sb, Lr, Tl, shape_eqb_refl. cbn [negb]. eexists. reflexivity.
    - apply Reqb_false in B. assert (A' : ascending (- vget r 0 :: r) = true).
      { apply ascending_iff. cbn [length]. intros [|q] Hq; unfold vget; cbn [nth].
        - change (- vget r 0 < vget r 0). lra.
        - apply (ascending_nth _ Ra q (S q)). lia. }
      rewrite !asc_mono by assumption. cbn [andb negb shp length]. unfold dim0, dim1. rewrite Sb. cbn [nth]. rewrite Lr, Tl, shape_eqb_refl. cbn [negb]. eexists. reflexivity. }
  destruct Ha as (p & Hp). exists p. split; [exact Hp|].
  assert (El : p_lambda0 p = 2 * PI * c_light / w).
  { clear - Hp. unfold from_array_rt in Hp. destruct (negb _); [discriminate|]. destruct (negb _); [discriminate|]. injection Hp as <-. reflexivity. }
  split; [exact El|]. intros i k x y Hi Hk Hxy. pose proof (c46_rt_nodes _ _ _ _ _ _ Hp ltac:(lia) ltac:(lia) i) as N. destruct isz; unfold pass_time.
  - destruct (Hzz eq_refl) as (_ & Hv & Htv). unfold long_axis in T1. destruct (Hz eq_refl) as (dz & Hdz).
    specialize (N (nl - 1 - k)%nat x y ltac:(lia) ltac:(lia) ltac:(rewrite Hr by lia; exact Hxy)). rewrite Hv in N by lia. replace (nl - 1 - (nl - 1 - k))%nat with k in N by lia.
    rewrite (Htv dz) in N by (assumption || lia). rewrite T1 in N. replace (nl - 1 - (nl - 1 - k))%nat with k in N by lia. rewrite T1. exact N.
  - destruct (Ht eq_refl) as (Et & Hv). specialize (N k x y ltac:(lia) ltac:(lia) ltac:(rewrite Hr by lia; exact Hxy)). rewrite Hv, Et in N. exact N.
Qed.
(** Real fields: never. *)
Lemma field_to_envelope_shape hilb d g g' w b s : g_tv g = true -> shp (g_tf g) = s -> field_to_envelope hilb d g = (g', Ok w) ->
  snd (get_temporal_field g') = Ok b -> shp b = s.
Proof.
  intros V Hs. unfold field_to_envelope. destruct (g_isenv g); [discriminate|]. unfold get_temporal_field at 1. rewrite V. cbn [fst snd].
  cbn zeta. destruct (snd (get_frequency _ _ _ _ _ _)) as [[? v]|e]; [|discriminate].
  match goal with |- context [set_temporal_field ?h ?f] => destruct (set_temporal_field h f) as [g2 [u|e]] eqn:E end; cbn [fst snd]; [|discriminate].
  intros [= <- <-]. unfold set_temporal_field in E. destruct (shape_eqb _ _) eqn:B; [|discriminate]. cbn [negb] in E. destruct (negb _); [discriminate|].
  injection E as <- _. unfold get_temporal_field, with_t. cbn. intros [= <-]. cbn. apply shape_eqb_true in B. cbn [shp hilbert_transform] in B.
  rewrite <- Hs. symmetry. exact B.
Qed.
Lemma create_xyt_shape a ax b g : create_grid Xyt a ax b = Ok g -> g_tv g = true /\ shp (g_tf g) = map (@length R) ax.
Proof.
  unfold create_grid. destruct (grid_init Xyt _ _ _ None b) as [h|e] eqn:E; cbn [bind]; [|discriminate].
  destruct (pyassert _); cbn [bind]; [|discriminate]. cbn zeta.
  assert (Hh : shp (g_tf h) = map (@length R) ax).
  { clear - E. unfold grid_init in E. cbn [pyassert bind] in E. destruct (Nat.eqb _ _); cbn [pyassert bind] in E; [|discriminate]. destruct (Nat.eqb _ _); cbn [pyassert bind] in E; [|discriminate].
    destruct (build_axes _ _ _ _ _); cbn [bind] in E; [|discriminate]. injection E as <-. reflexivity. }
  unfold set_temporal_field. destruct (negb (shape_eqb _ _)); cbn [snd]; [discriminate|]. destruct (negb _); cbn [snd fst]; [discriminate|].
  intros [= <-]. cbn. split; [reflexivity|exact Hh].
Qed.
Lemma c75_real hilb a md theta fw pol : exists e, from_openpmd hilb a md theta (Some false) fw pol = Err e.
Proof.
  unfold from_openpmd. destruct theta as [th|].
  - destruct (reorder_array_rt a md) as [fa|e] eqn:Er; cbn [bind]; [|eexists; reflexivity].
    assert (Sh : exists h nl, shp (fst fa) = [h; nl]).
    { unfold reorder_array_rt in Er. destruct (pyassert _); [|discriminate]. cbn [bind] in Er. cbn zeta in Er.
      repeat (match type of Er with (if ?c then _ else _) = _ => destruct c end); try discriminate; injection Er as <-; cbn [fst shp]; eauto. }
    destruct Sh as (h & nl & Sh). destruct (c37_create_rt (fst fa) (snd fa) h nl false Sh) as (e & ->). cbn [bind]. eexists. reflexivity.
  - destruct (reorder_array_xyt a md) as [fa|e] eqn:Er; cbn [bind]; [|eexists; reflexivity].
    destruct (create_grid Xyt (fst fa) (snd fa) false) as [g|e] eqn:Eg; cbn [bind]; [|eexists; reflexivity].
    destruct (create_xyt_shape _ _ _ _ Eg) as (V & Hs).
    cbn zeta. destruct (field_to_envelope hilb Xyt g) as [g' [w|e]] eqn:Ef; cbn [fst snd bind]; [|eexists; reflexivity].
    destruct (snd (get_temporal_field g')) as [b|e] eqn:Eb; cbn [bind]; [|eexists; reflexivity].
    pose proof (field_to_envelope_shape _ _ _ _ _ _ _ V Hs Ef Eb) as Sb.
    unfold first_slice. destruct (shp b) as [|[|n] s] eqn:Sb'; cbn [bind]; try (eexists; reflexivity).
    destruct (snd fa) as [|xs [|ys [|ts [|? ?]]]] eqn:Ea; try (eexists; reflexivity). cbn [fst snd].
    unfold from_array_xyt. destruct (negb (andb _ _)); [eexists; reflexivity|]. cbn [shp].
    destruct (shape_eqb s [length xs; length ys; length ts]) eqn:E; [|eexists; reflexivity]. exfalso. apply shape_eqb_true in E.
    subst s. cbn [map] in Sb. discriminate.
Qed.

(** ** Round trips *)
Lemma default_envelope hilb F md theta fw pol : 
  from_openpmd hilb F md theta None fw pol = from_openpmd hilb F md theta (Some (match dty F with Complex128 => true | Float64 => false end)) fw pol.
Proof. reflexivity. Qed.
Lemma c75_written hilb m pol : dty (ms_data m) = Complex128 -> 
  from_openpmd hilb (ms_data m) (md_of_xyt m) None None (Ok (ms_omega m)) pol = from_openpmd_xyt m pol.
Proof.
  intros H. unfold from_openpmd, from_openpmd_xyt. rewrite H. destruct (reorder_array_xyt _ _) as [fa|e]; cbn [bind]; [|reflexivity].
  cbn [fst snd]. destruct (snd fa) as [|? [|? [|? [|? ?]]]]; reflexivity.
Qed.
Lemma viewer_axis_at o s n i : (i < n)%nat -> vget (viewer_axis o s n) i = o + INR i * s.
Proof.
  intros H. unfold vget, viewer_axis. rewrite (nth_indep _ 0 (o + INR 0 * s)) by (rewrite map_length, seq_length; exact H).
  rewrite (map_nth (fun i => o + INR i * s)), seq_nth by exact H. reflexivity.
Qed.
Lemma viewer_axis_len o s n : length (viewer_axis o s n) = n.
Proof. unfold viewer_axis. now rewrite map_length, seq_length. Qed.

Lemma c75_roundtrip hilb S lo hi n1 nt p nm nte L0 h theta pol :
  laser_init Rt lo hi [n1; nt] p nm nte = Ok L0 -> Forall no_resample h ->
  0 <= nth 0 lo 0 < nth 0 hi 0 -> nth 1 lo 0 < nth 1 hi 0 -> p_lambda0 p <> 0 ->
  let L := lrun S L0 h in
  exists M a m q,
    nm = Z.of_nat M /\ snd (get_temporal_field (l_grid L)) = Ok a /\
    snd (build_mesh (l_dim L) (l_grid L) (p_lambda0 p) (p_pol p) false) = Ok m /\
    from_openpmd hilb (viewer_plane m theta) (viewer_md_rt m) (Some theta) None (Ok (ms_omega m)) pol = Ok q /\
    p_lambda0 q = p_lambda0 p /\
    forall i k x y, (i < n1)%nat -> (k < nt)%nat -> sqrt (x ^ 2 + y ^ 2) = coord (nth 0 lo 0) (nth 0 hi 0) n1 i ->
      p_eval q x y (coord (nth 1 lo 0) (nth 1 hi 0) nt k + travelled S L0 h / c_light) =
      Cmult (RtoC (/ 2)) (Cplus (recon M (comp M a i k) theta) (recon M (comp M a i k) (theta + PI))).
Proof.
  intros Hi Hh Hr Ht Hl. cbn zeta.
  destruct (c27 S Rt lo hi n1 nt p nm nte L0 h eq_refl Hi Hh) as (M & a & m & HM & M1 & Ha & Sa & Hm & Mg & Ml & Mw & _ & _ & Mo & Ms & Md & HE & _).
  assert (Gn : (2 <= n1)%nat /\ (2 <= nt)%nat /\ dty (ms_data m) = Complex128).
  { destruct (laser_init_Inv _ _ _ _ _ _ _ _ Hi) as (g & m0 & m1 & mt & Hg & Hmt & D1 & D2 & D3 & D4 & D5 & Hn' & GS & HI).
    assert (Hex : exists g, grid_init Rt lo hi [n1;nt] (Some nm) true = Ok g) by eauto.
    apply grid_init_ok_iff in Hex. destruct Hex as (_ & _ & _ & Hnn & _).
    destruct (Hnn 0%nat ltac:(cbn; lia)) as (? & Q & G0). injection Q as <-. destruct (Hnn 1%nat ltac:(cbn; lia)) as (? & Q & G1). injection Q as <-.
    split; [exact G0|]. split; [exact G1|].
    assert (Da : dty a = Complex128).
    { destruct (history_plain S L0 m0 m1 mt h HI (or_intror Hh)) as (HR & _). exact (proj2 (tread_shape _ _ (proj1 (i_coh _ _ _ _ HR)) Ha)). }
    clear - Hm Ha Da. unfold build_mesh in Hm. rewrite Ha in Hm. cbn [snd fst] in Hm. destruct (l_dim _); [|injection Hm as <-; exact Da..].
    destruct (g_nmodes _); [|discriminate]. injection Hm as <-. exact Da. }
  destruct Gn as (G0 & G1 & Dm).
  assert (Dd : dim0 (ms_data m) = (2 * M - 1)%nat /\ dim1 (ms_data m) = nt /\ dim2 (ms_data m) = n1) by (unfold dim0, dim1, dim2; rewrite Md; repeat split).
  destruct Dd as (Q0 & Q1 & Q2).
  set (dt := spacing (nth 1 lo 0) (nth 1 hi 0) nt) in *. set (dr := spacing (nth 0 lo 0) (nth 0 hi 0) n1) in *.
  set (t0 := nth 1 lo 0 + travelled S L0 h / c_light) in *. set (r0 := nth 0 lo 0) in *.
  assert (P1 : 0 < dt /\ 0 < dr).
  { split; apply Rdiv_lt_0_compat; try lra; apply le_INR in G0; apply le_INR in G1; cbn [INR] in G0, G1; lra. }
  assert (AT : md_axis (viewer_md_rt m) AxT = viewer_axis t0 dt nt).
  { unfold viewer_md_rt. cbn [md_axis]. rewrite Mo, Ms, Q1. reflexivity. }
  assert (AR : md_axis (viewer_md_rt m) AxR = map Ropp (rev (viewer_axis r0 dr n1)) ++ viewer_axis r0 dr n1).
  { unfold viewer_md_rt. cbn [md_axis]. rewrite Mo, Ms, Q2. reflexivity. }
  assert (LR : forall i, (i < n1)%nat -> vget (md_axis (viewer_md_rt m) AxR) (n1 + i) = r0 + INR i * dr).
  { intros i Hi'. rewrite AR. unfold vget. rewrite app_nth2; rewrite map_length, rev_length, viewer_axis_len; [|lia].
    replace (n1 + i - n1)%nat with i by lia. apply viewer_axis_at, Hi'. }
  destruct (c75_rt hilb (viewer_plane m theta) (viewer_md_rt m) theta [AxT; AxR] true false n1 nt (ms_omega m) pol) as (q & Hq & Lq & Eq).
  - constructor.
  - exact Ml.
  - exact G0.
  - unfold viewer_plane. cbn [shp]. rewrite Q1, Q2. reflexivity.
  - split.
    + rewrite AR, app_length, map_length, rev_length, viewer_axis_len. lia.
    + intros i Hi'. replace (Datatypes.S (n1 + i)) with (n1 + Datatypes.S i)%nat by lia. rewrite !LR by lia. rewrite S_INR. destruct P1. lra.
  - pose proof (LR 0%nat ltac:(lia)) as E0. rewrite Nat.add_0_r in E0. rewrite E0. cbn [INR]. clear - Hr. rewrite Rmult_0_l, Rplus_0_r. exact (proj1 Hr).
  - split; [|discriminate]. unfold long_axis. rewrite AT. split; [apply viewer_axis_len|]. split; [exact G1|]. apply uniform_ascending, P1.
  - exists M, a, m, q. split; [exact HM|]. split; [exact Ha|]. split; [exact Hm|]. split.
    { rewrite default_envelope. cbn [viewer_plane dty]. rewrite Dm. exact Hq. }
    split; [rewrite Lq, Mw; field; pose proof PI_RGT_0; pose proof c_light_pos; repeat split; try assumption; lra|].
    intros i k x y Hi' Hk Hxy. specialize (Eq i k x y Hi' Hk). rewrite LR in Eq by exact Hi'. specialize (Eq Hxy).
    assert (Tk : pass_time (viewer_md_rt m) false k = coord (nth 1 lo 0) (nth 1 hi 0) nt k + travelled S L0 h / c_light).
    { unfold pass_time. rewrite AT, viewer_axis_at by exact Hk. unfold t0, dt, coord, spacing. lra. }
    rewrite Tk in Eq. rewrite Eq. f_equal. unfold sample2, viewer_plane. cbn [at3]. rewrite Q0, Q2.
    replace ((2 * M - 1 + 1) / 2)%nat with M by (replace (2 * M - 1 + 1)%nat with (M * 2)%nat by lia; symmetry; apply Nat.div_mul; lia).
    assert (B1 : Nat.ltb (n1 + i) n1 = false) by (apply Nat.ltb_ge; lia). assert (B2 : Nat.ltb (n1 - 1 - i) n1 = true) by (apply Nat.ltb_lt; lia).
    rewrite B1, B2. replace (n1 + i - n1)%nat with i by lia. replace (n1 - 1 - (n1 - 1 - i))%nat with i by lia.
    unfold viewer_sum. rewrite !HE. reflexivity.
Qed.
(** One azimuthal mode: the stored envelope itself. *)
Lemma recon1 E theta : recon 1 E theta = E 0%Z.
Proof. unfold recon. cbn [csum Nat.mul Nat.add Nat.sub]. cbn. rewrite Rmult_0_l, Ropp_0, cis_0. ring. Qed.

Lemma half_double z : Cmult (RtoC (/ 2)) (Cplus z z) = z.
Proof. destruct z as [x y]. unfold Cmult, Cplus, RtoC. cbn [fst snd]. f_equal; lra. Qed.
