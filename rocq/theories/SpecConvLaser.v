(** C90: the spectrum of a sampled laser approaches that of the continuous pulse. *)
From Coquelicot Require Import Coquelicot.
From Coq Require Import Sorting.Sorted.
From Verif Require Import PyBase CSum NpFFT NumPy GridModel GridSpec GridProofs LaserSpec GridObs EnergyModel EnergyProofs LaserModel OpticsModel LaserOps
  LaserInv LaserInitProofs AngularProofs HistoryProofs OpticsProofs OpticsProofs2 LaserExamples ConvergeSpec ConvergeProofs ConvergeLaser
  AnalysisModel SpectrumModel FullSpectrumSpec FullSpectrumProofs DurConvSpec DurConvProofs DurConvLaser GaussInt GaussLaser SpecConvSpec SpecConvProofs.
Open Scope R_scope.

Lemma Cnorm2_RtoC s : Cnorm2 (RtoC s) = s ^ 2.
Proof. unfold Cnorm2; simpl; ring. Qed.
Lemma fourier_riem E t0 t1 nt s v x y (f : nat -> C) :
  (forall k, (k < nt)%nat -> f k = Cmult (RtoC s) (E x y (coord t0 t1 nt k))) ->
  Cnorm2 (fourier nt (spacing t0 t1 nt) f v) = s ^ 2 * Qn t0 t1 E nt v x y.
Proof.
  intros Hf. unfold fourier.
  set (Z := (riem (Fre E v x y) t0 t1 nt, riem (Fim E v x y) t0 t1 nt) : C).
  assert (HZ : Cmult (cis (v * t0)) (Cmult (RtoC (spacing t0 t1 nt)) (csum nt (fun n => Cmult (f n) (cis (v * (INR n * spacing t0 t1 nt)))))) =
     Cmult (RtoC s) Z).
  { transitivity (Cmult (RtoC s) (Cmult (RtoC (spacing t0 t1 nt)) (csum nt (fun n => Cmult (E x y (coord t0 t1 nt n)) (cis (v * coord t0 t1 nt n)))))).
    - rewrite (csum_ext nt _ (fun n => Cmult (RtoC s) (Cmult (Cmult (E x y (coord t0 t1 nt n)) (cis (v * coord t0 t1 nt n))) (cis (- (v * t0)))))).
      + rewrite csum_scal_l, csum_scal_r.
        assert (Q : Cmult (cis (v * t0)) (cis (- (v * t0))) = RtoC 1) by (rewrite <- cis_plus, Rplus_opp_r; apply cis_0).
        set (c1 := cis (v * t0)) in *. set (c2 := cis (- (v * t0))) in *. set (X := csum nt _).
        replace (Cmult c1 (Cmult (RtoC (spacing t0 t1 nt)) (Cmult (RtoC s) (Cmult X c2)))) with
          (Cmult (Cmult c1 c2) (Cmult (RtoC s) (Cmult (RtoC (spacing t0 t1 nt)) X))) by ring. rewrite Q. ring.
      + intros n Hn. rewrite (Hf n Hn). rewrite <- (Cmult_assoc (RtoC s)). f_equal. rewrite <- Cmult_assoc. f_equal.
        rewrite <- cis_plus. f_equal. unfold coord, spacing. ring.
    - f_equal. unfold Z, riem. apply injective_projections; unfold Cmult, RtoC; cbn [fst snd]; rewrite ?fst_csum', ?snd_csum'.
      + rewrite Rmult_0_l, Rminus_0_r. reflexivity.
      + rewrite Rmult_0_l, Rplus_0_r. reflexivity. }
  apply (f_equal Cnorm2) in HZ. rewrite !Cnorm2_mult, Cnorm2_cis, Rmult_1_l, (Cnorm2_RtoC s) in HZ. rewrite Cnorm2_mult. rewrite HZ.
  unfold Z, Qn, Cnorm2; cbn [fst snd]. ring.
Qed.

Lemma factor_cont req U : energy_request_ok req -> 0 < U -> forall eps, 0 < eps -> exists d, 0 < d /\
  forall e s, Rabs (e - U) < d -> energy_factor req e s -> Rabs (s ^ 2 - energy_scale req U) < eps.
Proof.
  intros HR HU eps He. destruct req as [[E|]|]; cbn [energy_request_ok energy_factor energy_scale] in *.
  2,3: exists 1; split; [lra|]; intros e s _ ->; replace (1 ^ 2 - 1) with 0 by ring; rewrite Rabs_R0; exact He.
  assert (PD : 0 < E * 2 + 1) by lra.
  set (d := Rmin (U / 2) (eps * U ^ 2 / (E * 2 + 1))).
  assert (Hd1 : d <= U / 2) by apply Rmin_l. assert (Hd2 : d <= eps * U ^ 2 / (E * 2 + 1)) by apply Rmin_r.
  exists d. split.
  { apply Rmin_pos; [lra|]. apply Rdiv_lt_0_compat; [|exact PD]. apply Rmult_lt_0_compat; [exact He|apply pow_lt, HU]. }
  intros e s Hd (_ & Hs). pose proof (Rabs_def2 _ _ Hd) as (D1 & D2).
  assert (Pe : U / 2 < e) by lra. rewrite (Hs ltac:(lra)). rewrite pow2_sqrt by (apply Rmult_le_pos; [exact HR|left; apply Rinv_0_lt_compat; lra]).
  replace (E / e - E / U) with (E * (U - e) / (e * U)) by (field; lra).
  unfold Rdiv. rewrite Rabs_mult, Rabs_inv, (Rabs_right (e * U)) by nra. rewrite Rabs_mult, (Rabs_right E), (Rabs_minus_sym U e) by lra.
  apply (Rmult_lt_reg_r (e * U)); [nra|]. rewrite Rmult_assoc, Rinv_l, Rmult_1_r by nra.
  assert (Q1 : Rabs (e - U) * (E * 2 + 1) < eps * U ^ 2).
  { replace (eps * U ^ 2) with (eps * U ^ 2 / (E * 2 + 1) * (E * 2 + 1)) by (field; lra). apply Rmult_lt_compat_r; lra. }
  assert (Q2 : eps * U ^ 2 <= eps * (2 * (e * U))) by (apply Rmult_le_compat_l; [lra|simpl; nra]).
  pose proof (Rabs_pos (e - U)). nra.
Qed.
Lemma prod_conv k B eps : 0 <= B -> 0 < eps -> exists d, 0 < d /\ forall s R0 I0, Rabs (s - k) < d -> Rabs (R0 - I0) < d -> Rabs I0 <= B ->
  Rabs (s * R0 - k * I0) < eps.
Proof.
  intros HB He. set (c := B + Rabs k + 2). assert (Pc : 0 < c) by (unfold c; pose proof (Rabs_pos k); lra).
  exists (Rmin 1 (eps / c)). split; [apply Rmin_pos; [lra|apply Rdiv_lt_0_compat; assumption]|].
  intros s R0 I0 Hs HR HI.
  assert (S1 : Rabs (s - k) < 1) by (eapply Rlt_le_trans; [exact Hs|apply Rmin_l]). assert (S2 : Rabs (s - k) < eps / c) by (eapply Rlt_le_trans; [exact Hs|apply Rmin_r]).
  assert (T2 : Rabs (R0 - I0) < eps / c) by (eapply Rlt_le_trans; [exact HR|apply Rmin_r]).
  replace (s * R0 - k * I0) with ((s - k) * I0 + (s - k) * (R0 - I0) + k * (R0 - I0)) by ring.
  apply Rle_lt_trans with (Rabs (s - k) * Rabs I0 + Rabs (s - k) * Rabs (R0 - I0) + Rabs k * Rabs (R0 - I0)).
  { rewrite <- !Rabs_mult. eapply Rle_trans; [apply Rabs_triang|]. apply Rplus_le_compat_r, Rabs_triang. }
  set (d := eps / c) in *. assert (Ed : eps = d * c) by (unfold d; field; lra). assert (Pd : 0 < d) by (unfold d; apply Rdiv_lt_0_compat; assumption).
  pose proof (Rabs_pos (s - k)). pose proof (Rabs_pos I0). pose proof (Rabs_pos (R0 - I0)). pose proof (Rabs_pos k).
  assert (Rabs (s - k) * Rabs I0 <= d * B) by (apply Rmult_le_compat; lra).
  assert (Rabs (s - k) * Rabs (R0 - I0) <= 1 * d) by (apply Rmult_le_compat; lra).
  assert (Rabs k * Rabs (R0 - I0) <= Rabs k * d) by (apply Rmult_le_compat_l; lra).
  rewrite Ed. unfold c. lra.
Qed.
Lemma density_half z : density (Cmult (RtoC (/ 2)) z) = eps0 * c_light / PI / 4 * Cnorm2 z.
Proof. unfold density. rewrite Cnorm2_mult, Cnorm2_RtoC. field. pose proof PI_RGT_0. lra. Qed.
Lemma small2 A d : 0 <= A -> 0 < d -> exists h, 0 < h /\ forall x, 0 <= x -> x < 3 * h -> A * x < d.
Proof.
  intros HA Hd. exists (d / (3 * (A + 1))). split; [apply Rdiv_lt_0_compat; lra|]. intros x Hx H.
  apply Rle_lt_trans with ((A + 1) * x); [nra|]. replace d with ((A + 1) * (3 * (d / (3 * (A + 1))))) by (field; lra). apply Rmult_lt_compat_l; lra.
Qed.

Lemma spectrum_xyt_Q K x0 x1 y0 y1 t0 t1 E V v : x0 < x1 -> y0 < y1 -> t0 < t1 -> 0 <= K -> lip_field K x0 x1 y0 y1 t0 t1 E -> 0 <= V -> Rabs v <= V ->
  spectrum_xyt x0 x1 y0 y1 t0 t1 E v = eps0 * c_light / PI / 4 * RInt2 (Qc t0 t1 E v) x0 x1 y0 y1.
Proof.
  intros Bx By Bt HK HL HV Hv.
  pose proof (Qc_lip K x0 x1 y0 y1 t0 t1 E Bx By Bt HK HL V HV v Hv) as HQ. set (k := KQ _ _ _ _ _ _ _ _ _) in HQ.
  assert (Pk : 0 <= k) by (apply KQ_pos; assumption).
  unfold spectrum_xyt, RInt2. rewrite (RInt_ext _ (fun x => eps0 * c_light / PI / 4 * RInt (Qc t0 t1 E v x) y0 y1)).
  - apply RInt_scal'. apply (lip_ex (k * (y1 - y0)) x0 x1); try lra; [apply Rmult_le_pos; lra|]. apply (inner_lip k x0 x1 y0 y1 (Qc t0 t1 E v) By Pk HQ).
  - intros x Ix. rewrite Rmin_left, Rmax_right in Ix by lra.
    rewrite (RInt_ext _ (fun y => eps0 * c_light / PI / 4 * Qc t0 t1 E v x y)).
    + apply RInt_scal'. apply (lip_ex k y0 y1); try lra. apply (lip2_1 k x0 x1 y0 y1); [exact HQ|lra].
    + intros y _. rewrite density_half. f_equal. unfold transform, Qc, Cnorm2, Fre, Fim; cbn [fst snd]. eqR. ring.
Qed.

Lemma c90_xyt K lo hi p nm nte w0 V bins :
  let U := U_xyt (nth 0 lo 0) (nth 0 hi 0) (nth 1 lo 0) (nth 1 hi 0) (nth 2 lo 0) (nth 2 hi 0) (p_eval p) in
  length lo = 3%nat -> length hi = 3%nat ->
  nth 0 lo 0 < nth 0 hi 0 -> nth 1 lo 0 < nth 1 hi 0 -> nth 2 lo 0 < nth 2 hi 0 ->
  energy_request_ok (p_energy p) -> p_dtype p = Complex128 -> 0 <= K ->
  lip_field K (nth 0 lo 0) (nth 0 hi 0) (nth 1 lo 0) (nth 1 hi 0) (nth 2 lo 0) (nth 2 hi 0) (p_eval p) ->
  0 < U ->
  forall eps, 0 < eps -> exists N, forall n0 n1 nt, (N <= n0)%nat -> (N <= n1)%nat -> (N <= nt)%nat ->
  exists L l om, laser_init Xyt lo hi [n0;n1;nt] p nm nte = Ok L /\
    snd (get_spectrum Xyt (l_grid L) None bins (Some w0) MSum) = Ok (Sp1 l, om) /\
    StronglySorted Rlt om /\ (forall w, In w om <-> 0 <= w /\ dft_freq nt (spacing (nth 2 lo 0) (nth 2 hi 0) nt) (w0 - w)) /\
    length l = length om /\
    forall q, (q < length om)%nat -> let v := nth q om 0 - w0 in Rabs v <= V ->
      Rabs (nth q l 0 - energy_scale (p_energy p) U *
        spectrum_xyt (nth 0 lo 0) (nth 0 hi 0) (nth 1 lo 0) (nth 1 hi 0) (nth 2 lo 0) (nth 2 hi 0) (p_eval p) v) < eps.
Proof.
  intros U Hlo Hhi B0 B1 B2 HR Hd HK HL HU eps Heps.
  set (x0 := nth 0 lo 0) in *. set (x1 := nth 0 hi 0) in *. set (y0 := nth 1 lo 0) in *. set (y1 := nth 1 hi 0) in *.
  set (t0 := nth 2 lo 0) in *. set (t1 := nth 2 hi 0) in *.
  set (V' := Rabs V). assert (PV : 0 <= V') by apply Rabs_pos.
  pose proof (field_lip_intensity K x0 x1 y0 y1 t0 t1 (p_eval p) B0 B1 B2 HK HL) as HLI.
  pose proof (Bf_pos K x0 x1 y0 y1 t0 t1 (p_eval p) B0 B1 B2 HK) as PB.
  assert (PK2 : 0 <= 4 * K * Bf K x0 x1 y0 y1 t0 t1 (p_eval p)) by (apply Rmult_le_pos; lra).
  destruct (conv_xyt _ lo hi (p_eval p) B0 B1 B2 PK2 HLI) as (A1 & PA1 & CV1).
  fold x0 x1 y0 y1 t0 t1 U in CV1.
  destruct (spec_conv K x0 x1 y0 y1 t0 t1 (p_eval p) B0 B1 B2 HK HL V' PV) as (A2 & PA2 & CV2).
  set (kap := energy_scale (p_energy p) U). set (k0 := eps0 * c_light / PI / 4).
  pose proof eps0_pos as Pe. pose proof c_light_pos as Pc. pose proof PI_RGT_0 as Ppi.
  assert (Pk0 : 0 < k0).
  { unfold k0. apply Rdiv_lt_0_compat; [|lra]. apply Rdiv_lt_0_compat; [apply Rmult_lt_0_compat; assumption|exact Ppi]. }
  set (BB := (x1 - x0) * ((y1 - y0) * (2 * BI K x0 x1 y0 y1 t0 t1 (p_eval p) ^ 2))).
  assert (PBB : 0 <= BB).
  { unfold BB. apply Rmult_le_pos; [lra|]. apply Rmult_le_pos; [lra|]. apply Rmult_le_pos; [lra|apply pow2_ge_0]. }
  destruct (prod_conv kap BB (eps / k0) PBB ltac:(apply Rdiv_lt_0_compat; assumption)) as (d & Pd & HP).
  destruct (factor_cont (p_energy p) U HR HU d Pd) as (d2 & Pd2 & HF). fold kap in HF.
  destruct (small2 A1 d2 PA1 Pd2) as (h1 & Ph1 & S1). destruct (small2 A2 d PA2 Pd) as (h2 & Ph2 & S2).
  set (h := Rmin h1 h2). assert (Hh : 0 < h) by (apply Rmin_pos; assumption).
  assert (Hh1 : h <= h1) by apply Rmin_l. assert (Hh2 : h <= h2) by apply Rmin_r.
  destruct (spacing_small _ _ h B0 Hh) as (M0 & Q0 & T0). destruct (spacing_small _ _ h B1 Hh) as (M1 & Q1 & T1).
  destruct (spacing_small _ _ h B2 Hh) as (M2 & Q2 & T2).
  exists (M0 + M1 + M2)%nat. intros n0 n1 nt N0 N1 N2.
  destruct (xyt_construct_ok lo hi n0 n1 nt p nm nte Hlo Hhi ltac:(lia) ltac:(lia) ltac:(lia) B0 B1 B2 HR Hd) as (L & HI).
  destruct (xyt_samples lo hi n0 n1 nt p nm nte L HI B0 B1 B2 HR) as (a & s & Ha & Hsh & _ & Hs & Hf).
  fold x0 x1 y0 y1 t0 t1 in Hs, Hf.
  destruct (laser_init_Inv _ _ _ _ _ _ _ _ HI) as (g & m0 & m1 & mt & Hg & HM & _).
  destruct (c70_sampled_laser id_solvers Xyt lo hi [n0;n1;nt] p nm nte L [] HI eq_refl (or_introl eq_refl) B2) as (f & Henv & HS).
  cbn [lrun fold_left ndims_of Nat.sub nth] in Henv, HS. fold t0 t1 in HS.
  assert (Hfa : f = a) by (destruct HS as (Q & _); rewrite Ha in Q; injection Q as <-; reflexivity). subst f.
  destruct (c70_env Xyt (l_grid L) a nt (spacing t0 t1 nt) w0 HS Henv) as (om & Hsort & Hin & Hsp).
  destruct (Hsp MSum bins) as (v0 & Hv0 & His). unfold is_spectrum in His. cbv zeta in His. destruct v0 as [l|l]; [|destruct His].
  destruct His as (Hlen & Hval).
  exists L, l, om. split; [exact HI|]. split; [exact Hv0|]. split; [exact Hsort|]. split; [exact Hin|]. split; [exact Hlen|].
  intros q Hq v Hv. assert (Hv' : Rabs v <= V') by (eapply Rle_trans; [exact Hv|apply Rle_abs]).
  specialize (T0 n0 ltac:(lia)). specialize (T1 n1 ltac:(lia)). specialize (T2 nt ltac:(lia)).
  pose proof (spacing_pos x0 x1 n0 B0 ltac:(lia)) as P0. pose proof (spacing_pos y0 y1 n1 B1 ltac:(lia)) as P1.
  pose proof (spacing_pos t0 t1 nt B2 ltac:(lia)) as P2.
  specialize (CV1 n0 n1 nt ltac:(lia) ltac:(lia) ltac:(lia)). specialize (CV2 v n0 n1 nt Hv' ltac:(lia) ltac:(lia) ltac:(lia)).
  assert (HA : area Xyt (l_grid L) 0 = spacing x0 x1 n0 * spacing y0 y1 n1).
  { unfold area. destruct HM as (_&_&_&_&E5&_). rewrite E5.
    rewrite (dx_spacing _ _ _ _ _ _ _ 0 n0 Hg), (dx_spacing _ _ _ _ _ _ _ 1 n1 Hg) by (simpl; try lia; reflexivity). reflexivity. }
  assert (HV : nth q l 0 = k0 * (s ^ 2 * riem2 (Qn t0 t1 (p_eval p) nt v) x0 x1 y0 y1 n0 n1)).
  { rewrite (Hval q Hq). rewrite Hsh. cbn [nth]. unfold riem2, riem.
    rewrite <- !rsum_scal_l. apply rsum_ext. intros i Hi. rewrite <- !rsum_scal_l. apply rsum_ext. intros j Hj.
    change (area Xyt (l_grid L) j) with (area Xyt (l_grid L) 0). rewrite HA.
    rewrite density_half. fold v.
    rewrite (fourier_riem (p_eval p) t0 t1 nt s v (coord x0 x1 n0 i) (coord y0 y1 n1 j)).
    - fold k0. ring.
    - intros k Hk. apply Hs; assumption. }
  rewrite HV, (spectrum_xyt_Q K x0 x1 y0 y1 t0 t1 (p_eval p) V' v B0 B1 B2 HK HL PV Hv'). fold k0.
  set (I0 := RInt2 (Qc t0 t1 (p_eval p) v) x0 x1 y0 y1) in *. set (R0 := riem2 _ _ _ _ _ _ _) in *.
  replace (k0 * (s ^ 2 * R0) - kap * (k0 * I0)) with (k0 * (s ^ 2 * R0 - kap * I0)) by ring.
  rewrite Rabs_mult, (Rabs_right k0) by lra. replace eps with (k0 * (eps / k0)) by (field; lra). apply Rmult_lt_compat_l; [exact Pk0|].
  apply HP.
  - apply (HF (E_xyt lo hi n0 n1 nt (fun i j k => p_eval p (coord x0 x1 n0 i) (coord y0 y1 n1 j) (coord t0 t1 nt k)))).
    + eapply Rle_lt_trans; [exact CV1|]. apply S1; lra.
    + exact Hf.
  - eapply Rle_lt_trans; [exact CV2|]. apply S2; lra.
  - apply (RInt2_bnd K x0 x1 y0 y1 t0 t1 (p_eval p) B0 B1 B2 HK HL V' PV v Hv').
Qed.

Lemma spectrum_rt_Q K r0 r1 y0 y1 t0 t1 E V v : 0 <= r0 -> r0 < r1 -> y0 < y1 -> y0 <= 0 <= y1 -> t0 < t1 -> 0 <= K -> lip_field K r0 r1 y0 y1 t0 t1 E -> 0 <= V -> Rabs v <= V ->
  spectrum_rt r0 r1 t0 t1 E v = 2 * PI * (eps0 * c_light / PI / 4) * RInt (Gc t0 t1 E v) r0 r1.
Proof.
  intros R0 Bx By Y0 Bt HK HL HV Hv.
  destruct (Gc_lip K r0 r1 y0 y1 t0 t1 E Bx By Bt HK HL V HV R0 Y0 v Hv) as (GL & _). match type of GL with lip1 ?kk _ _ _ => set (k := kk) in * end.
  assert (Pk : 0 <= k).
  { unfold k. pose proof (pow2_ge_0 (BI K r0 r1 y0 y1 t0 t1 E)). pose proof (KQ_pos K r0 r1 y0 y1 t0 t1 E Bx By Bt HK V HV).
    assert (0 <= r1 * KQ K r0 r1 y0 y1 t0 t1 E V) by (apply Rmult_le_pos; lra). lra. }
  unfold spectrum_rt. rewrite (RInt_ext _ (fun r => 2 * PI * (eps0 * c_light / PI / 4) * Gc t0 t1 E v r)).
  - apply RInt_scal'. apply (lip_ex k r0 r1); try lra. exact GL.
  - intros r _. rewrite density_half. unfold Gc, transform, Qc, Cnorm2, Fre, Fim; cbn [fst snd]. eqR. ring.
Qed.

Lemma c90_rt K lo hi p (M : nat) nte w0 V bins :
  let U := U_rt (nth 0 lo 0) (nth 0 hi 0) (nth 1 lo 0) (nth 1 hi 0) (p_eval p) in
  length lo = 2%nat -> length hi = 2%nat -> (1 <= M)%nat ->
  0 <= nth 0 lo 0 -> nth 0 lo 0 < nth 0 hi 0 -> nth 1 lo 0 < nth 1 hi 0 ->
  energy_request_ok (p_energy p) -> 0 <= K ->
  lip_field K (- nth 0 hi 0) (nth 0 hi 0) (- nth 0 hi 0) (nth 0 hi 0) (nth 1 lo 0) (nth 1 hi 0) (p_eval p) ->
  axisymmetric (p_eval p) ->
  (2 * Z.of_nat M - 1 <= match nte with None => 2 * Z.of_nat M - 1 | Some n => n end)%Z ->
  0 < U ->
  forall eps, 0 < eps -> exists N, forall n1 nt, (N <= n1)%nat -> (N <= nt)%nat ->
  exists L l om, laser_init Rt lo hi [n1;nt] p (Z.of_nat M) nte = Ok L /\
    snd (get_spectrum Rt (l_grid L) None bins (Some w0) MSum) = Ok (Sp1 l, om) /\
    StronglySorted Rlt om /\ (forall w, In w om <-> 0 <= w /\ dft_freq nt (spacing (nth 1 lo 0) (nth 1 hi 0) nt) (w0 - w)) /\
    length l = length om /\
    forall q, (q < length om)%nat -> let v := nth q om 0 - w0 in Rabs v <= V ->
      Rabs (nth q l 0 - energy_scale (p_energy p) U *
        spectrum_rt (nth 0 lo 0) (nth 0 hi 0) (nth 1 lo 0) (nth 1 hi 0) (p_eval p) v) < eps.
Proof.
  intros U Hlo Hhi HM B0 B1 B2 HR HK HL HAx Hn HU eps Heps.
  set (r0 := nth 0 lo 0) in *. set (r1 := nth 0 hi 0) in *. set (t0 := nth 1 lo 0) in *. set (t1 := nth 1 hi 0) in *.
  set (V' := Rabs V). assert (PV : 0 <= V') by apply Rabs_pos.
  assert (Br : - r1 < r1) by lra.
  pose proof (field_lip_intensity K (- r1) r1 (- r1) r1 t0 t1 (p_eval p) Br Br B2 HK HL) as HLI.
  pose proof (Bf_pos K (- r1) r1 (- r1) r1 t0 t1 (p_eval p) Br Br B2 HK) as PB.
  assert (PK2 : 0 <= 4 * K * Bf K (- r1) r1 (- r1) r1 t0 t1 (p_eval p)) by (apply Rmult_le_pos; lra).
  assert (HC : forall r t theta, p_eval p (r * cos theta) (r * sin theta) t = recon M (fun m => mode0 p m r t) theta).
  { intros r t th. unfold mode0. rewrite recon_zero by exact HM. apply HAx. }
  destruct (conv_rt _ lo hi M (p_eval p) (mode0 p) B0 B1 B2 PK2 HM HLI HC) as (A1 & PA1 & CV1).
  fold r0 r1 t0 t1 U in CV1.
  assert (HL' : lip_field K r0 r1 (- r1) r1 t0 t1 (p_eval p)).
  { intros x x' y y' t t' Ix Ix' Iy Iy' It It'. apply HL; lra. }
  assert (Y0 : - r1 <= 0 <= r1) by lra.
  destruct (spec_conv_rt K r0 r1 (- r1) r1 t0 t1 (p_eval p) B1 Br B2 HK HL' V' PV B0 Y0) as (A2 & PA2 & CV2).
  set (kap := energy_scale (p_energy p) U). set (k0 := 2 * PI * (eps0 * c_light / PI / 4)).
  pose proof eps0_pos as Pe. pose proof c_light_pos as Pc. pose proof PI_RGT_0 as Ppi.
  assert (Pk0 : 0 < k0).
  { unfold k0. apply Rmult_lt_0_compat; [lra|]. apply Rdiv_lt_0_compat; [|lra]. apply Rdiv_lt_0_compat; [apply Rmult_lt_0_compat; assumption|exact Ppi]. }
  set (BB := (r1 - r0) * (r1 * (2 * BI K r0 r1 (- r1) r1 t0 t1 (p_eval p) ^ 2))).
  assert (PBB : 0 <= BB).
  { unfold BB. apply Rmult_le_pos; [lra|]. apply Rmult_le_pos; [lra|]. apply Rmult_le_pos; [lra|apply pow2_ge_0]. }
  destruct (prod_conv kap BB (eps / k0) PBB ltac:(apply Rdiv_lt_0_compat; assumption)) as (d & Pd & HP).
  destruct (factor_cont (p_energy p) U HR HU d Pd) as (d2 & Pd2 & HF). fold kap in HF.
  destruct (small2 A1 d2 PA1 Pd2) as (h1 & Ph1 & S1). destruct (small2 A2 d PA2 Pd) as (h2 & Ph2 & S2).
  set (h := Rmin h1 h2). assert (Hh : 0 < h) by (apply Rmin_pos; assumption).
  assert (Hh1 : h <= h1) by apply Rmin_l. assert (Hh2 : h <= h2) by apply Rmin_r.
  destruct (spacing_small _ _ h B1 Hh) as (M1 & Q1 & T1).
  destruct (spacing_small _ _ h B2 Hh) as (M2 & Q2 & T2).
  exists (M1 + M2)%nat. intros n1 nt N1 N2.
  destruct (rt_construct_ok lo hi [n1;nt] n1 nt p M nte Hlo Hhi eq_refl eq_refl ltac:(lia) ltac:(lia) HM B0 B1 B2 HR Hn) as (L & HI).
  destruct (rt_factor lo hi [n1;nt] n1 nt p M nte L (mode0 p) HI HM eq_refl eq_refl B0 B1 B2 HR HC Hn) as (a & s & Ha & Hs & Hf).
  destruct (c13_rt id_solvers lo hi [n1;nt] n1 nt p M nte L [] a HI ltac:(constructor) eq_refl eq_refl Ha) as (_ & Hsh & _).
  fold r0 r1 t0 t1 in Hs, Hf.
  destruct (laser_init_Inv _ _ _ _ _ _ _ _ HI) as (g & m0 & m1 & mt & Hg & HMt & _).
  destruct (c70_sampled_laser id_solvers Rt lo hi [n1;nt] p (Z.of_nat M) nte L [] HI eq_refl ltac:(right; constructor) B2) as (f & Henv & HS).
  cbn [lrun fold_left ndims_of Nat.sub nth] in Henv, HS. fold t0 t1 in HS.
  assert (Hfa : f = a) by (destruct HS as (Q & _); rewrite Ha in Q; injection Q as <-; reflexivity). subst f.
  destruct (c70_env Rt (l_grid L) a nt (spacing t0 t1 nt) w0 HS Henv) as (om & Hsort & Hin & Hsp).
  destruct (Hsp MSum bins) as (v0 & Hv0 & His). unfold is_spectrum in His. cbv zeta in His. destruct v0 as [l|l]; [|destruct His].
  destruct His as (Hlen & Hval).
  exists L, l, om. split; [exact HI|]. split; [exact Hv0|]. split; [exact Hsort|]. split; [exact Hin|]. split; [exact Hlen|].
  intros q Hq v Hv. assert (Hv' : Rabs v <= V') by (eapply Rle_trans; [exact Hv|apply Rle_abs]).
  specialize (T1 n1 ltac:(lia)). specialize (T2 nt ltac:(lia)).
  pose proof (spacing_pos r0 r1 n1 B1 ltac:(lia)) as P1.
  pose proof (spacing_pos t0 t1 nt B2 ltac:(lia)) as P2.
  specialize (CV1 n1 nt ltac:(lia) ltac:(lia)). specialize (CV2 v n1 nt Hv' ltac:(lia) ltac:(lia)).
  assert (HA : forall j, (j < n1)%nat -> area Rt (l_grid L) j = 2 * PI * coord r0 r1 n1 j * spacing r0 r1 n1).
  { intros j Hj. unfold area. destruct HMt as (_&_&_&E4&E5&_). rewrite E4, E5.
    rewrite (dx_spacing _ _ _ _ _ _ _ 0 n1 Hg) by (simpl; try lia; reflexivity).
    change (vget (nth 0 (g_axes g) []) j) with (axis_at g 0 j).
    rewrite (axis_coord _ _ _ _ _ _ _ 0 n1 j Hg) by (simpl; try lia; reflexivity || assumption). reflexivity. }
  assert (HV : nth q l 0 = k0 * (s ^ 2 * riem (fun r => r * Qn t0 t1 (p_eval p) nt v r 0) r0 r1 n1)).
  { rewrite (Hval q Hq). rewrite Hsh. cbn [nth]. unfold riem.
    rewrite <- !rsum_scal_l. apply rsum_ext. intros j Hj. rewrite HA by exact Hj.
    rewrite density_half. fold v.
    rewrite (fourier_riem (p_eval p) t0 t1 nt s v (coord r0 r1 n1 j) 0).
    - unfold k0. ring.
    - intros k Hk. specialize (Hs 0%Z j k ltac:(lia) Hj Hk). exact Hs. }
  rewrite HV, (spectrum_rt_Q K r0 r1 (- r1) r1 t0 t1 (p_eval p) V' v B0 B1 Br Y0 B2 HK HL' PV Hv'). fold k0.
  set (I0 := RInt _ r0 r1) in *. set (R0 := riem _ _ _ _) in *.
  replace (k0 * (s ^ 2 * R0) - kap * (k0 * I0)) with (k0 * (s ^ 2 * R0 - kap * I0)) by ring.
  rewrite Rabs_mult, (Rabs_right k0) by lra. replace eps with (k0 * (eps / k0)) by (field; lra). apply Rmult_lt_compat_l; [exact Pk0|].
  apply HP.
  - eapply HF; [|exact Hf]. eapply Rle_lt_trans; [exact CV1|]. apply S1; lra.
  - eapply Rle_lt_trans; [exact CV2|]. apply S2; lra.
  - apply (Gc_int_bnd K r0 r1 (- r1) r1 t0 t1 (p_eval p) B1 Br B2 HK HL' V' PV B0 Y0 v Hv').
Qed.
