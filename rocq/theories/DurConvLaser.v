(** C88 at the level of the laser. *)
From Coquelicot Require Import Coquelicot.
From Verif Require Import PyBase CSum NpFFT NumPy GridModel GridSpec GridProofs LaserSpec GridObs EnergyModel EnergyProofs LaserModel OpticsModel LaserOps
  LaserInv LaserInitProofs AngularProofs HistoryProofs OpticsProofs OpticsProofs2 LaserExamples ConvergeSpec ConvergeProofs ConvergeLaser
  AnalysisModel DurationProofs ZernikeOrtho DurConvSpec DurConvProofs.
Open Scope R_scope.

Lemma dur_close d g a (I J : (R -> R) -> R) kappa eps :
  tread g = Ok a -> (forall j, (j < dim1 a)%nat -> 0 <= cell_volume d g j) ->
  (forall i j, (i < j < dim2 a)%nat -> vget (time_axis g) i < vget (time_axis g) j) ->
  0 < kappa ->
  (forall phi, rsum (dim2 a) (fun k => phi (vget (time_axis g) k) *
     rsum (dim0 a) (fun i => rsum (dim1 a) (fun j => Cnorm2 (at3 a i j k) * cell_volume d g j))) = kappa * J phi) ->
  lin2 I -> 0 < I (fun _ => 1) -> 0 < J (fun _ => 1) ->
  Rabs (sqrt (J (fun t => t ^ 2) / J (fun _ => 1) - (J (fun t => t) / J (fun _ => 1)) ^ 2) -
        sqrt (I (fun t => t ^ 2) / I (fun _ => 1) - (I (fun t => t) / I (fun _ => 1)) ^ 2)) < eps ->
  exists s, snd (get_duration d g) = Ok s /\ Rabs (s - rms_duration I) < eps.
Proof.
  intros Ha HV Ht Hk HJ HI HP HPJ HE.
  destruct (duration_values d g a Ha HV Ht) as (_ & HD). cbv zeta in HD.
  set (w := fun k => rsum (dim0 a) (fun i => rsum (dim1 a) (fun j => Cnorm2 (at3 a i j k) * cell_volume d g j))) in *.
  assert (W0 : rsum (dim2 a) w = kappa * J (fun _ => 1)).
  { rewrite <- HJ. apply rsum_ext. intros k _. unfold w. ring. }
  assert (Wn : rsum (dim2 a) w <> 0) by (rewrite W0; apply Rgt_not_eq, Rmult_lt_0_compat; assumption).
  destruct (HD Wn) as (s & Hs & Hpos & _ & Hv & _). exists s. split; [exact Hs|].
  rewrite (rms_moments I HI) by lra.
  assert (E : s = sqrt (J (fun t => t ^ 2) / J (fun _ => 1) - (J (fun t => t) / J (fun _ => 1)) ^ 2)).
  { rewrite <- (sqrt_pow2 s Hpos). f_equal. etransitivity; [exact Hv|].
    etransitivity; [exact (rms_discrete (dim2 a) (fun k => vget (time_axis g) k) w Wn)|]. cbv beta.
    assert (HJ' : forall phi, rsum (dim2 a) (fun k => phi (vget (time_axis g) k) * w k) = kappa * J phi) by exact HJ.
    rewrite (HJ' (fun t => t ^ 2)), (HJ' (fun t => t)), W0. field. split; lra. }
  rewrite E. exact HE.
Qed.

Lemma coord_lt lo hi n i j : lo < hi -> (2 <= n)%nat -> (i < j)%nat -> coord lo hi n i < coord lo hi n j.
Proof.
  intros H Hn Hij. unfold coord. pose proof (spacing_pos lo hi n H Hn). unfold spacing in *.
  apply Rplus_lt_compat_l. apply lt_INR in Hij. apply Rmult_lt_compat_r; assumption.
Qed.
Lemma factor_pos req e s : positive_request req -> 0 < e -> energy_factor req e s -> 0 < s.
Proof.
  intros Hr He Hf. destruct req as [[E|]|]; cbn [energy_factor positive_request] in *; try lra.
  destruct Hf as (_ & Hf). rewrite (Hf He). apply sqrt_lt_R0, Rdiv_lt_0_compat; assumption.
Qed.
Lemma request_pos_ok req : positive_request req -> energy_request_ok req.
Proof. destruct req as [[E|]|]; simpl; lra || auto. Qed.

Lemma time_coord d lo hi np nm b g g' nt k : grid_init d lo hi np nm b = Ok g -> same_meta g g' ->
  nth_error np (ndims_of d - 1) = Some nt -> (k < nt)%nat -> (0 < ndims_of d)%nat ->
  vget (time_axis g') k = coord (nth (ndims_of d - 1) lo 0) (nth (ndims_of d - 1) hi 0) nt k.
Proof.
  intros H (_&_&_&E4&_) Hn Hk Hd. unfold time_axis. rewrite E4, last_nth.
  destruct (grid_init_axes _ _ _ _ _ _ _ H) as (_ & _ & Hl & _). rewrite Hl.
  apply (axis_coord _ _ _ _ _ _ _ (ndims_of d - 1) nt k H); [lia|exact Hn|exact Hk].
Qed.

Lemma small3 A B C0 d : 0 <= A -> 0 <= B -> 0 <= C0 -> 0 < d -> exists h, 0 < h /\
  forall x y z, 0 < x < h -> 0 < y < h -> 0 < z < h -> A * (x + y + z) < d /\ B * (x + y + z) < d /\ C0 * (x + y + z) < d.
Proof.
  intros HA HB HC Hd. set (S0 := A + B + C0 + 1). exists (d / (3 * S0)).
  assert (PS : 0 < S0) by (unfold S0; lra). split; [apply Rdiv_lt_0_compat; lra|].
  intros x y z Hx Hy Hz. assert (Q : S0 * (x + y + z) < d).
  { replace d with (S0 * (3 * (d / (3 * S0)))) by (field; lra). apply Rmult_lt_compat_l; lra. }
  assert (P : 0 <= x + y + z) by lra. unfold S0 in Q.
  assert (0 <= A * (x + y + z) /\ 0 <= B * (x + y + z) /\ 0 <= C0 * (x + y + z)) by (repeat split; apply Rmult_le_pos; lra). lra.
Qed.

Lemma c88_xyt K lo hi p nm nte :
  let I := moment_xyt (nth 0 lo 0) (nth 0 hi 0) (nth 1 lo 0) (nth 1 hi 0) (nth 2 lo 0) (nth 2 hi 0) (p_eval p) in
  length lo = 3%nat -> length hi = 3%nat ->
  nth 0 lo 0 < nth 0 hi 0 -> nth 1 lo 0 < nth 1 hi 0 -> nth 2 lo 0 < nth 2 hi 0 ->
  positive_request (p_energy p) -> p_dtype p = Complex128 -> 0 <= K ->
  lip_intensity K (nth 0 lo 0) (nth 0 hi 0) (nth 1 lo 0) (nth 1 hi 0) (nth 2 lo 0) (nth 2 hi 0) (p_eval p) ->
  0 < I (fun _ => 1) ->
  forall eps, 0 < eps -> exists N, forall n0 n1 nt, (N <= n0)%nat -> (N <= n1)%nat -> (N <= nt)%nat ->
  exists L s, laser_init Xyt lo hi [n0;n1;nt] p nm nte = Ok L /\
    snd (get_duration Xyt (l_grid L)) = Ok s /\ Rabs (s - rms_duration I) < eps.
Proof.
  intros I0 Hlo Hhi B0 B1 B2 He Hd HK HL HP eps Heps.
  pose proof (moment_xyt_lin K _ _ _ _ _ _ _ B0 B1 B2 HK HL) as HLin. fold I0 in HLin.
  assert (CV : forall phi, poly2 phi -> exists A, 0 <= A /\ forall n0 n1 nt, (2 <= n0)%nat -> (2 <= n1)%nat -> (2 <= nt)%nat ->
    Rabs (riem3 (fun x y t => phi t * Cnorm2 (p_eval p x y t)) (nth 0 lo 0) (nth 0 hi 0) (nth 1 lo 0) (nth 1 hi 0) (nth 2 lo 0) (nth 2 hi 0) n0 n1 nt - I0 phi)
    <= A * (spacing (nth 0 lo 0) (nth 0 hi 0) n0 + spacing (nth 1 lo 0) (nth 1 hi 0) n1 + spacing (nth 2 lo 0) (nth 2 hi 0) nt)).
  { intros phi Hphi. destruct (lip3_mul K _ _ _ _ _ _ _ phi B0 B1 B2 HK (lipI_3 _ _ _ _ _ _ _ _ HL) Hphi) as (K1 & P1 & L1).
    apply (riem3_RInt3 K1 _ _ _ _ _ _ _ B0 B1 B2 P1 L1). }
  destruct (CV _ poly2_1) as (A0 & PA0 & C0). destruct (CV _ poly2_t) as (A1 & PA1 & C1). destruct (CV _ poly2_t2) as (A2 & PA2 & C2).
  destruct (std_cont (I0 (fun _ => 1)) (I0 (fun t => t)) (I0 (fun t => t ^ 2)) HP eps Heps) as (d & Hdp & HD).
  destruct (small3 A0 A1 A2 d PA0 PA1 PA2 Hdp) as (h & Hh & HS).
  destruct (spacing_small _ _ h B0 Hh) as (M0 & Q0 & S0). destruct (spacing_small _ _ h B1 Hh) as (M1 & Q1 & S1).
  destruct (spacing_small _ _ h B2 Hh) as (M2 & Q2 & S2).
  exists (M0 + M1 + M2)%nat. intros n0 n1 nt N0 N1 N2.
  pose proof (request_pos_ok _ He) as HR.
  destruct (xyt_construct_ok lo hi n0 n1 nt p nm nte Hlo Hhi ltac:(lia) ltac:(lia) ltac:(lia) B0 B1 B2 HR Hd) as (L & HI).
  destruct (xyt_samples lo hi n0 n1 nt p nm nte L HI B0 B1 B2 HR) as (a & s & Ha & Hsh & _ & Hs & Hf).
  destruct (laser_init_Inv _ _ _ _ _ _ _ _ HI) as (g & m0 & m1 & mt & Hg & HM & _).
  specialize (C0 n0 n1 nt ltac:(lia) ltac:(lia) ltac:(lia)). specialize (C1 n0 n1 nt ltac:(lia) ltac:(lia) ltac:(lia)).
  specialize (C2 n0 n1 nt ltac:(lia) ltac:(lia) ltac:(lia)).
  specialize (S0 n0 ltac:(lia)). specialize (S1 n1 ltac:(lia)). specialize (S2 nt ltac:(lia)).
  pose proof (spacing_pos _ _ n0 B0 ltac:(lia)) as T0. pose proof (spacing_pos _ _ n1 B1 ltac:(lia)) as T1.
  pose proof (spacing_pos _ _ nt B2 ltac:(lia)) as T2.
  destruct (HS _ _ _ (conj T0 S0) (conj T1 S1) (conj T2 S2)) as (R0 & R1 & R2).
  set (J := fun phi : R -> R => riem3 (fun x y t => phi t * Cnorm2 (p_eval p x y t)) (nth 0 lo 0) (nth 0 hi 0) (nth 1 lo 0) (nth 1 hi 0) (nth 2 lo 0) (nth 2 hi 0) n0 n1 nt).
  destruct (HD (J (fun _ => 1)) (J (fun t => t)) (J (fun t => t ^ 2))
     (Rle_lt_trans _ _ _ C0 R0) (Rle_lt_trans _ _ _ C1 R1) (Rle_lt_trans _ _ _ C2 R2)) as (PJ & HDiff).
  assert (Es : 0 < s).
  { apply (factor_pos _ _ _ He) with (2 := Hf). rewrite E_xyt_riem. pose proof eps0_pos. pose proof c_light_pos.
    apply Rmult_lt_0_compat; [apply Rmult_lt_0_compat; lra|]. replace (riem3 _ _ _ _ _ _ _ _ _ _) with (J (fun _ => 1)); [exact PJ|].
    unfold J, riem3, riem2, riem. f_equal. apply rsum_ext. intros i _. f_equal. apply rsum_ext. intros j _. f_equal. apply rsum_ext. intros k _. ring. }
  assert (D0 : dim0 a = n0) by (unfold dim0; rewrite Hsh; reflexivity).
  assert (D1 : dim1 a = n1) by (unfold dim1; rewrite Hsh; reflexivity).
  assert (D2 : dim2 a = nt) by (unfold dim2; rewrite Hsh; reflexivity).
  assert (HV : forall j, cell_volume Xyt (l_grid L) j =
     spacing (nth 0 lo 0) (nth 0 hi 0) n0 * spacing (nth 1 lo 0) (nth 1 hi 0) n1 * (spacing (nth 2 lo 0) (nth 2 hi 0) nt * c_light)).
  { intros j. destruct HM as (_&_&_&_&E5&_). unfold cell_volume, cell_volume_xyt, lastR. rewrite E5.
    assert (Hl : length (g_dx g) = 3%nat) by (destruct (grid_init_axes _ _ _ _ _ _ _ Hg) as (_ & _ & _ & Hl & _); exact Hl).
    rewrite last_nth, Hl; unfold vget; change (3 - 1)%nat with 2%nat.
    rewrite (dx_spacing _ _ _ _ _ _ _ 0 n0 Hg), (dx_spacing _ _ _ _ _ _ _ 1 n1 Hg),
          (dx_spacing _ _ _ _ _ _ _ 2 nt Hg) by (simpl; try lia; reflexivity). reflexivity. }
  assert (HT : forall k, (k < nt)%nat -> vget (time_axis (l_grid L)) k = coord (nth 2 lo 0) (nth 2 hi 0) nt k).
  { intros k Hk. apply (time_coord Xyt lo hi [n0;n1;nt] _ _ g _ nt k Hg HM); [reflexivity|exact Hk|simpl; lia]. }
  pose proof c_light_pos as Pc.
  destruct (dur_close Xyt (l_grid L) a I0 J (s ^ 2 * c_light) eps Ha) as (s' & Hs' & HC); try assumption.
  - intros j _. rewrite HV. left. apply Rmult_lt_0_compat; apply Rmult_lt_0_compat; assumption.
  - rewrite D2. intros i j Hij. rewrite !HT by lia. apply coord_lt; [exact B2|lia|lia].
  - apply Rmult_lt_0_compat; [|exact Pc]. apply pow_lt, Es.
  - intros phi. rewrite D0, D1, D2.
    rewrite (rsum_ext nt _ (fun k => rsum n0 (fun i => rsum n1 (fun j => s ^ 2 * c_light * spacing (nth 0 lo 0) (nth 0 hi 0) n0 *
        spacing (nth 1 lo 0) (nth 1 hi 0) n1 * spacing (nth 2 lo 0) (nth 2 hi 0) nt * (phi (coord (nth 2 lo 0) (nth 2 hi 0) nt k) *
        Cnorm2 (p_eval p (coord (nth 0 lo 0) (nth 0 hi 0) n0 i) (coord (nth 1 lo 0) (nth 1 hi 0) n1 j) (coord (nth 2 lo 0) (nth 2 hi 0) nt k))))))).
    2:{ intros k Hk. rewrite HT by exact Hk. rewrite <- rsum_scal_l. apply rsum_ext. intros i Hi. rewrite <- rsum_scal_l. apply rsum_ext. intros j Hj.
        rewrite Hs by assumption. rewrite Cnorm2_mult, HV. replace (Cnorm2 (RtoC s)) with (s ^ 2) by (unfold Cnorm2; simpl; ring). ring. }
    unfold J, riem3, riem2, riem. rewrite rsum_swap.
    rewrite <- !rsum_scal_l. apply rsum_ext. intros i _. rewrite rsum_swap. rewrite <- !rsum_scal_l. apply rsum_ext. intros j _.
    rewrite <- !rsum_scal_l. apply rsum_ext. intros k _. ring.
  - exists L, s'. auto.
Qed.

Lemma c88_rt K lo hi p (M : nat) nte (A : Z -> R -> R -> C) :
  let I := moment_rt (nth 0 lo 0) (nth 0 hi 0) (nth 1 lo 0) (nth 1 hi 0) (p_eval p) in
  length lo = 2%nat -> length hi = 2%nat -> (1 <= M)%nat ->
  0 <= nth 0 lo 0 -> nth 0 lo 0 < nth 0 hi 0 -> nth 1 lo 0 < nth 1 hi 0 ->
  positive_request (p_energy p) -> 0 <= K ->
  lip_intensity K (- nth 0 hi 0) (nth 0 hi 0) (- nth 0 hi 0) (nth 0 hi 0) (nth 1 lo 0) (nth 1 hi 0) (p_eval p) ->
  (forall r t theta, p_eval p (r * cos theta) (r * sin theta) t = recon M (fun m => A m r t) theta) ->
  (2 * Z.of_nat M - 1 <= match nte with None => 2 * Z.of_nat M - 1 | Some n => n end)%Z ->
  0 < I (fun _ => 1) ->
  forall eps, 0 < eps -> exists N, forall n1 nt, (N <= n1)%nat -> (N <= nt)%nat ->
  exists L s, laser_init Rt lo hi [n1;nt] p (Z.of_nat M) nte = Ok L /\
    snd (get_duration Rt (l_grid L)) = Ok s /\ Rabs (s - rms_duration I) < eps.
Proof.
  intros I0 Hlo Hhi HM B0 B1 B2 He HK HL HA Hn HP eps Heps.
  set (r0 := nth 0 lo 0) in *. set (r1 := nth 0 hi 0) in *. set (t0 := nth 1 lo 0) in *. set (t1 := nth 1 hi 0) in *.
  pose proof (moment_rt_lin K r0 r1 t0 t1 M _ A B0 B1 B2 HK HM HL HA) as HLin. fold I0 in HLin.
  destruct (Grt_lip K r0 r1 t0 t1 M _ A B0 B1 B2 HK HM HL HA) as (KG & PG & LG).
  assert (CV : forall phi, poly2 phi -> exists A, 0 <= A /\ forall n1 nt, (2 <= n1)%nat -> (2 <= nt)%nat ->
    Rabs (riem2 (fun r t => phi t * Grt (p_eval p) r t) r0 r1 t0 t1 n1 nt - I0 phi)
    <= A * (spacing r0 r1 n1 + spacing t0 t1 nt)).
  { intros phi Hphi. destruct (lip2_mul KG r0 r1 t0 t1 _ phi B1 B2 PG LG Hphi) as (K1 & P1 & L1).
    apply (riem2_conv K1 _ _ _ _ _ B1 B2 P1 L1). }
  destruct (CV _ poly2_1) as (A0 & PA0 & C0). destruct (CV _ poly2_t) as (A1 & PA1 & C1). destruct (CV _ poly2_t2) as (A2 & PA2 & C2).
  destruct (std_cont (I0 (fun _ => 1)) (I0 (fun t => t)) (I0 (fun t => t ^ 2)) HP eps Heps) as (d & Hdp & HD).
  destruct (small3 A0 A1 A2 d PA0 PA1 PA2 Hdp) as (h & Hh & HS).
  destruct (spacing_small _ _ h B1 Hh) as (M1 & Q1 & S1).
  destruct (spacing_small _ _ h B2 Hh) as (M2 & Q2 & S2).
  exists (M1 + M2)%nat. intros n1 nt N1 N2.
  pose proof (request_pos_ok _ He) as HR.
  destruct (rt_construct_ok lo hi [n1;nt] n1 nt p M nte Hlo Hhi eq_refl eq_refl ltac:(lia) ltac:(lia) HM B0 B1 B2 HR Hn) as (L & HI).
  destruct (rt_factor lo hi [n1;nt] n1 nt p M nte L A HI HM eq_refl eq_refl B0 B1 B2 HR HA Hn) as (a & s & Ha & Hs & Hf).
  destruct (c13_rt id_solvers lo hi [n1;nt] n1 nt p M nte L [] a HI ltac:(constructor) eq_refl eq_refl Ha) as (_ & Hsh & _).
  destruct (laser_init_Inv _ _ _ _ _ _ _ _ HI) as (g & m0 & m1 & mt & Hg & HMt & _).
  fold r0 r1 t0 t1 in Hs, Hf.
  specialize (C0 n1 nt ltac:(lia) ltac:(lia)). specialize (C1 n1 nt ltac:(lia) ltac:(lia)).
  specialize (C2 n1 nt ltac:(lia) ltac:(lia)).
  specialize (S1 n1 ltac:(lia)). specialize (S2 nt ltac:(lia)).
  pose proof (spacing_pos _ _ n1 B1 ltac:(lia)) as T1.
  pose proof (spacing_pos _ _ nt B2 ltac:(lia)) as T2.
  assert (T0 : 0 < spacing r0 r1 n1 / 2 /\ spacing r0 r1 n1 / 2 < h) by (split; lra).
  assert (T0' : 0 < h / 2 < h) by lra.
  assert (RR : A0 * (spacing r0 r1 n1 + spacing t0 t1 nt) < d /\ A1 * (spacing r0 r1 n1 + spacing t0 t1 nt) < d /\ A2 * (spacing r0 r1 n1 + spacing t0 t1 nt) < d).
  { destruct (HS _ _ _ T0' (conj T1 S1) (conj T2 S2)) as (R0 & R1 & R2).
    assert (0 <= A0 * (h / 2) /\ 0 <= A1 * (h / 2) /\ 0 <= A2 * (h / 2)) by (repeat split; apply Rmult_le_pos; lra). lra. }
  destruct RR as (R0 & R1 & R2).
  set (J := fun phi : R -> R => riem2 (fun r t => phi t * Grt (p_eval p) r t) r0 r1 t0 t1 n1 nt).
  destruct (HD (J (fun _ => 1)) (J (fun t => t)) (J (fun t => t ^ 2))
     (Rle_lt_trans _ _ _ C0 R0) (Rle_lt_trans _ _ _ C1 R1) (Rle_lt_trans _ _ _ C2 R2)) as (PJ & HDiff).
  assert (GM : forall r t, Grt (p_eval p) r t = 2 * PI * rsum (2 * M - 1) (fun q => Cnorm2 (A (Z.of_nat q - (Z.of_nat M - 1))%Z r t)) * r).
  { intros r t. unfold Grt. rewrite (is_RInt_unique _ _ _ _ (Grt_modes M (p_eval p) A HM HA r t)). reflexivity. }
  pose proof eps0_pos as Pe. pose proof c_light_pos as Pc.
  assert (Es : 0 < s).
  { apply (factor_pos _ _ _ He) with (2 := Hf).
    replace (E_rt _ _ _ _ _ _) with (eps0 / 2 * c_light * J (fun _ => 1)).
    { apply Rmult_lt_0_compat; [apply Rmult_lt_0_compat; lra|exact PJ]. }
    unfold E_rt, rsum3. fold r0 r1 t0 t1. rewrite Rmult_assoc. f_equal. unfold J, riem2, riem.
    rewrite <- !rsum_scal_l. symmetry. rewrite rsum_swap. apply rsum_ext. intros j _.
    rewrite rsum_swap, <- !rsum_scal_l. apply rsum_ext. intros k _. rewrite GM, rsum_scal_l. ring. }
  assert (D0 : dim0 a = (2 * M - 1)%nat) by (unfold dim0; rewrite Hsh; reflexivity).
  assert (D1 : dim1 a = n1) by (unfold dim1; rewrite Hsh; reflexivity).
  assert (D2 : dim2 a = nt) by (unfold dim2; rewrite Hsh; reflexivity).
  assert (HV : forall j, (j < n1)%nat -> cell_volume Rt (l_grid L) j =
     2 * PI * coord r0 r1 n1 j * spacing r0 r1 n1 * (spacing t0 t1 nt * c_light)).
  { intros j Hj. destruct HMt as (_&_&_&E4&E5&_). unfold cell_volume. rewrite cell_volume_rt_eq. unfold lastR. rewrite E4, E5.
    assert (Hl : length (g_dx g) = 2%nat) by (destruct (grid_init_axes _ _ _ _ _ _ _ Hg) as (_ & _ & _ & Hl & _); exact Hl).
    rewrite last_nth, Hl; unfold vget at 2; change (2 - 1)%nat with 1%nat.
    rewrite (dx_spacing _ _ _ _ _ _ _ 0 n1 Hg), (dx_spacing _ _ _ _ _ _ _ 1 nt Hg) by (simpl; try lia; reflexivity).
    change (vget (nth 0 (g_axes g) []) j) with (axis_at g 0 j).
    rewrite (axis_coord _ _ _ _ _ _ _ 0 n1 j Hg) by (simpl; try lia; reflexivity || assumption). reflexivity. }
  assert (HT : forall k, (k < nt)%nat -> vget (time_axis (l_grid L)) k = coord t0 t1 nt k).
  { intros k Hk. apply (time_coord Rt lo hi [n1;nt] _ _ g _ nt k Hg HMt); [reflexivity|exact Hk|simpl; lia]. }
  pose proof PI_RGT_0 as Ppi.
  destruct (dur_close Rt (l_grid L) a I0 J (s ^ 2 * c_light) eps Ha) as (s' & Hs' & HC); try assumption.
  - intros j Hj. rewrite D1 in Hj. rewrite HV by exact Hj. destruct (coord_in r0 r1 n1 j B1 ltac:(lia) Hj) as (Q & _).
    set (h1 := spacing r0 r1 n1) in *. set (h2 := spacing t0 t1 nt) in *.
    assert (0 <= 2 * PI) by lra. assert (0 <= coord r0 r1 n1 j) by lra. assert (0 <= h1) by lra. assert (0 <= h2) by lra.
    assert (0 <= c_light) by lra. apply Rmult_le_pos; [apply Rmult_le_pos; [apply Rmult_le_pos|]|apply Rmult_le_pos]; assumption.
  - rewrite D2. intros i j Hij. rewrite !HT by lia. apply coord_lt; [exact B2|lia|lia].
  - apply Rmult_lt_0_compat; [|exact Pc]. apply pow_lt, Es.
  - intros phi. rewrite D0, D1, D2.
    rewrite (rsum_ext nt _ (fun k => rsum n1 (fun j => s ^ 2 * c_light * spacing r0 r1 n1 * spacing t0 t1 nt *
        (phi (coord t0 t1 nt k) * Grt (p_eval p) (coord r0 r1 n1 j) (coord t0 t1 nt k))))).
    2:{ intros k Hk. rewrite HT by exact Hk. rewrite <- rsum_scal_l, (rsum_slots M _ HM).
        rewrite (rsum_ext (2 * M - 1) _ (fun q => rsum n1 (fun j => s ^ 2 * c_light * spacing r0 r1 n1 * spacing t0 t1 nt * phi (coord t0 t1 nt k) *
          (2 * PI * coord r0 r1 n1 j) * Cnorm2 (A (Z.of_nat q - (Z.of_nat M - 1))%Z (coord r0 r1 n1 j) (coord t0 t1 nt k))))).
        { rewrite rsum_swap. apply rsum_ext. intros j Hj. rewrite rsum_scal_l, GM. ring. }
        intros q Hq. rewrite <- rsum_scal_l. apply rsum_ext. intros j Hj.
        rewrite Hs by (try assumption; lia). rewrite Cnorm2_mult, HV by exact Hj.
        replace (Cnorm2 (RtoC s)) with (s ^ 2) by (unfold Cnorm2; simpl; ring). ring. }
    unfold J, riem2, riem. rewrite rsum_swap.
    rewrite <- !rsum_scal_l. apply rsum_ext. intros j _. rewrite <- !rsum_scal_l. apply rsum_ext. intros k _. ring.
  - exists L, s'. auto.
Qed.
