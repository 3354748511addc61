(** Effect of spectral phases in the time domain: delays and group delays. *)
From Verif Require EnergyProofs.
From Verif Require Import PyBase CSum NpFFT FFTProofs NumPy NpMath NpMathProofs GridModel GridSpec GridProofs LaserSpec GridObs
  EnergyModel LaserModel OpticsModel LaserOps LaserInv LaserInitProofs LaserStepProofs HistoryProofs OpticsProofs OpticsProofs2.
Open Scope R_scope.

Lemma reachable_axes S L : reachable S L -> exists n0 n1 nt t0 dt, Inv L n0 n1 nt /\ (2 <= nt)%nat /\
  (forall k, (k < nt)%nat -> vget (time_axis (l_grid L)) k = t0 + INR k * dt) /\
  (forall k, (k < nt)%nat -> vget (l_omega L) k = p_omega0 (l_prof L) + dft_omega nt dt k).
Proof.
  intros (d & lo & hi & np & p & nm & nte & L0 & h & Hi & Hu & Hc & ->).
  destruct (laser_init_Inv _ _ _ _ _ _ _ _ Hi) as (g & n0 & n1 & nt & Hg & Hm & D1 & D2 & D3 & _ & _ & Hn & GS & HI).
  destruct (run_clean_inv S L0 n0 n1 nt h HI Hu Hc) as (m0 & m1 & HI' & E1 & E2 & E3).
  assert (Hd : d = Rt \/ d = Xyt) by (rewrite <- D1; apply (i_dim _ _ _ _ HI)).
  assert (Hq : (ndims_of d - 1 < ndims_of d)%nat) by (destruct Hd as [-> | ->]; cbn; lia).
  exists m0, m1, nt, (nth (ndims_of d - 1) lo 0 + travelled S L0 h / c_light), (spacing (nth (ndims_of d - 1) lo 0) (nth (ndims_of d - 1) hi 0) nt).
  split; [exact HI'|].
  destruct (grid_init_axes _ _ _ _ _ _ _ Hg) as (_ & _ & La & _ & Hax).
  destruct (Hax _ Hq) as (n' & Hn' & HL & _). rewrite Hn in Hn'. injection Hn' as <-. cbn zeta in HL.
  assert (H2 : (2 <= nt)%nat).
  { destruct (proj1 (grid_init_ok_iff d lo hi np (Some nm) true) (ex_intro _ g Hg)) as (_ & _ & _ & H & _). destruct (H _ Hq) as (n & Hn2 & H2). rewrite Hn in Hn2. injection Hn2 as <-. exact H2. }
  split; [exact H2|]. split.
  - intros k Hk. pose proof (run_tinfo S L0 h) as HT. unfold tinfo, tshift in HT. cbn [fst snd] in HT.
    assert (HT' : time_axis (l_grid (lrun S L0 h)) = map (fun t => t + travelled S L0 h / c_light) (time_axis (l_grid L0))) by congruence.
    rewrite HT'.
    assert (HA : time_axis (l_grid L0) = nth (ndims_of d - 1) (g_axes g) []).
    { destruct Hm as (_&_&_&E4&_). unfold time_axis. rewrite E4. destruct Hd as [-> | ->]; cbn [ndims_of] in La |- *;
      destruct (g_axes g) as [|x [|y [|z [|? ?]]]]; try discriminate; reflexivity. }
    rewrite HA. unfold vget. set (ff := fun t => t + travelled S L0 h / c_light).
    rewrite (nth_indep _ 0 (ff 0)) by (rewrite map_length, HL; exact Hk). rewrite map_nth. unfold ff.
    pose proof (axis_coord _ _ _ _ _ _ _ _ _ _ Hg Hq Hn Hk) as HC. unfold axis_at, vget in HC. rewrite HC. unfold coord, spacing. ring.
  - intros k Hk. rewrite (run_omega S d lo hi np p nm nte L0 h Hi Hu Hc nt k Hn Hk), E3, D2. reflexivity.
Qed.

Lemma dft_cis nt dt k z : dt <> 0 -> (k < nt)%nat ->
  cis (dft_omega nt dt k * (IZR z * dt)) = cis (2 * PI * (INR k * IZR z) / INR nt).
Proof.
  intros Hd Hk. assert (HN : INR nt <> 0) by (apply INR_neq0; lia). unfold dft_omega.
  destruct (Nat.ltb k (S ((nt - 1) / 2))).
  - f_equal. field. tauto.
  - rewrite <- (cis_period (2 * PI * (INR k * IZR z) / INR nt) (- z)). f_equal. rewrite opp_IZR. field. tauto.
Qed.

Lemma c81_delay S L o n a : reachable S L -> snd (get_temporal_field (l_grid L)) = Ok a ->
  let t := fun k => nth k (last (g_axes (l_grid L)) []) 0 in
  t 0%nat < t 1%nat ->
  (forall x y w w0, o x y w w0 = cis (IZR n * (t 1%nat - t 0%nat) * (w - w0))) ->
  exists L' a', apply_optics L o = (L', Ok tt) /\ snd (get_temporal_field (l_grid L')) = Ok a' /\ shp a' = shp a /\
    forall i j k, inb a i j k -> at3 a' i j k = at3 a i j (Z.to_nat ((Z.of_nat k - n) mod Z.of_nat (dim2 a))).
Proof.
  intros HR Ha t Ht Ho. destruct (reachable_axes S L HR) as (n0 & n1 & nt & t0 & dt & HI & H2 & Hax & Hom).
  pose proof (i_coh _ _ _ _ HI) as HG. destruct (tread_sread_ok _ _ (proj1 HG) Ha) as (s & Hs).
  destruct (optics_inv L o _ _ _ s HI Hs) as (L1 & s1 & A1 & A2 & A3 & A4 & A5 & A6 & A7).
  destruct (i_read _ _ _ _ A2) as (a1 & T1). exists L1, a1.
  assert (E0 : t 0%nat = t0) by (pose proof (Hax 0%nat ltac:(lia)) as H; unfold vget, time_axis in H; unfold t; rewrite H; cbn [INR]; ring).
  assert (E1 : t 1%nat - t 0%nat = dt).
  { pose proof (Hax 1%nat ltac:(lia)) as H; unfold vget, time_axis in H. rewrite E0; unfold t; rewrite H; cbn [INR]; ring. }
  rewrite E1 in Ho. assert (Hdt : dt <> 0) by lra.
  pose proof (reads_dft _ _ _ HG Ha Hs) as R0. pose proof (reads_dft _ _ _ (i_coh _ _ _ _ A2) T1 A4) as R1.
  destruct R0 as (S0 & _ & V0). destruct R1 as (S1 & _ & V1). cbn [np_fft_last shp] in S0, S1.
  split; [exact A1|]. split; [exact T1|]. split; [congruence|].
  assert (Dn : dim2 s = nt) by (unfold dim2; rewrite A6; reflexivity).
  assert (Dn1 : dim2 s1 = nt) by (unfold dim2; rewrite A5, A6; reflexivity).
  assert (Dna : dim2 a = nt) by (unfold dim2; rewrite S0, A6; reflexivity).
  intros i j k Hin. pose proof Hin as (Hi & Hj & Hk).
  rewrite V1 by (unfold inb, dim0, dim1, dim2 in *; rewrite S1, A5, <- S0; tauto).
  set (q := Z.to_nat _). assert (Hq : (q < nt)%nat).
  { unfold q. rewrite Dna. pose proof (Z.mod_pos_bound (Z.of_nat k - n) (Z.of_nat nt) ltac:(lia)). lia. }
  rewrite V0 by (unfold inb; rewrite Dna; tauto). cbn [np_fft_last at3]. rewrite Dn, Dn1. unfold fft1. apply csum_ext.
  intros m Hm. rewrite A7. rewrite <- Cmult_assoc. f_equal.
  assert (OF : optic_factor L o i j m = cis (dft_omega nt dt m * (IZR n * dt))).
  { unfold optic_factor. destruct (l_dim L); rewrite Ho, Hom by exact Hm; f_equal; ring. }
  rewrite OF, dft_cis by assumption. rewrite <- cis_plus.
  assert (HN : INR nt <> 0) by (apply INR_neq0; lia).
  set (zd := ((Z.of_nat k - n) / Z.of_nat nt)%Z).
  assert (EQ : INR q = INR k - IZR n - INR nt * IZR zd).
  { unfold q. rewrite Dna. rewrite INR_IZR_INZ, Z2Nat.id by (apply Z.mod_pos_bound; lia). rewrite Z.mod_eq by lia.
    rewrite !minus_IZR, mult_IZR, <- !INR_IZR_INZ. unfold zd. reflexivity. }
  rewrite <- (cis_period (2 * PI * (INR m * IZR n) / INR nt + - (2 * PI * (INR m * INR k) / INR nt)) (Z.of_nat m * zd)). f_equal.
  rewrite EQ, mult_IZR, <- INR_IZR_INZ. field. exact HN.
Qed.

(** ** Two spectral lines *)
Lemma csum_two n f p q : (p < n)%nat -> (q < n)%nat -> p <> q ->
  (forall k, (k < n)%nat -> k <> p -> k <> q -> f k = RtoC 0) -> csum n f = Cplus (f p) (f q).
Proof.
  intros Hp Hq Hpq Hz.
  rewrite (csum_ext n f (fun k => Cplus (if Nat.eqb k p then f p else RtoC 0) (if Nat.eqb k q then f q else RtoC 0))).
  - rewrite csum_plus. f_equal.
    + rewrite (csum_single n _ p Hp); [rewrite Nat.eqb_refl; reflexivity|]. intros i _ Hi. apply Nat.eqb_neq in Hi. rewrite Hi. reflexivity.
    + rewrite (csum_single n _ q Hq); [rewrite Nat.eqb_refl; reflexivity|]. intros i _ Hi. apply Nat.eqb_neq in Hi. rewrite Hi. reflexivity.
  - intros k Hk. destruct (Nat.eqb_spec k p) as [Ep | Ep]; destruct (Nat.eqb_spec k q) as [Eq | Eq]; try lia.
    + subst k. ring.
    + subst k. ring.
    + rewrite (Hz k Hk Ep Eq). ring.
Qed.
Lemma beat r1 r2 x y : Cmod (Cplus (Cmult (RtoC r1) (cis x)) (Cmult (RtoC r2) (cis y))) ^ 2 = r1 ^ 2 + r2 ^ 2 + 2 * r1 * r2 * cos (x - y).
Proof.
  rewrite EnergyProofs.Cmod_sq. rewrite cos_minus. unfold Cnorm2, Cplus, Cmult, RtoC, cis, Re, Im. cbn [fst snd].
  pose proof (sin2_cos2 x) as Hx. pose proof (sin2_cos2 y) as Hy. unfold Rsqr in *.
  transitivity (r1 ^ 2 * (sin x * sin x + cos x * cos x) + r2 ^ 2 * (sin y * sin y + cos y * cos y) + 2 * r1 * r2 * (cos x * cos y + sin x * sin y)); [ring|].
  rewrite Hx, Hy. ring.
Qed.
Lemma cos_mod a b : cis a = cis b -> forall c, cos (a + c) = cos (b + c).
Proof. intros H c. destruct (cis_inj a b H) as (z & ->). replace (b + 2 * PI * IZR z + c) with (b + c + 2 * PI * IZR z) by ring.
  assert (E := cis_period (b + c) z). unfold cis in E. injection E as E _. exact E. Qed.

Lemma c81_group_delay S L gdd tod fod a s i j p q : reachable S L ->
  snd (get_temporal_field (l_grid L)) = Ok a -> snd (get_spectral_field (l_grid L)) = Ok s ->
  (i < dim0 s)%nat -> (j < dim1 s)%nat -> (p < dim2 s)%nat -> (q < dim2 s)%nat -> p <> q ->
  (forall k, (k < dim2 s)%nat -> k <> p -> k <> q -> at3 s i j k = RtoC 0) ->
  let t := fun k => nth k (last (g_axes (l_grid L)) []) 0 in
  t 0%nat < t 1%nat ->
  let w := fun k => nth k (l_omega L) 0 in
  let u := (w p + w q) / 2 - p_omega0 (l_prof L) in
  let D := w p - w q in
  let delay := gdd * u + tod / 2 * (u ^ 2 + D ^ 2 / 12) + fod / 6 * (u ^ 3 + u * D ^ 2 / 4) in
  let I := fun th x => Cmod (at3 s i j p) ^ 2 + Cmod (at3 s i j q) ^ 2 + 2 * Cmod (at3 s i j p) * Cmod (at3 s i j q) * cos (D * x - th) in
  exists L' a' th, apply_optics L (polynomial_spectral_phase gdd tod fod) = (L', Ok tt) /\
    snd (get_temporal_field (l_grid L')) = Ok a' /\
    forall k, (k < dim2 a)%nat -> Cmod (at3 a i j k) ^ 2 = I th (t k) /\ Cmod (at3 a' i j k) ^ 2 = I th (t k - delay).
Proof.
  intros HR Ha Hs Hi Hj Hp Hq Hpq Hz t Ht w u D delay I.
  destruct (reachable_axes S L HR) as (n0 & n1 & nt & t0 & dt & HI & H2 & Hax & Hom).
  pose proof (i_coh _ _ _ _ HI) as HG.
  destruct (optics_inv L (polynomial_spectral_phase gdd tod fod) _ _ _ s HI Hs) as (L1 & s1 & A1 & A2 & A3 & A4 & A5 & A6 & A7).
  destruct (i_read _ _ _ _ A2) as (a1 & T1).
  assert (Dn : dim2 s = nt) by (unfold dim2; rewrite A6; reflexivity).
  assert (E0 : t 0%nat = t0) by (pose proof (Hax 0%nat ltac:(lia)) as H; unfold vget, time_axis in H; unfold t; rewrite H; cbn [INR]; ring).
  assert (E1 : t 1%nat - t 0%nat = dt).
  { pose proof (Hax 1%nat ltac:(lia)) as H; unfold vget, time_axis in H. rewrite E0; unfold t; rewrite H; cbn [INR]; ring. }
  assert (Hdt : dt <> 0) by lra.
  pose proof (reads_dft _ _ _ HG Ha Hs) as R0. pose proof (reads_dft _ _ _ (i_coh _ _ _ _ A2) T1 A4) as R1.
  destruct R0 as (S0 & _ & V0). destruct R1 as (S1 & _ & V1). cbn [np_fft_last shp] in S0, S1.
  assert (Dn1 : dim2 s1 = nt) by (unfold dim2; rewrite A5, A6; reflexivity).
  assert (Dna : dim2 a = nt) by (unfold dim2; rewrite S0, A6; reflexivity).
  assert (HN : INR nt <> 0) by (apply INR_neq0; lia).
  set (th := D * t0 + angle (at3 s i j p) - angle (at3 s i j q)).
  exists L1, a1, th. split; [exact A1|]. split; [exact T1|].
  assert (Wp : w p = p_omega0 (l_prof L) + dft_omega nt dt p) by (apply Hom; lia).
  assert (Wq : w q = p_omega0 (l_prof L) + dft_omega nt dt q) by (apply Hom; lia).
  set (phi := fun k => gdd / 2 * (w k - p_omega0 (l_prof L)) ^ 2 + tod / 6 * (w k - p_omega0 (l_prof L)) ^ 3 + fod / 24 * (w k - p_omega0 (l_prof L)) ^ 4).
  assert (OF : forall k, optic_factor L (polynomial_spectral_phase gdd tod fod) i j k = cis (phi k)).
  { intros k. unfold optic_factor, polynomial_spectral_phase, phi, w, vget. destruct (l_dim L); reflexivity. }
  assert (HD : phi p - phi q = D * delay) by (unfold phi, delay, u, D; field).
  intros k Hk. rewrite Dna in Hk.
  assert (GEN : forall x y de, x - y = D * de ->
    Cmod (Cplus (Cmult (Cmult (at3 s i j p) (cis x)) (cis (- (2 * PI * (INR p * INR k) / INR nt))))
                (Cmult (Cmult (at3 s i j q) (cis y)) (cis (- (2 * PI * (INR q * INR k) / INR nt))))) ^ 2 = I th (t k - de)).
  { intros x y de Hxy.
    pose proof (angle_polar (at3 s i j p)) as Pp. pose proof (angle_polar (at3 s i j q)) as Pq. unfold I.
    set (rp := Cmod (at3 s i j p)) in *. set (rq := Cmod (at3 s i j q)) in *.
    rewrite <- Pp, <- Pq. rewrite <- !Cmult_assoc, <- !cis_plus. rewrite beat. f_equal. f_equal.
    assert (Tk : t k = t0 + INR k * dt) by (apply Hax; exact Hk). rewrite Tk.
    (* reduce the DFT kernel to the frequencies *)
    assert (EK : cis (2 * PI * (INR q * INR k) / INR nt - 2 * PI * (INR p * INR k) / INR nt) = cis (- (D * (INR k * dt)))).
    { unfold D. rewrite Wp, Wq. replace (- ((p_omega0 (l_prof L) + dft_omega nt dt p - (p_omega0 (l_prof L) + dft_omega nt dt q)) * (INR k * dt)))
        with (dft_omega nt dt q * (IZR (Z.of_nat k) * dt) + dft_omega nt dt p * (IZR (- Z.of_nat k) * dt)) by (rewrite opp_IZR, <- INR_IZR_INZ; ring).
      rewrite (cis_plus (_ * _)), !dft_cis by lia || exact Hdt. rewrite <- cis_plus. f_equal. rewrite opp_IZR, <- INR_IZR_INZ. field. exact HN. }
    replace (angle (at3 s i j p) + (x + - (2 * PI * (INR p * INR k) / INR nt)) - (angle (at3 s i j q) + (y + - (2 * PI * (INR q * INR k) / INR nt))))
      with ((2 * PI * (INR q * INR k) / INR nt - 2 * PI * (INR p * INR k) / INR nt) + (angle (at3 s i j p) - angle (at3 s i j q) + (x - y))) by ring.
    rewrite (cos_mod _ _ EK). rewrite Hxy. rewrite <- cos_neg. f_equal. unfold th. ring. }
  assert (D0 : dim0 s = n0) by (unfold dim0; rewrite A6; reflexivity).
  assert (D1 : dim1 s = n1) by (unfold dim1; rewrite A6; reflexivity).
  assert (IN : inb a i j k) by (unfold inb, dim0, dim1, dim2; rewrite S0, A6; cbn [nth]; lia).
  assert (IN1 : inb a1 i j k) by (unfold inb, dim0, dim1, dim2; rewrite S1, A5, A6; cbn [nth]; lia).
  split.
  - rewrite V0 by exact IN. cbn [np_fft_last at3]. rewrite Dn. unfold fft1.
    rewrite (csum_two nt _ p q); try lia.
    2:{ intros m Hm H3 H4. rewrite Hz by lia. ring. }
    replace (t k) with (t k - 0) by ring. rewrite <- (GEN 0 0 0) by ring. f_equal. rewrite cis_0. f_equal. f_equal; ring.
  - rewrite V1 by exact IN1. cbn [np_fft_last at3]. rewrite Dn1. unfold fft1.
    rewrite (csum_two nt _ p q); try lia.
    2:{ intros m Hm H3 H4. rewrite A7, Hz by lia. ring. }
    rewrite !A7, !OF. apply GEN. exact HD.
Qed.
