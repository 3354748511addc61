(** C88/C89 for GaussianProfile. *)
From Coquelicot Require Import Coquelicot.
From Verif Require Import PyBase CSum NpFFT NumPy GridModel GridSpec GridProofs LaserSpec GridObs EnergyModel EnergyProofs LaserModel OpticsModel LaserOps
  LaserInv LaserInitProofs AngularProofs HistoryProofs OpticsProofs OpticsProofs2 LaserExamples ConvergeSpec ConvergeProofs ConvergeLaser
  AnalysisModel DurationProofs ZernikeOrtho DurConvSpec DurConvProofs DurConvLaser AnalyticModel AnalyticProofs GaussInt GaussMoments GaussLaserSpec.
Open Scope R_scope.

Definition spot (l w0 zf : R) : R := w0 * sqrt (1 + (zf / (PI * w0 ^ 2 / l)) ^ 2).
Lemma spot_pos l w0 zf : 0 < w0 -> 0 < spot l w0 zf.
Proof. intros H. apply Rmult_lt_0_compat; [exact H|]. apply sqrt_lt_R0. pose proof (pow2_ge_0 (zf / (PI * w0 ^ 2 / l))). lra. Qed.
Lemma Cnorm2_Cmod z : Cnorm2 z = Cmod z ^ 2.
Proof. symmetry. apply Cmod_sq. Qed.
Lemma gauss_intensity l pol E w0 tau tp cep zf p : gaussian_profile l pol E w0 tau tp cep zf = Ok p -> 0 < l -> 0 < w0 -> 0 < tau ->
  let w := spot l w0 zf in
  forall x y t, Cnorm2 (p_eval p x y t) = (w0 / w) ^ 2 * (gk w 0 x * gk w 0 y * gk tau tp t).
Proof.
  intros H Hl Hw Ht w x y t. rewrite Cnorm2_Cmod, (c42_modulus _ _ _ _ _ _ _ _ _ H Hl Hw ltac:(lra)). fold (spot l w0 zf). fold w.
  rewrite Rpow_mult_distr. f_equal. unfold gk. rewrite <- !exp_plus, exp_sq. f_equal. pose proof (spot_pos l w0 zf Hw) as Pw. fold w in Pw. field. split; lra.
Qed.

Lemma prod3_lip a b c a' b' c' : 0 <= a <= 1 -> 0 <= b <= 1 -> 0 <= c <= 1 -> 0 <= a' <= 1 -> 0 <= b' <= 1 -> 0 <= c' <= 1 ->
  Rabs (a * b * c - a' * b' * c') <= Rabs (a - a') + Rabs (b - b') + Rabs (c - c').
Proof.
  intros Ha Hb Hc Ha' Hb' Hc'. replace (a * b * c - a' * b' * c') with ((a - a') * (b * c) + (b - b') * (a' * c) + (c - c') * (a' * b')) by ring.
  assert (G : forall u v, 0 <= v <= 1 -> Rabs (u * v) <= Rabs u).
  { intros u v Hv. rewrite Rabs_mult, (Rabs_right v) by lra. rewrite <- (Rmult_1_r (Rabs u)) at 2. apply Rmult_le_compat_l; [apply Rabs_pos|lra]. }
  assert (B : forall u v, 0 <= u <= 1 -> 0 <= v <= 1 -> 0 <= u * v <= 1).
  { intros u v Hu Hv. split; [apply Rmult_le_pos; lra|]. nra. }
  eapply Rle_trans; [apply Rabs_triang|]. apply Rplus_le_compat; [eapply Rle_trans; [apply Rabs_triang|apply Rplus_le_compat]|]; apply G, B; assumption.
Qed.
Lemma gauss_lip l pol E w0 tau tp cep zf p x0 x1 y0 y1 t0 t1 : gaussian_profile l pol E w0 tau tp cep zf = Ok p -> 0 < l -> 0 < w0 -> 0 < tau ->
  x0 < x1 -> y0 < y1 -> t0 < t1 -> exists K, 0 <= K /\ lip_intensity K x0 x1 y0 y1 t0 t1 (p_eval p).
Proof.
  intros H Hl Hw Ht Bx By Bt. pose proof (gauss_intensity _ _ _ _ _ _ _ _ _ H Hl Hw Ht) as HI. cbv zeta in HI.
  set (w := spot l w0 zf) in *. assert (Pw : 0 < w) by (apply spot_pos, Hw). set (q := (w0 / w) ^ 2) in *.
  assert (Pq : 0 <= q) by apply pow2_ge_0.
  destruct (gk_lip w 0 x0 x1 Pw Bx) as (Kx & PKx & Lx). destruct (gk_lip w 0 y0 y1 Pw By) as (Ky & PKy & Ly).
  destruct (gk_lip tau tp t0 t1 Ht Bt) as (Kt & PKt & Lt).
  exists (q * (Kx + Ky + Kt)). split; [apply Rmult_le_pos; lra|]. intros x x' y y' t t' Ix Ix' Iy Iy' It It'. rewrite !HI.
  rewrite <- Rmult_minus_distr_l, Rabs_mult, (Rabs_right q), (Rmult_assoc q) by lra. apply Rmult_le_compat_l; [exact Pq|].
  assert (G : forall w c u, 0 < w -> 0 <= gk w c u <= 1) by (intros; split; [left; apply gk_pos|apply gk_le1; assumption]).
  eapply Rle_trans; [apply prod3_lip; apply G; assumption|].
  pose proof (Lx x x' Ix Ix'). pose proof (Ly y y' Iy Iy'). pose proof (Lt t t' It It').
  pose proof (Rabs_pos (x - x')). pose proof (Rabs_pos (y - y')). pose proof (Rabs_pos (t - t')).
  assert (0 <= Kx * Rabs (y - y') /\ 0 <= Kx * Rabs (t - t') /\ 0 <= Ky * Rabs (x - x') /\ 0 <= Ky * Rabs (t - t') /\ 0 <= Kt * Rabs (x - x') /\ 0 <= Kt * Rabs (y - y'))
    by (repeat split; apply Rmult_le_pos; assumption). lra.
Qed.

Lemma poly2_gk_ex phi w c lo hi : poly2 phi -> ex_RInt (fun t => phi t * gk w c t) lo hi.
Proof.
  intros (a & b & d & H). apply (ex_RInt_ext (fun t => (a + b * t + d * t ^ 2) * gk w c t)).
  - intros t _. rewrite H. reflexivity.
  - apply (@ex_RInt_continuous R_CompleteNormedModule). intros t _. unfold gk. apply (@ex_derive_continuous R_AbsRing R_NormedModule). auto_derive. exact I.
Qed.
Lemma RInt_scal' k (f : R -> R) a b : ex_RInt f a b -> RInt (fun x => k * f x) a b = k * RInt f a b.
Proof. intros H. apply (@RInt_scal R_CompleteNormedModule f a b k H). Qed.
Lemma gauss_moment_xyt l pol E w0 tau tp cep zf p x0 x1 y0 y1 t0 t1 phi : gaussian_profile l pol E w0 tau tp cep zf = Ok p -> 0 < l -> 0 < w0 -> 0 < tau ->
  poly2 phi ->
  let w := spot l w0 zf in
  moment_xyt x0 x1 y0 y1 t0 t1 (p_eval p) phi =
  (w0 / w) ^ 2 * gint w 0 x0 x1 * gint w 0 y0 y1 * RInt (fun t => phi t * gk tau tp t) t0 t1.
Proof.
  intros H Hl Hw Ht Hp w. pose proof (gauss_intensity _ _ _ _ _ _ _ _ _ H Hl Hw Ht) as HI. cbv zeta in HI. fold w in HI.
  set (q := (w0 / w) ^ 2) in *. set (Jt := RInt (fun t => phi t * gk tau tp t) t0 t1). unfold moment_xyt.
  rewrite (RInt_ext _ (fun x => (q * gint w 0 y0 y1 * Jt) * gk w 0 x)).
  - rewrite RInt_scal' by apply gk_ex. fold (gint w 0 x0 x1). ring.
  - intros x _. rewrite (RInt_ext _ (fun y => (q * gk w 0 x * Jt) * gk w 0 y)).
    + rewrite RInt_scal' by apply gk_ex. fold (gint w 0 y0 y1). eqR. ring.
    + intros y _. rewrite (RInt_ext _ (fun t => (q * gk w 0 x * gk w 0 y) * (phi t * gk tau tp t))).
      * rewrite RInt_scal' by (apply poly2_gk_ex, Hp). fold Jt. eqR. ring.
      * intros t _. rewrite HI. eqR. ring.
Qed.

(** Azimuthal content: only mode 0. *)
Lemma gauss_radial l pol E w0 tau tp cep zf p : gaussian_profile l pol E w0 tau tp cep zf = Ok p ->
  forall r t theta, p_eval p (r * cos theta) (r * sin theta) t = p_eval p r 0 t.
Proof.
  intros H r t th. destruct (gaussian_profile_inv _ _ _ _ _ _ _ _ _ H) as (_ & _ & _ & _ & _ & HE). rewrite !HE. f_equal.
  unfold gaussian_trans_at. cbv zeta. do 4 f_equal. pose proof (sin2_cos2 th) as Q. unfold Rsqr in Q.
  replace ((r * cos th) ^ 2 + (r * sin th) ^ 2) with (r ^ 2 * (sin th * sin th + cos th * cos th)) by ring. rewrite Q. ring.
Qed.
Lemma recon_zero M (z : C) theta : (1 <= M)%nat -> recon M (fun m => if Z.eqb m 0 then z else RtoC 0) theta = z.
Proof.
  intros HM. unfold recon. rewrite (csum_single _ _ (M - 1)).
  - cbv zeta. replace (Z.of_nat (M - 1) - (Z.of_nat M - 1))%Z with 0%Z by lia. cbn [Z.eqb].
    replace (- (0 * theta)) with 0 by ring. rewrite cis_0. apply Cmult_1_r.
  - lia.
  - intros q Hq Hn. cbv zeta. replace (Z.eqb _ 0) with false by (symmetry; apply Z.eqb_neq; lia). apply Cmult_0_l.
Qed.
Definition mode0 (p : profile) (m : Z) (r t : R) : C := if Z.eqb m 0 then p_eval p r 0 t else RtoC 0.
Lemma gauss_content l pol E w0 tau tp cep zf p M : gaussian_profile l pol E w0 tau tp cep zf = Ok p -> (1 <= M)%nat ->
  forall r t theta, p_eval p (r * cos theta) (r * sin theta) t =
    recon M (fun m => mode0 p m r t) theta.
Proof. intros H HM r t th. unfold mode0. rewrite recon_zero by exact HM. apply (gauss_radial _ _ _ _ _ _ _ _ _ H). Qed.
Lemma gauss_moment_rt l pol E w0 tau tp cep zf p r0 r1 t0 t1 phi : gaussian_profile l pol E w0 tau tp cep zf = Ok p -> 0 < l -> 0 < w0 -> 0 < tau ->
  poly2 phi ->
  let w := spot l w0 zf in
  moment_rt r0 r1 t0 t1 (p_eval p) phi =
  PI * w0 ^ 2 / 2 * (gk w 0 r0 - gk w 0 r1) * RInt (fun t => phi t * gk tau tp t) t0 t1.
Proof.
  intros H Hl Hw Ht Hp w. pose proof (gauss_intensity _ _ _ _ _ _ _ _ _ H Hl Hw Ht) as HI. cbv zeta in HI. fold w in HI.
  assert (Pw : 0 < w) by (apply spot_pos, Hw). pose proof PI_RGT_0 as Ppi.
  set (q := (w0 / w) ^ 2) in *. set (Jt := RInt (fun t => phi t * gk tau tp t) t0 t1). unfold moment_rt.
  rewrite (RInt_ext _ (fun r => (2 * PI * q * Jt) * ((r - 0) * gk w 0 r))).
  - rewrite RInt_scal'.
    + rewrite gint_m1 by exact Pw. unfold q. field. lra.
    + apply (poly2_gk_ex (fun r => r - 0)). exists 0, 1, 0. intros; ring.
  - intros r _. rewrite (RInt_ext _ (fun t => (2 * PI * q * gk w 0 r * r) * (phi t * gk tau tp t))).
    + rewrite RInt_scal' by (apply poly2_gk_ex, Hp). fold Jt. eqR. ring.
    + intros t _. rewrite (RInt_ext _ (fun _ => q * (gk w 0 r * 1 * gk tau tp t))).
      * rewrite (@RInt_const R_CompleteNormedModule). unfold scal; simpl; unfold mult; simpl. eqR. ring.
      * intros th _. rewrite (gauss_radial _ _ _ _ _ _ _ _ _ H), HI. replace (gk w 0 0) with 1; [reflexivity|].
        unfold gk. replace (-2 * (0 - 0) ^ 2 / w ^ 2) with 0 by (unfold Rdiv; ring). symmetry. apply exp_0.
Qed.
Lemma gk_decr w r0 r1 : 0 < w -> 0 <= r0 -> r0 < r1 -> gk w 0 r1 < gk w 0 r0.
Proof.
  intros Hw H0 H1. unfold gk. apply exp_increasing. assert (Q : 0 < / w ^ 2) by (apply Rinv_0_lt_compat, pow_lt, Hw).
  assert (r0 ^ 2 < r1 ^ 2) by nra. rewrite !Rminus_0_r. unfold Rdiv. nra.
Qed.

(** ** C88 for GaussianProfile: the duration tends to tau/2 *)
Lemma c88_gauss_xyt l px py E w0 tau tp cep zf p nm nte x0 x1 y0 y1 :
  gaussian_profile l [px; py] E w0 tau tp cep zf = Ok p ->
  0 < l -> 0 < w0 -> 0 < tau -> positive_request (Some E) -> x0 < x1 -> y0 < y1 ->
  forall eps, 0 < eps -> exists T, 0 < T /\ forall t0 t1, t0 <= tp - T -> tp + T <= t1 ->
  exists N, forall n0 n1 nt, (N <= n0)%nat -> (N <= n1)%nat -> (N <= nt)%nat ->
  exists L s, laser_init Xyt [x0;y0;t0] [x1;y1;t1] [n0;n1;nt] p nm nte = Ok L /\
    snd (get_duration Xyt (l_grid L)) = Ok s /\ Rabs (s - tau / 2) < eps.
Proof.
  intros H Hl Hw Ht HE Bx By eps He.
  destruct (rms_gauss tau tp Ht (eps / 2) ltac:(lra)) as (T & PT & HT). exists T. split; [exact PT|]. intros t0 t1 H0 H1.
  assert (Bt : t0 < t1) by lra.
  destruct (gauss_lip _ _ _ _ _ _ _ _ _ x0 x1 y0 y1 t0 t1 H Hl Hw Ht Bx By Bt) as (K & PK & LK).
  destruct (gaussian_profile_inv _ _ _ _ _ _ _ _ _ H) as (_ & _ & _ & HpE & Hd & _).
  pose proof (spot_pos l w0 zf Hw) as Pw. set (w := spot l w0 zf) in *.
  assert (Pk : 0 < (w0 / w) ^ 2 * gint w 0 x0 x1 * gint w 0 y0 y1).
  { apply Rmult_lt_0_compat; [apply Rmult_lt_0_compat|]; [apply pow_lt, Rdiv_lt_0_compat; assumption| |]; apply gint_pos; assumption. }
  pose proof (moment_xyt_lin K x0 x1 y0 y1 t0 t1 (p_eval p) Bx By Bt PK LK) as HLin.
  assert (HM : forall phi, poly2 phi -> moment_xyt x0 x1 y0 y1 t0 t1 (p_eval p) phi =
     ((w0 / w) ^ 2 * gint w 0 x0 x1 * gint w 0 y0 y1) * RInt (fun t => phi t * gk tau tp t) t0 t1).
  { intros phi Hp. apply (gauss_moment_xyt _ _ _ _ _ _ _ _ _ _ _ _ _ _ _ _ H Hl Hw Ht Hp). }
  pose proof (HT t0 t1 H0 H1 _ _ HLin Pk HM) as HR.
  destruct (c88_xyt K [x0;y0;t0] [x1;y1;t1] p nm nte eq_refl eq_refl Bx By Bt) with (eps := eps / 2) as (N & HN); try assumption; try lra.
  - rewrite HpE. exact HE.
  - cbn [nth]. rewrite (HM _ poly2_1). apply Rmult_lt_0_compat; [exact Pk|].
    rewrite (RInt_ext _ (gk tau tp)) by (intros t _; eqR; ring). apply gint_pos, Bt.
  - exists N. intros n0 n1 nt N0 N1 N2. destruct (HN n0 n1 nt N0 N1 N2) as (L & s & HI & Hs & HC). exists L, s.
    split; [exact HI|]. split; [exact Hs|]. cbn [nth] in HC.
    set (D := rms_duration _) in *. replace (s - tau / 2) with ((s - D) + (D - tau / 2)) by ring.
    eapply Rle_lt_trans; [apply Rabs_triang|]. lra.
Qed.
Lemma c88_gauss_rt l px py E w0 tau tp cep zf p (M : nat) nte r0 r1 :
  gaussian_profile l [px; py] E w0 tau tp cep zf = Ok p ->
  0 < l -> 0 < w0 -> 0 < tau -> positive_request (Some E) -> 0 <= r0 -> r0 < r1 -> (1 <= M)%nat ->
  (2 * Z.of_nat M - 1 <= match nte with None => 2 * Z.of_nat M - 1 | Some n => n end)%Z ->
  forall eps, 0 < eps -> exists T, 0 < T /\ forall t0 t1, t0 <= tp - T -> tp + T <= t1 ->
  exists N, forall n1 nt, (N <= n1)%nat -> (N <= nt)%nat ->
  exists L s, laser_init Rt [r0;t0] [r1;t1] [n1;nt] p (Z.of_nat M) nte = Ok L /\
    snd (get_duration Rt (l_grid L)) = Ok s /\ Rabs (s - tau / 2) < eps.
Proof.
  intros H Hl Hw Ht HE R0 Br HM Hn eps He.
  destruct (rms_gauss tau tp Ht (eps / 2) ltac:(lra)) as (T & PT & HT). exists T. split; [exact PT|]. intros t0 t1 H0 H1.
  assert (Bt : t0 < t1) by lra.
  destruct (gauss_lip _ _ _ _ _ _ _ _ _ (- r1) r1 (- r1) r1 t0 t1 H Hl Hw Ht ltac:(lra) ltac:(lra) Bt) as (K & PK & LK).
  destruct (gaussian_profile_inv _ _ _ _ _ _ _ _ _ H) as (_ & _ & _ & HpE & Hd & _).
  pose proof (spot_pos l w0 zf Hw) as Pw. set (w := spot l w0 zf) in *. pose proof PI_RGT_0 as Ppi.
  assert (Pk : 0 < PI * w0 ^ 2 / 2 * (gk w 0 r0 - gk w 0 r1)).
  { pose proof (gk_decr w r0 r1 Pw R0 Br). assert (0 < w0 ^ 2) by (apply pow_lt, Hw).
    assert (0 < PI * w0 ^ 2) by (apply Rmult_lt_0_compat; assumption). apply Rmult_lt_0_compat; lra. }
  pose proof (gauss_content _ _ _ _ _ _ _ _ _ M H HM) as HC.
  pose proof (moment_rt_lin K r0 r1 t0 t1 M (p_eval p) (mode0 p) R0 Br Bt PK HM LK HC) as HLin.
  assert (HMo : forall phi, poly2 phi -> moment_rt r0 r1 t0 t1 (p_eval p) phi =
     (PI * w0 ^ 2 / 2 * (gk w 0 r0 - gk w 0 r1)) * RInt (fun t => phi t * gk tau tp t) t0 t1).
  { intros phi Hp. apply (gauss_moment_rt _ _ _ _ _ _ _ _ _ _ _ _ _ _ H Hl Hw Ht Hp). }
  pose proof (HT t0 t1 H0 H1 _ _ HLin Pk HMo) as HR.
  destruct (c88_rt K [r0;t0] [r1;t1] p M nte (mode0 p) eq_refl eq_refl HM R0 Br Bt) with (eps := eps / 2) as (N & HN); try assumption; try lra.
  - rewrite HpE. exact HE.
  - cbn [nth]. rewrite (HMo _ poly2_1). apply Rmult_lt_0_compat; [exact Pk|].
    rewrite (RInt_ext _ (gk tau tp)) by (intros t _; eqR; ring). apply gint_pos, Bt.
  - exists N. intros n1 nt N1 N2. destruct (HN n1 nt N1 N2) as (L & s & HI & Hs & HCl). exists L, s.
    split; [exact HI|]. split; [exact Hs|]. cbn [nth] in HCl.
    set (D := rms_duration _) in *. replace (s - tau / 2) with ((s - D) + (D - tau / 2)) by ring.
    eapply Rle_lt_trans; [apply Rabs_triang|]. lra.
Qed.

(** ** C89: the field of a GaussianProfile laser with a requested energy *)
Lemma prod3_cont a b c : forall eps, 0 < eps -> exists d, 0 < d /\
  forall x y z, Rabs (x - a) < d -> Rabs (y - b) < d -> Rabs (z - c) < d -> Rabs (x * y * z - a * b * c) < eps.
Proof.
  intros eps He.
  assert (C : continuous (fun p : R * (R * R) => fst p * fst (snd p) * snd (snd p)) (a, (b, c))).
  { assert (Cs : continuous (fun p : R * (R * R) => snd p) (a, (b, c))) by apply continuous_snd.
    apply (@continuous_mult _ R_AbsRing (fun p : R * (R * R) => fst p * fst (snd p)) (fun p : R * (R * R) => snd (snd p))).
    - apply (@continuous_mult _ R_AbsRing (fun p : R * (R * R) => fst p) (fun p : R * (R * R) => fst (snd p))); [apply continuous_fst|].
      apply (continuous_comp (fun p : R * (R * R) => snd p) fst); [exact Cs|apply continuous_fst].
    - apply (continuous_comp (fun p : R * (R * R) => snd p) snd); [exact Cs|apply continuous_snd]. }
  destruct (C (fun y => Rabs (y - a * b * c) < eps)) as (d & Hd).
  { exists (mkposreal eps He). intros y Hy. exact Hy. }
  exists d. split; [apply cond_pos|]. intros x y z Hx Hy Hz. apply (Hd (x, (y, z))). split; [exact Hx|split; [exact Hy|exact Hz]].
Qed.
Lemma gauss_energy_pos w0 tau : 0 < w0 -> 0 < tau -> 0 < gauss_energy w0 tau.
Proof.
  intros Hw Ht. unfold gauss_energy. pose proof eps0_pos. pose proof c_light_pos. pose proof PI_RGT_0.
  assert (0 < sqrt (PI / 2)) by (apply sqrt_lt_R0; lra). assert (0 < w0 ^ 2) by (apply pow_lt, Hw). assert (0 < PI * w0 ^ 2) by (apply Rmult_lt_0_compat; lra).
  apply Rmult_lt_0_compat; [apply Rmult_lt_0_compat; [apply Rmult_lt_0_compat|]|apply Rmult_lt_0_compat]; lra.
Qed.
Lemma U_xyt_moment x0 x1 y0 y1 t0 t1 E : U_xyt x0 x1 y0 y1 t0 t1 E = eps0 / 2 * c_light * moment_xyt x0 x1 y0 y1 t0 t1 E (fun _ => 1).
Proof.
  unfold U_xyt, moment_xyt. f_equal. apply RInt_ext. intros x _. apply RInt_ext. intros y _. apply RInt_ext. intros t _. eqR. ring.
Qed.
Lemma U_rt_moment r0 r1 t0 t1 E : U_rt r0 r1 t0 t1 E = eps0 / 2 * c_light * moment_rt r0 r1 t0 t1 E (fun _ => 1).
Proof. unfold U_rt, moment_rt. f_equal. apply RInt_ext. intros r _. apply RInt_ext. intros t _. eqR. ring. Qed.
Lemma gauss_U_lim l pol E w0 tau tp cep zf p : gaussian_profile l pol E w0 tau tp cep zf = Ok p -> 0 < l -> 0 < w0 -> 0 < tau ->
  forall eps, 0 < eps -> exists W, 0 < W /\ forall x0 x1 y0 y1 t0 t1,
  x0 <= - W -> W <= x1 -> y0 <= - W -> W <= y1 -> t0 <= tp - W -> tp + W <= t1 ->
  Rabs (U_xyt x0 x1 y0 y1 t0 t1 (p_eval p) - gauss_energy w0 tau) < eps.
Proof.
  intros H Hl Hw Ht eps He. pose proof (spot_pos l w0 zf Hw) as Pw. set (w := spot l w0 zf) in *.
  pose proof eps0_pos as Pe. pose proof c_light_pos as Pc. pose proof PI_RGT_0 as Ppi. set (g := sqrt (PI / 2)).
  set (k := eps0 / 2 * c_light * (w0 / w) ^ 2). assert (Pk : 0 < k).
  { unfold k. apply Rmult_lt_0_compat; [apply Rmult_lt_0_compat; lra|apply pow_lt, Rdiv_lt_0_compat; assumption]. }
  destruct (prod3_cont (w * g) (w * g) (tau * g) (eps / k)) as (d & Pd & HD); [apply Rdiv_lt_0_compat; lra|].
  destruct (gint_lim w 0 Pw d Pd) as (T1 & P1 & H1). destruct (gint_lim tau tp Ht d Pd) as (T2 & P2 & H2).
  exists (T1 + T2). split; [lra|]. intros x0 x1 y0 y1 t0 t1 X0 X1 Y0 Y1 S0 S1.
  rewrite U_xyt_moment, (gauss_moment_xyt _ _ _ _ _ _ _ _ _ x0 x1 y0 y1 t0 t1 _ H Hl Hw Ht poly2_1). fold w.
  rewrite (RInt_ext _ (gk tau tp)) by (intros t _; eqR; ring). fold (gint tau tp t0 t1).
  specialize (HD _ _ _ (H1 x0 x1 ltac:(lra) ltac:(lra)) (H1 y0 y1 ltac:(lra) ltac:(lra)) (H2 t0 t1 ltac:(lra) ltac:(lra))).
  assert (G2 : g * g = PI / 2) by (apply sqrt_sqrt; lra).
  replace (gauss_energy w0 tau) with (k * (w * g * (w * g) * (tau * g))).
  2:{ unfold k, gauss_energy. fold g. replace (w * g * (w * g) * (tau * g)) with (w ^ 2 * (g * g) * (tau * g)) by ring. rewrite G2. field. lra. }
  match goal with |- Rabs ?e < _ => replace e with (k * (gint w 0 x0 x1 * gint w 0 y0 y1 * gint tau tp t0 t1 - w * g * (w * g) * (tau * g))) by (unfold k; ring) end.
  rewrite Rabs_mult, (Rabs_right k) by lra. replace eps with (k * (eps / k)) by (field; lra). apply Rmult_lt_compat_l; assumption.
Qed.
Lemma gauss_U_rt_lim l pol E w0 tau tp cep zf p : gaussian_profile l pol E w0 tau tp cep zf = Ok p -> 0 < l -> 0 < w0 -> 0 < tau ->
  forall eps, 0 < eps -> exists W, 0 < W /\ forall r1 t0 t1, W <= r1 -> t0 <= tp - W -> tp + W <= t1 ->
  Rabs (U_rt 0 r1 t0 t1 (p_eval p) - gauss_energy w0 tau) < eps.
Proof.
  intros H Hl Hw Ht eps He. pose proof (spot_pos l w0 zf Hw) as Pw. set (w := spot l w0 zf) in *.
  pose proof eps0_pos as Pe. pose proof c_light_pos as Pc. pose proof PI_RGT_0 as Ppi. set (g := sqrt (PI / 2)).
  assert (Pw2 : 0 < w0 ^ 2) by (apply pow_lt, Hw). assert (Ppw : 0 < PI * w0 ^ 2) by (apply Rmult_lt_0_compat; lra).
  set (k := eps0 / 2 * c_light * (PI * w0 ^ 2 / 2)). assert (Pk : 0 < k).
  { unfold k. apply Rmult_lt_0_compat; [apply Rmult_lt_0_compat; lra|lra]. }
  destruct (prod3_cont 1 1 (tau * g) (eps / k)) as (d & Pd & HD); [apply Rdiv_lt_0_compat; lra|].
  destruct (gint_lim tau tp Ht d Pd) as (T2 & P2 & H2).
  assert (P1 : 0 < w ^ 2 / d) by (apply Rdiv_lt_0_compat; [apply pow_lt, Pw|exact Pd]).
  exists (1 + w ^ 2 / d + T2). split; [lra|]. intros r1 t0 t1 R1 S0 S1.
  rewrite U_rt_moment, (gauss_moment_rt _ _ _ _ _ _ _ _ _ 0 r1 t0 t1 _ H Hl Hw Ht poly2_1). fold w.
  rewrite (RInt_ext _ (gk tau tp)) by (intros t _; eqR; ring). fold (gint tau tp t0 t1).
  assert (E0 : gk w 0 0 = 1). { unfold gk. replace (-2 * (0 - 0) ^ 2 / w ^ 2) with 0 by (unfold Rdiv; ring). apply exp_0. }
  assert (Q : Rabs ((gk w 0 0 - gk w 0 r1) - 1) < d).
  { rewrite E0. replace (1 - gk w 0 r1 - 1) with (- gk w 0 r1) by ring. rewrite Rabs_Ropp, Rabs_right by (left; apply gk_pos).
    set (T := 1 + w ^ 2 / d). destruct (gk_tail w 0 T r1 Pw) as (Q & _); [unfold T; lra|rewrite Rminus_0_r, Rabs_right; unfold T; lra|].
    eapply Rle_lt_trans; [exact Q|]. assert (PT : 0 < T) by (unfold T; lra). assert (PT2 : 0 < T ^ 2) by (apply pow_lt, PT).
    apply (Rmult_lt_reg_r (2 * T ^ 2)); [lra|]. replace (w ^ 2 / (2 * T ^ 2) * (2 * T ^ 2)) with (w ^ 2) by (field; lra).
    assert (B : d * T = d + w ^ 2) by (unfold T; field; lra). assert (1 < T) by (unfold T; lra).
    replace (d * (2 * T ^ 2)) with (2 * (d * T) * T) by ring. rewrite B. pose proof (pow_lt w 2 Pw). nra. }
  assert (Q1 : Rabs (1 - 1) < d) by (rewrite Rminus_diag_eq, Rabs_R0 by reflexivity; exact Pd).
  specialize (HD _ _ _ Q Q1 (H2 t0 t1 ltac:(lra) ltac:(lra))).
  replace (gauss_energy w0 tau) with (k * (1 * 1 * (tau * g))) by (unfold k, gauss_energy; fold g; ring).
  match goal with |- Rabs ?e < _ => replace e with (k * ((gk w 0 0 - gk w 0 r1) * 1 * gint tau tp t0 t1 - 1 * 1 * (tau * g))) by (unfold k; ring) end.
  rewrite Rabs_mult, (Rabs_right k) by lra. replace eps with (k * (eps / k)) by (field; lra). apply Rmult_lt_compat_l; assumption.
Qed.
Lemma c89_xyt l px py E w0 tau tp cep zf p nm nte :
  gaussian_profile l [px; py] (Some E) w0 tau tp cep zf = Ok p -> 0 < l -> 0 < w0 -> 0 < tau -> 0 <= E ->
  forall eps, 0 < eps -> exists W, 0 < W /\ forall x0 x1 y0 y1 t0 t1,
  x0 <= - W -> W <= x1 -> y0 <= - W -> W <= y1 -> t0 <= tp - W -> tp + W <= t1 ->
  exists N, forall n0 n1 nt, (N <= n0)%nat -> (N <= n1)%nat -> (N <= nt)%nat ->
  exists L a s, laser_init Xyt [x0;y0;t0] [x1;y1;t1] [n0;n1;nt] p nm nte = Ok L /\
    snd (get_temporal_field (l_grid L)) = Ok a /\ Rabs (s - sqrt (E / gauss_energy w0 tau)) < eps /\
    forall i j k, (i < n0)%nat -> (j < n1)%nat -> (k < nt)%nat ->
      at3 a i j k = Cmult (RtoC s) (p_eval p (coord x0 x1 n0 i) (coord y0 y1 n1 j) (coord t0 t1 nt k)).
Proof.
  intros H Hl Hw Ht HE eps He. pose proof (gauss_energy_pos w0 tau Hw Ht) as PU.
  destruct (sqrt_ratio_cont E (gauss_energy w0 tau) HE PU (eps / 2) ltac:(lra)) as (d & Pd & HD).
  destruct (gauss_U_lim _ _ _ _ _ _ _ _ _ H Hl Hw Ht d Pd) as (W & PW & HW). exists W. split; [exact PW|].
  intros x0 x1 y0 y1 t0 t1 X0 X1 Y0 Y1 S0 S1. specialize (HW _ _ _ _ _ _ X0 X1 Y0 Y1 S0 S1). destruct (HD _ HW) as (PUw & HR).
  destruct (gauss_lip _ _ _ _ _ _ _ _ _ x0 x1 y0 y1 t0 t1 H Hl Hw Ht ltac:(lra) ltac:(lra) ltac:(lra)) as (K & PK & LK).
  destruct (gaussian_profile_inv _ _ _ _ _ _ _ _ _ H) as (_ & _ & _ & HpE & Hd & _).
  destruct (c86_xyt_field K [x0;y0;t0] [x1;y1;t1] p nm nte E eq_refl eq_refl) with (eps := eps / 2) as (N & HN); cbn [nth]; try assumption; try lra.
  exists N. intros n0 n1 nt N0 N1 N2. destruct (HN n0 n1 nt N0 N1 N2) as (L & a & s & HI & Ha & Hs & Hv). exists L, a, s.
  split; [exact HI|]. split; [exact Ha|]. split; [|exact Hv]. cbn [nth] in Hs.
  set (D := sqrt (E / U_xyt _ _ _ _ _ _ _)) in *. set (D' := sqrt (E / gauss_energy w0 tau)) in *.
  replace (s - D') with ((s - D) + (D - D')) by ring. eapply Rle_lt_trans; [apply Rabs_triang|]. lra.
Qed.
Lemma c89_rt l px py E w0 tau tp cep zf p (M : nat) nte :
  gaussian_profile l [px; py] (Some E) w0 tau tp cep zf = Ok p -> 0 < l -> 0 < w0 -> 0 < tau -> 0 <= E ->
  (1 <= M)%nat -> (2 * Z.of_nat M - 1 <= match nte with None => 2 * Z.of_nat M - 1 | Some n => n end)%Z ->
  forall eps, 0 < eps -> exists W, 0 < W /\ forall r1 t0 t1, W <= r1 -> t0 <= tp - W -> tp + W <= t1 ->
  exists N, forall n1 nt, (N <= n1)%nat -> (N <= nt)%nat ->
  exists L a s, laser_init Rt [0;t0] [r1;t1] [n1;nt] p (Z.of_nat M) nte = Ok L /\
    snd (get_temporal_field (l_grid L)) = Ok a /\ Rabs (s - sqrt (E / gauss_energy w0 tau)) < eps /\
    forall j k theta, (j < n1)%nat -> (k < nt)%nat ->
      recon M (comp M a j k) theta = Cmult (RtoC s) (p_eval p (coord 0 r1 n1 j * cos theta) (coord 0 r1 n1 j * sin theta) (coord t0 t1 nt k)).
Proof.
  intros H Hl Hw Ht HE HM Hn eps He. pose proof (gauss_energy_pos w0 tau Hw Ht) as PU.
  destruct (sqrt_ratio_cont E (gauss_energy w0 tau) HE PU (eps / 2) ltac:(lra)) as (d & Pd & HD).
  destruct (gauss_U_rt_lim _ _ _ _ _ _ _ _ _ H Hl Hw Ht d Pd) as (W & PW & HW). exists W. split; [exact PW|].
  intros r1 t0 t1 R1 S0 S1. specialize (HW _ _ _ R1 S0 S1). destruct (HD _ HW) as (PUw & HR).
  destruct (gauss_lip _ _ _ _ _ _ _ _ _ (- r1) r1 (- r1) r1 t0 t1 H Hl Hw Ht ltac:(lra) ltac:(lra) ltac:(lra)) as (K & PK & LK).
  destruct (gaussian_profile_inv _ _ _ _ _ _ _ _ _ H) as (_ & _ & _ & HpE & Hd & _).
  pose proof (gauss_content _ _ _ _ _ _ _ _ _ M H HM) as HC.
  destruct (c86_rt_field K [0;t0] [r1;t1] p M nte (mode0 p) E eq_refl eq_refl HM) with (eps := eps / 2) as (N & HN); cbn [nth]; try assumption; try lra.
  exists N. intros n1 nt N1 N2. destruct (HN n1 nt N1 N2) as (L & a & s & HI & Ha & Hs & Hv). exists L, a, s.
  split; [exact HI|]. split; [exact Ha|]. split; [|exact Hv]. cbn [nth] in Hs.
  set (D := sqrt (E / U_rt _ _ _ _ _)) in *. set (D' := sqrt (E / gauss_energy w0 tau)) in *.
  replace (s - D') with ((s - D) + (D - D')) by ring. eapply Rle_lt_trans; [apply Rabs_triang|]. lra.
Qed.
