(** C97 on cylindrical grids. *)
From Coquelicot Require Import Coquelicot.
From Verif Require Import PyBase CSum NpFFT NumPy GridModel GridSpec GridProofs LaserSpec GridObs EnergyModel EnergyProofs LaserModel OpticsModel LaserOps
  LaserInv LaserInitProofs AngularProofs HistoryProofs OpticsProofs OpticsProofs2 LaserExamples ConvergeSpec ConvergeProofs ConvergeLaser
  AnalysisModel DurationProofs ZernikeOrtho DurConvSpec DurConvProofs DurConvLaser ProfileModel AnalyticModel AnalyticProofs NpMath GaussInt GaussMoments GaussLaserSpec GaussLaser
  SepSpec SepProofs PolarSpec HGOrtho LGProofs LGOrtho NpMathProofs PeakSpec PeakProofs PeakInst.
Open Scope R_scope.

Lemma U_rt_product trans long r1 t0 t1 v : 0 <= r1 -> tame1 (fun t => Cnorm2 (long t)) ->
  disc_int (fun x y => Cmult (trans x y) (Cconj (trans x y))) r1 v ->
  U_rt 0 r1 t0 t1 (fun x y t => Cmult (trans x y) (long t)) = eps0 / 2 * c_light * (Re v * RInt (fun t => Cnorm2 (long t)) t0 t1).
Proof.
  intros HR HL (gr & gi & A & _ & B & _). unfold U_rt. f_equal. set (D := RInt (fun t => Cnorm2 (long t)) t0 t1).
  rewrite (RInt_ext _ (fun r => D * (gr r * r))).
  - rewrite RInt_scal' by (exists (Re v); exact B). rewrite (is_RInt_unique _ _ _ _ B). eqR. ring.
  - intros r [Hr _]. rewrite Rmin_left in Hr by exact HR.
    rewrite (RInt_ext _ (fun t => (gr r * r) * Cnorm2 (long t))).
    + rewrite RInt_scal' by (apply tame1_ex, HL). fold D. eqR. ring.
    + intros t _. assert (Q : is_RInt (fun th => Cnorm2 (Cmult (trans (r * cos th) (r * sin th)) (long t))) 0 (2 * PI) (Cnorm2 (long t) * gr r)).
      { apply (is_RInt_same (fun th => Cnorm2 (long t) * Re (Cmult (trans (r * cos th) (r * sin th)) (Cconj (trans (r * cos th) (r * sin th)))))).
        - intros th _. rewrite Cnorm2_mult. rewrite <- Cnorm2_conj. unfold Re, RtoC. cbn [fst]. ring.
        - apply is_RInt_scal_l. apply A. lra. }
      rewrite (is_RInt_unique _ _ _ _ Q). eqR. ring.
Qed.
Lemma U_rt_product_lim trans long P D : tame1 (fun t => Cnorm2 (long t)) -> power trans P -> pulse_duration long D ->
  forall eps, 0 < eps -> exists W, 0 < W /\ forall r1 t0 t1, W <= r1 -> t0 <= - W -> W <= t1 ->
  Rabs (U_rt 0 r1 t0 t1 (fun x y t => Cmult (trans x y) (long t)) - eps0 / 2 * c_light * (P * D)) < eps.
Proof.
  intros HL (I & HI & LI & _) HD eps He. pose proof eps0_pos as Pe. pose proof c_light_pos as Pc. set (k := eps0 / 2 * c_light).
  assert (Pk : 0 < k) by (unfold k; apply Rmult_lt_0_compat; lra).
  destruct (prod2_cont P D (eps / k)) as (d & Pd & Hc); [apply Rdiv_lt_0_compat; assumption|].
  apply is_lim_spec in LI. destruct (LI (mkposreal d Pd)) as (X & HX).
  destruct (HD d Pd) as (W2 & P2 & H2). exists (Rabs X + 1 + W2). pose proof (Rabs_pos X). pose proof (Rle_abs X). split; [lra|].
  intros r1 t0 t1 R1 T0 T1. rewrite (U_rt_product trans long r1 t0 t1 (I r1)); [|lra|exact HL|apply HI; lra]. fold k.
  rewrite <- Rmult_minus_distr_l, Rabs_mult, (Rabs_right k) by lra. replace eps with (k * (eps / k)) by (field; lra).
  apply Rmult_lt_compat_l; [exact Pk|]. apply Hc; [exact (HX r1 ltac:(lra))|apply H2; lra].
Qed.
Lemma c97_rt l px py E long trans p (M : nat) nte A P D :
  combined_profile l [px; py] (Some E) long trans = Ok p -> 0 <= E -> (1 <= M)%nat ->
  (2 * Z.of_nat M - 1 <= match nte with None => 2 * Z.of_nat M - 1 | Some n => n end)%Z ->
  (forall r theta, trans (r * cos theta) (r * sin theta) = recon M (fun m => A m r) theta) ->
  tame2 (fun x y => Cnorm2 (trans x y)) -> tame1 (fun t => Cnorm2 (long t)) ->
  power trans P -> pulse_duration long D -> 0 < P -> 0 < D ->
  forall eps, 0 < eps -> exists W, 0 < W /\ forall r1 t0 t1, W <= r1 -> t0 <= - W -> W <= t1 ->
  exists N, forall n1 nt, (N <= n1)%nat -> (N <= nt)%nat ->
  exists L a s, laser_init Rt [0;t0] [r1;t1] [n1;nt] p (Z.of_nat M) nte = Ok L /\
    snd (get_temporal_field (l_grid L)) = Ok a /\ Rabs (s - peak_factor E P D) < eps /\
    forall j k theta, (j < n1)%nat -> (k < nt)%nat ->
      recon M (comp M a j k) theta =
      Cmult (RtoC s) (Cmult (trans (coord 0 r1 n1 j * cos theta) (coord 0 r1 n1 j * sin theta)) (long (coord t0 t1 nt k))).
Proof.
  intros H HE HM Hn HA HT HL HP HD PP PD eps He. pose proof (energy_const_pos P D PP PD) as PU. set (U := eps0 / 2 * c_light * (P * D)) in *.
  destruct (sqrt_ratio_cont E U HE PU (eps / 2) ltac:(lra)) as (d & Pd & Hc).
  destruct (U_rt_product_lim trans long P D HL HP HD d Pd) as (W & PW & HW). exists W. split; [exact PW|].
  intros r1 t0 t1 R1 S0 S1. specialize (HW _ _ _ R1 S0 S1). destruct (Hc _ HW) as (PUw & HR).
  destruct (product_lip trans long (- r1) r1 (- r1) r1 t0 t1 HT HL) as (K & PK & LK).
  destruct (combined_eval _ _ _ _ _ _ H) as (Hev & Hen & _).
  destruct (c86_rt_field K [0;t0] [r1;t1] p M nte (fun m r t => Cmult (A m r) (long t)) E eq_refl eq_refl HM) with (eps := eps / 2) as (N & HN); cbn [nth]; try rewrite Hev; try assumption; try lra.
  { intros r t th. rewrite (recon_scale M (fun m => A m r)), HA. reflexivity. }
  exists N. intros n1 nt N1 N2. destruct (HN n1 nt N1 N2) as (L & a & s & HI & Ha & Hs & Hv). exists L, a, s.
  split; [exact HI|]. split; [exact Ha|]. split.
  - cbn [nth] in Hs. rewrite Hev in Hs. unfold peak_factor. fold U. set (Q := sqrt (E / U_rt _ _ _ _ _)) in *. set (Q' := sqrt (E / U)) in *.
    replace (s - Q') with ((s - Q) + (Q - Q')) by ring. eapply Rle_lt_trans; [apply Rabs_triang|]. lra.
  - intros j k th Hj Hk. rewrite (Hv j k th Hj Hk), Hev. reflexivity.
Qed.

(** ** Laguerre-Gaussian beams *)
Lemma recon_one M (m : Z) (z : C) theta : (Z.abs m < Z.of_nat M)%Z -> recon M (fun q => if Z.eqb q m then z else RtoC 0) theta = Cmult z (cis (- (IZR m * theta))).
Proof.
  intros HM. unfold recon. rewrite (csum_single _ _ (Z.to_nat (m + (Z.of_nat M - 1)))).
  - cbv zeta. replace (Z.of_nat (Z.to_nat (m + (Z.of_nat M - 1))) - (Z.of_nat M - 1))%Z with m by lia. rewrite Z.eqb_refl. reflexivity.
  - lia.
  - intros q Hq Hn. cbv zeta. replace (Z.eqb _ m) with false by (symmetry; apply Z.eqb_neq; lia). apply Cmult_0_l.
Qed.
Lemma lg_norm2 w0 p m z x y : 0 < w0 ->
  Cnorm2 (lg_trans_at w0 p m z x y) =
  (/ (1 + z ^ 2)) * ((x ^ 2 + y ^ 2) ^ Z.abs_nat m * (genlaguerre p (Z.abs_nat m) (2 / (w0 ^ 2 * (1 + z ^ 2)) * (x ^ 2 + y ^ 2)) ^ 2 * exp (- (2 / (w0 ^ 2 * (1 + z ^ 2)) * (x ^ 2 + y ^ 2))))).
Proof.
  intros Hw. set (k := Z.abs_nat m).
  assert (PO : exists r th, x = r * cos th /\ y = r * sin th).
  { destruct (Req_dec (x ^ 2 + y ^ 2) 0) as [E0|E0].
    - exists 0, 0. pose proof (pow2_ge_0 x). pose proof (pow2_ge_0 y). assert (X : x ^ 2 = 0) by lra. assert (Y : y ^ 2 = 0) by lra.
      assert (x = 0) by nra. assert (y = 0) by nra. subst. lra.
    - exists (Cmod ((x, y) : C)), (angle ((x, y) : C)). pose proof (angle_polar ((x, y) : C)) as Q. split; [apply (f_equal fst) in Q|apply (f_equal snd) in Q]; unfold Cmult, RtoC, cis in Q; cbn [fst snd] in Q; rewrite <- Q at 1; ring. }
  destruct PO as (r & th & -> & ->). pose proof (lg_product w0 p p m m z r th Hw) as H. apply (f_equal fst) in H. rewrite <- Cnorm2_conj in H.
  unfold RtoC at 1 in H. cbn [fst] in H. rewrite H. unfold lgphase. rewrite !Z.sub_diag, !Rmult_0_l, Rplus_0_l, cis_0.
  unfold lgq. fold k. replace ((r * cos th) ^ 2 + (r * sin th) ^ 2) with (r ^ 2) by (pose proof (sin2_cos2 th) as Q; unfold Rsqr in Q; replace ((r * cos th) ^ 2 + (r * sin th) ^ 2) with (r ^ 2 * (sin th * sin th + cos th * cos th)) by ring; rewrite Q; ring).
  rewrite <- pow_mult, Nat.mul_comm, pow_mult. unfold Cmult, RtoC. cbn [fst snd]. unfold Rdiv. 
  replace (r ^ k * r ^ k) with ((r ^ k) ^ 2) by ring. ring.
Qed.
Lemma lg_tame w0 p m z : 0 < w0 -> tame2 (fun x y => Cnorm2 (lg_trans_at w0 p m z x y)).
Proof.
  intros Hw. set (b := 2 / (w0 ^ 2 * (1 + z ^ 2))).
  assert (Pb : 0 <= b). { unfold b. left. apply Rdiv_lt_0_compat; [lra|]. apply Rmult_lt_0_compat; [apply pow_lt, Hw|pose proof (pow2_ge_0 z); lra]. }
  assert (T0 : tame2 (fun x y => x ^ 2 + y ^ 2)) by (apply (tame_plus (fun x _ => x ^ 2) (fun _ y => y ^ 2)); [apply (tame_pow (fun x _ => x)), tame_x|apply (tame_pow (fun _ y => y)), tame_y]).
  assert (Tb : tame2 (fun x y => b * (x ^ 2 + y ^ 2))) by (apply tame_scal, T0).
  eapply tame_ext; [intros x y; symmetry; apply lg_norm2, Hw|]. fold b. apply tame_scal.
  apply (tame_mult (fun x y => (x ^ 2 + y ^ 2) ^ Z.abs_nat m)); [apply (tame_pow (fun x y => x ^ 2 + y ^ 2)), T0|].
  apply (tame_mult (fun x y => genlaguerre p (Z.abs_nat m) (b * (x ^ 2 + y ^ 2)) ^ 2)).
  - apply (tame_pow (fun x y => genlaguerre p (Z.abs_nat m) (b * (x ^ 2 + y ^ 2)))), (tame_genlaguerre p _ (fun x y => b * (x ^ 2 + y ^ 2))), Tb.
  - apply (tame_exp_neg (fun x y => b * (x ^ 2 + y ^ 2))); [exact Tb|]. intros x y. apply Rmult_le_pos; [exact Pb|]. pose proof (pow2_ge_0 x). pose proof (pow2_ge_0 y). lra.
Qed.
Definition lg_power (w0 z : R) (p k : nat) : R := PI * (w0 ^ 2 / 2) ^ Datatypes.S k * (1 + z ^ 2) ^ k * (INR (fact (p + k)) / INR (fact p)).
Lemma lg_power_pos w0 z p k : 0 < w0 -> 0 < lg_power w0 z p k.
Proof.
  intros Hw. unfold lg_power. pose proof PI_RGT_0. assert (0 < w0 ^ 2) by (apply pow_lt, Hw). pose proof (pow2_ge_0 z).
  apply Rmult_lt_0_compat; [apply Rmult_lt_0_compat; [apply Rmult_lt_0_compat; [assumption|apply pow_lt; lra]|apply pow_lt; lra]|].
  apply Rdiv_lt_0_compat; apply INR_fact_lt_0.
Qed.

(** ** Instances *)
Lemma library_pulse_ok l long D : library_pulse l long D -> tame1 (fun t => Cnorm2 (long t)) /\ pulse_duration long D /\ 0 < D.
Proof.
  intros [(tau & tp & cep & Ht & -> & ->)|(T & tp & cep & Ht & -> & ->)].
  - destruct (gauss_pulse l tau tp cep Ht) as (A & B). split; [exact A|]. split; [exact B|]. pose proof PI_RGT_0. apply Rmult_lt_0_compat; [exact Ht|]. apply sqrt_lt_R0. lra.
  - destruct (cosine_pulse l T tp cep Ht) as (A & B). split; [exact A|]. split; [exact B|exact Ht].
Qed.
Lemma c97_hermite l px py E long trans p nm nte w0 nx ny zf D : 0 < w0 -> hg_transverse w0 nx ny (Some l) zf = Ok trans -> library_pulse l long D ->
  combined_profile l [px; py] (Some E) long trans = Ok p -> 0 <= E -> settles_xyt p nm nte trans long (peak_factor E 1 D).
Proof.
  intros Hw HT HL Hp HE. destruct (hg_beam _ _ _ _ _ _ Hw HT) as (A & B). destruct (library_pulse_ok _ _ _ HL) as (F & G & PD).
  exact (c97_xyt l px py E long trans p nm nte 1 D Hp HE A F B G Rlt_0_1 PD).
Qed.
Lemma c97_gauss l px py E long trans p nm nte w0 zf D : 0 < w0 -> gaussian_transverse w0 (Some l) zf = Ok trans -> library_pulse l long D ->
  combined_profile l [px; py] (Some E) long trans = Ok p -> 0 <= E -> settles_xyt p nm nte trans long (peak_factor E (PI * w0 ^ 2 / 2) D).
Proof.
  intros Hw HT HL Hp HE. destruct (gauss_beam _ _ _ _ Hw HT) as (A & B). destruct (library_pulse_ok _ _ _ HL) as (F & G & PD).
  refine (c97_xyt l px py E long trans p nm nte _ D Hp HE A F B G _ PD).
  pose proof PI_RGT_0. assert (0 < w0 ^ 2) by (apply pow_lt, Hw). apply Rdiv_lt_0_compat; [apply Rmult_lt_0_compat; assumption|lra].
Qed.
Lemma c97_laguerre l px py E long trans p (M : nat) nte w0 q m zf D : 0 < w0 -> lg_transverse w0 q m (Some l) zf = Ok trans -> library_pulse l long D ->
  combined_profile l [px; py] (Some E) long trans = Ok p -> 0 <= E -> (Z.abs m < Z.of_nat M)%Z ->
  (2 * Z.of_nat M - 1 <= match nte with None => 2 * Z.of_nat M - 1 | Some n => n end)%Z ->
  settles_rt p M nte trans long (peak_factor E (lg_power w0 (zf * l / (PI * w0 ^ 2)) q (Z.abs_nat m)) D).
Proof.
  intros Hw HT HL Hp HE HM Hn. destruct (library_pulse_ok _ _ _ HL) as (F & G & PD). pose proof (c80_power _ _ _ _ _ _ Hw HT) as HP.
  destruct (lg_transverse_inv _ _ _ _ _ _ HT) as (z & Hz & ->).
  refine (c97_rt l px py E long _ p M nte (fun n r => if Z.eqb n m then lg_trans_at w0 q m z r 0 else RtoC 0) _ D Hp HE _ Hn _ (lg_tame w0 q m z Hw) F HP G (lg_power_pos _ _ _ _ Hw) PD); [lia|].
  intros r th. rewrite recon_one by exact HM. rewrite c44_at. apply Cmult_comm.
Qed.
