From Verif Require Import PyBase CSum NumPy NpMath NpMathProofs GridModel GridSpec LaserSpec LaserModel LaserInitProofs EnergyProofs FrequencyProofs ProfileModel ProfileSpec ProfileProofs AnalyticModel AnalyticProofs.
Open Scope R_scope.

Lemma cpow_mult a b n : cpow (Cmult a b) n = Cmult (cpow a n) (cpow b n).
Proof. induction n; cbn [cpow]; [ring|]. rewrite IHn. ring. Qed.
Lemma cpow_RtoC r n : cpow (RtoC r) n = RtoC (r ^ n).
Proof. induction n; cbn [cpow pow]; [reflexivity|]. rewrite IHn, RtoC_mult. reflexivity. Qed.
Lemma cpow_cis a n : cpow (cis a) n = cis (INR n * a).
Proof.
  induction n; cbn [cpow]; [simpl; rewrite Rmult_0_l, cis_0; reflexivity|]. rewrite IHn, <- cis_plus. f_equal. rewrite S_INR. ring.
Qed.
Lemma INR_abs_nat m : (0 < m)%Z -> INR (Z.abs_nat m) = IZR m.
Proof. intros H. rewrite INR_IZR_INZ. f_equal. lia. Qed.
Lemma INR_abs_nat_neg m : (m <= 0)%Z -> INR (Z.abs_nat m) = - IZR m.
Proof. intros H. rewrite INR_IZR_INZ. replace (Z.of_nat (Z.abs_nat m)) with (- m)%Z by lia. rewrite opp_IZR. reflexivity. Qed.

(** What is common to every angle: all but the factor (x -+ i y)^|m|. *)
Definition lg_radial (w0 : R) (p : nat) (m : Z) (z s : R) : C :=
  let d : C := (1, - z) in
  Cmult (Cmult (RtoC (genlaguerre p (Z.abs_nat m) (2 * s / (w0 * Cmod d) ^ 2)))
    (cexp (Cminus (Cdiv (RtoC (- s)) (Cmult (RtoC (w0 ^ 2)) d))
                  (Cmult (Cmult Ci (RtoC (IZR (2 * Z.of_nat p + m)))) (RtoC (angle d))))))
    (Cdiv (RtoC 1) d).
Lemma lg_split w0 p m z x y : lg_trans_at w0 p m z x y =
  Cmult (cpow (if Z.ltb 0 m then (x, - y) else (x, y)) (Z.abs_nat m)) (lg_radial w0 p m z (x ^ 2 + y ^ 2)).
Proof.
  unfold lg_trans_at, lg_radial. cbv zeta. set (pos := if Z.ltb 0 m then ((x, - y) : C) else ((x, y) : C)).
  assert (E : Cmod pos ^ 2 = x ^ 2 + y ^ 2) by (rewrite Cmod_sq; unfold pos, Cnorm2; destruct (Z.ltb 0 m); cbn [fst snd]; ring).
  rewrite E. ring.
Qed.
Lemma lg_pos r theta m : cpow (if Z.ltb 0 m then (r * cos theta, - (r * sin theta)) else (r * cos theta, r * sin theta)) (Z.abs_nat m) =
  Cmult (cis (- (IZR m * theta))) (RtoC (r ^ Z.abs_nat m)).
Proof.
  destruct (Z.ltb_spec 0 m) as [L|L].
  - replace ((r * cos theta, - (r * sin theta)) : C) with (Cmult (RtoC r) (cis (- theta))).
    + rewrite cpow_mult, cpow_RtoC, cpow_cis, INR_abs_nat by exact L. replace (IZR m * - theta) with (- (IZR m * theta)) by ring. ring.
    + unfold cis, Cmult, RtoC; cbn [fst snd]. rewrite cos_neg, sin_neg. f_equal; ring.
  - replace ((r * cos theta, r * sin theta) : C) with (Cmult (RtoC r) (cis theta)).
    + rewrite cpow_mult, cpow_RtoC, cpow_cis, INR_abs_nat_neg by exact L. replace (- IZR m * theta) with (- (IZR m * theta)) by ring. ring.
    + unfold cis, Cmult, RtoC; cbn [fst snd]. f_equal; ring.
Qed.
Lemma lg_axis w0 p m z r : lg_trans_at w0 p m z r 0 = Cmult (RtoC (r ^ Z.abs_nat m)) (lg_radial w0 p m z (r ^ 2)).
Proof.
  rewrite lg_split. replace (r ^ 2 + 0 ^ 2) with (r ^ 2) by ring. f_equal.
  assert (E : (if Z.ltb 0 m then ((r, - 0) : C) else ((r, 0) : C)) = RtoC r) by (unfold RtoC; destruct (Z.ltb 0 m); f_equal; ring). rewrite E. apply cpow_RtoC.
Qed.
Lemma c44_at w0 p m z r theta : lg_trans_at w0 p m z (r * cos theta) (r * sin theta) =
  Cmult (cis (- (IZR m * theta))) (lg_trans_at w0 p m z r 0).
Proof.
  rewrite lg_axis, lg_split, lg_pos. replace ((r * cos theta) ^ 2 + (r * sin theta) ^ 2) with (r ^ 2).
  - ring.
  - pose proof (sin2_cos2 theta) as H. unfold Rsqr in H. replace ((r * cos theta) ^ 2 + (r * sin theta) ^ 2) with (r ^ 2 * (sin theta * sin theta + cos theta * cos theta)) by ring.
    rewrite H. ring.
Qed.
Lemma lg_transverse_inv w0 p m wl zf tr : lg_transverse w0 p m wl zf = Ok tr -> exists z, z_foc_over_zr w0 wl zf = Ok z /\ tr = lg_trans_at w0 p m z.
Proof. unfold lg_transverse. destruct (z_foc_over_zr w0 wl zf) as [z|]; cbn [bind]; [|discriminate]. intros H. injection H as <-. eauto. Qed.
(** ** C44: azimuthal content *)
Lemma c44_azimuthal w0 p m wl zf tr : lg_transverse w0 p m wl zf = Ok tr ->
  forall r theta, tr (r * cos theta) (r * sin theta) = Cmult (cis (- (IZR m * theta))) (tr r 0).
Proof. intros H r theta. destruct (lg_transverse_inv _ _ _ _ _ _ H) as (z & _ & ->). apply c44_at. Qed.
(** The documented formula, in focus. *)
Lemma c44_focus w0 p m wl tr : lg_transverse w0 p m wl 0 = Ok tr -> w0 <> 0 ->
  forall r theta, tr (r * cos theta) (r * sin theta) =
    Cmult (Cmult (RtoC (r ^ Z.abs_nat m)) (cis (- (IZR m * theta))))
          (RtoC (genlaguerre p (Z.abs_nat m) (2 * r ^ 2 / w0 ^ 2) * exp (- (r ^ 2 / w0 ^ 2)))).
Proof.
  intros H Hw r theta. rewrite (c44_azimuthal _ _ _ _ _ _ H). destruct (lg_transverse_inv _ _ _ _ _ _ H) as (z & Hz & ->).
  unfold z_foc_over_zr in Hz. rewrite (proj2 (Reqb_true 0 0) eq_refl) in Hz. injection Hz as <-. rewrite lg_axis. unfold lg_radial.
  assert (E1 : (1, - 0) = RtoC 1) by (unfold RtoC; f_equal; ring). rewrite E1.
  assert (E2 : angle (RtoC 1) = 0). { rewrite <- (angle_unique 1 0); [f_equal; rewrite cis_0; ring|lra|pose proof PI_RGT_0; lra]. }
  rewrite E2, Cmod_1, Rmult_1_r. 
  replace (Cminus (Cdiv (RtoC (- r ^ 2)) (Cmult (RtoC (w0 ^ 2)) (RtoC 1))) (Cmult (Cmult Ci (RtoC (IZR (2 * Z.of_nat p + m)))) (RtoC 0))) with (RtoC (- (r ^ 2 / w0 ^ 2))).
  - rewrite cexp_real. unfold Cdiv. rewrite <- RtoC_inv by lra. rewrite Rinv_1, !Cmult_1_r, RtoC_mult. ring.
  - rewrite Cmult_1_r. unfold Cdiv. rewrite <- RtoC_inv by (apply pow_nonzero; exact Hw). rewrite <- RtoC_mult.
    replace (Cmult (Cmult Ci (RtoC (IZR (2 * Z.of_nat p + m)))) (RtoC 0)) with (RtoC 0) by ring. unfold Cminus. rewrite <- RtoC_opp, <- RtoC_plus. f_equal. unfold Rdiv. ring.
Qed.

Lemma recon_single K m a theta : (Z.abs m <= Z.of_nat K)%Z ->
  recon (S K) (fun m' => if Z.eqb m' m then a else RtoC 0) theta = Cmult a (cis (- (IZR m * theta))).
Proof.
  intros Hm. unfold recon. rewrite (csum_single _ _ (Z.to_nat (m + Z.of_nat K))).
  - cbn zeta. replace (Z.of_nat (Z.to_nat (m + Z.of_nat K)) - (Z.of_nat (S K) - 1))%Z with m by lia. rewrite Z.eqb_refl. reflexivity.
  - lia.
  - intros i Hi Hne. cbn zeta. destruct (Z.eqb_spec (Z.of_nat i - (Z.of_nat (S K) - 1)) m) as [E|E]; [exfalso; apply Hne; lia|ring].
Qed.
Lemma combined_inv l pol E lg tr p : combined_profile l pol E lg tr = Ok p ->
  p_energy p = Some E /\ p_lambda0 p = l /\ p_dtype p = Complex128 /\ forall x y t, p_eval p x y t = Cmult (tr x y) (lg t).
Proof.
  unfold combined_profile, profile_init. destruct pol as [|px [|py [|? ?]]]; cbn [bind]; try discriminate. intros H. injection H as <-. cbn. auto.
Qed.
(** A Laser("rt") built from it holds it in mode m only. *)
Lemma c44_modes lo hi np n1 nt (M : nat) nte w0 p m wl zf tr l pol E lg pr L :
  lg_transverse w0 p m wl zf = Ok tr -> combined_profile l pol (Some E) lg tr = Ok pr ->
  laser_init Rt lo hi np pr (Z.of_nat M) nte = Ok L -> 0 <= E ->
  nth_error np 0 = Some n1 -> nth_error np 1 = Some nt -> (2 <= n1)%nat -> (2 <= nt)%nat ->
  0 <= nth 0 lo 0 -> nth 0 lo 0 < nth 0 hi 0 -> nth 1 lo 0 < nth 1 hi 0 ->
  (Z.abs m < Z.of_nat M)%Z -> (Z.abs m + Z.of_nat M <= match nte with None => 2 * Z.of_nat M - 1 | Some n => n end)%Z ->
  exists a s, snd (get_temporal_field (l_grid L)) = Ok a /\ shp a = [(2 * M - 1)%nat; n1; nt] /\ 0 <= s /\ (0 < E -> 0 < s) /\
    forall m' j k, (- Z.of_nat M < m' < Z.of_nat M)%Z -> (j < n1)%nat -> (k < nt)%nat ->
      at3 a (mode_slot M m') j k =
        if Z.eqb m' m then Cmult (RtoC s) (Cmult (tr (coord (nth 0 lo 0) (nth 0 hi 0) n1 j) 0) (lg (coord (nth 1 lo 0) (nth 1 hi 0) nt k)))
        else RtoC 0.
Proof.
  intros Ht Hc HL HE N1 N2 G1 G2 B0 B1 B2 HM Hn. destruct (combined_inv _ _ _ _ _ _ Hc) as (He & _ & _ & Hev).
  pose (A := fun (m' : Z) r t => if Z.eqb m' m then Cmult (tr r 0) (lg t) else RtoC 0).
  destruct (rt_modes lo hi np n1 nt pr M nte L (Z.abs_nat m) A HL N1 N2 B0 B1 B2) as (a & s & Ha & Hs & Hp & Hv & Hf).
  - rewrite He. exact HE.
  - intros r t theta. rewrite Hev, (c44_azimuthal _ _ _ _ _ _ Ht). unfold A. rewrite recon_single by lia. ring.
  - destruct nte; lia.
  - exists a, s. split; [exact Ha|]. split; [exact Hs|]. split; [exact Hp|]. split.
    { intros H0. rewrite He in Hf. cbn [energy_factor] in Hf. destruct Hf as [F1 F2].
      match type of F1 with ?e = 0 -> _ => assert (N0 : 0 <= e) by (apply E_rt_nonneg; assumption) end.
      destruct N0 as [N0|N0]; [rewrite (F2 N0); apply sqrt_lt_R0, Rdiv_lt_0_compat; lra|rewrite (F1 (eq_sym N0)); lra]. }
    intros m' j k Hm' Hj Hk. rewrite Hv by assumption. unfold A.
    destruct (Z.eqb_spec m' m) as [->|N].
    + rewrite (proj2 (Z.leb_le _ _)) by lia. reflexivity.
    + destruct (Z.leb _ _); ring.
Qed.

(** ** C44: mirror images *)
Lemma abs_nat_opp m : Z.abs_nat (- m) = Z.abs_nat m.
Proof. lia. Qed.
Lemma lg_radial_mirror w0 p m z s : lg_radial w0 p (- m) z s = Cmult (cis (2 * IZR m * angle (1, - z))) (lg_radial w0 p m z s).
Proof.
  unfold lg_radial. rewrite abs_nat_opp. set (G := RtoC (genlaguerre _ _ _)). set (X := Cdiv (RtoC (- s)) _). set (psi := angle _). set (D := Cdiv (RtoC 1) _).
  assert (E : forall k : Z, cexp (Cminus X (Cmult (Cmult Ci (RtoC (IZR k))) (RtoC psi))) = Cmult (cexp X) (cis (- (IZR k * psi)))).
  { intros k. rewrite <- cexp_imag, <- cexp_plus. f_equal. unfold Cminus. f_equal. unfold Cmult, Ci, RtoC, Copp; cbn [fst snd]. f_equal; ring. }
  rewrite !E. replace (- (IZR (2 * Z.of_nat p + - m) * psi)) with (2 * IZR m * psi + - (IZR (2 * Z.of_nat p + m) * psi)).
  - rewrite cis_plus. ring.
  - rewrite !plus_IZR, opp_IZR. ring.
Qed.
(** The mode -m is the mirror image of the mode m up to the constant phase 2 m psi. *)
Lemma c44_mirror_at w0 p m z x y : lg_trans_at w0 p (- m) z x (- y) = Cmult (cis (2 * IZR m * angle (1, - z))) (lg_trans_at w0 p m z x y).
Proof.
  rewrite !lg_split, lg_radial_mirror. replace (x ^ 2 + (- y) ^ 2) with (x ^ 2 + y ^ 2) by ring. rewrite abs_nat_opp.
  destruct (Z.eq_dec m 0) as [->|N]; [cbn [Z.abs_nat cpow]; ring|].
  assert (E : (if Z.ltb 0 (- m) then ((x, - - y) : C) else ((x, - y) : C)) = (if Z.ltb 0 m then ((x, - y) : C) else ((x, y) : C))).
  { destruct (Z.ltb_spec 0 (- m)), (Z.ltb_spec 0 m); try lia; f_equal; ring. }
  rewrite E. ring.
Qed.
Lemma c44_mirror w0 p m wl zf tr tr' : lg_transverse w0 p m wl zf = Ok tr -> lg_transverse w0 p (- m) wl zf = Ok tr' ->
  exists c, Cmod c = 1 /\ (zf = 0 \/ m = 0%Z -> c = RtoC 1) /\ forall x y, tr' x y = Cmult c (tr x (- y)).
Proof.
  intros H H'. destruct (lg_transverse_inv _ _ _ _ _ _ H) as (z & Hz & ->). destruct (lg_transverse_inv _ _ _ _ _ _ H') as (z' & Hz' & ->).
  rewrite Hz in Hz'. injection Hz' as <-. exists (cis (2 * IZR m * angle (1, - z))). split; [apply Cmod_cis|]. split.
  - intros [-> | ->].
    + unfold z_foc_over_zr in Hz. rewrite (proj2 (Reqb_true 0 0) eq_refl) in Hz. injection Hz as <-.
      assert (E1 : (1, - 0) = RtoC 1) by (unfold RtoC; f_equal; ring). rewrite E1.
      assert (E2 : angle (RtoC 1) = 0). { rewrite <- (angle_unique 1 0); [f_equal; rewrite cis_0; ring|lra|pose proof PI_RGT_0; lra]. }
      rewrite E2, Rmult_0_r. apply cis_0.
    + rewrite Rmult_0_r, Rmult_0_l. apply cis_0.
  - intros x y. pose proof (c44_mirror_at w0 p m z x (- y)) as E. rewrite Ropp_involutive in E. exact E.
Qed.
Lemma angle_1m : angle (1, Ropp 1) = - (PI / 4).
Proof.
  assert (Hs : 0 < sqrt 2) by (apply sqrt_lt_R0; lra). assert (Es : sqrt 2 * sqrt 2 = 2) by (apply sqrt_sqrt; lra).
  rewrite <- (angle_unique (sqrt 2) (- (PI / 4))); [|exact Hs|pose proof PI_RGT_0; lra]. f_equal.
  unfold cis, Cmult, RtoC; cbn [fst snd]. rewrite cos_neg, sin_neg, cos_PI4, sin_PI4. f_equal; field; lra.
Qed.
(** REFUTED out of focus: one Rayleigh length away the mode -1 is the mirror image of the mode 1 times -i. *)
Lemma c44_mirror_refuted : exists tr tr', lg_transverse 1 0 1 (Some PI) 1 = Ok tr /\ lg_transverse 1 0 (-1) (Some PI) 1 = Ok tr' /\
  tr 1 (- 0) <> RtoC 0 /\ tr' 1 0 = Cmult (Copp Ci) (tr 1 (- 0)) /\ tr' 1 0 <> tr 1 (- 0).
Proof.
  pose proof PI_RGT_0 as HP. unfold lg_transverse. rewrite z_foc_ok. cbn [bind].
  assert (Ez : 1 * PI / (PI * 1 ^ 2) = 1) by (field; lra). rewrite Ez. eexists. eexists. split; [reflexivity|]. split; [reflexivity|].
  assert (Hn : lg_trans_at 1 0 1 1 1 (- 0) <> RtoC 0).
  { rewrite lg_split. apply Cmult_neq_0.
    - change (cpow (1, - - 0) 1 <> RtoC 0). cbn [cpow]. rewrite Cmult_1_r. intros E. apply (f_equal fst) in E. simpl in E. lra.
    - unfold lg_radial. apply Cmult_neq_0; [apply Cmult_neq_0|].
      + intros E. apply RtoC_inj in E. unfold genlaguerre in E. cbn [rsum Z.abs_nat Pos.to_nat Pos.iter_op Nat.add] in E. simpl in E. lra.
      + apply cexp_neq0.
      + unfold Cdiv. rewrite Cmult_1_l. intros E. apply (f_equal (fun c => Cmult c (1, - (1)))) in E. rewrite Cinv_l in E by apply dfac_neq0.
        apply (f_equal fst) in E. simpl in E. lra. }
  split; [exact Hn|].
  assert (E : lg_trans_at 1 0 (-1) 1 1 0 = Cmult (Copp Ci) (lg_trans_at 1 0 1 1 1 (- 0))).
  { pose proof (c44_mirror_at 1 0 1 1 1 (- 0)) as E. rewrite Ropp_involutive in E. rewrite angle_1m in E. change (- (1))%Z with (-1)%Z in E. rewrite E. f_equal.
    replace (2 * 1 * - (PI / 4)) with (- (PI / 2)) by field. unfold cis. rewrite cos_neg, sin_neg, cos_PI2, sin_PI2. unfold Copp, Ci; cbn [fst snd]. f_equal; ring. }
  split; [exact E|]. rewrite E. intros E'. apply Hn.
  assert (X : Cmult (Cminus (Copp Ci) (RtoC 1)) (lg_trans_at 1 0 1 1 1 (- 0)) = RtoC 0).
  { replace (Cmult (Cminus (Copp Ci) (RtoC 1)) (lg_trans_at 1 0 1 1 1 (- 0))) with (Cminus (Cmult (Copp Ci) (lg_trans_at 1 0 1 1 1 (- 0))) (lg_trans_at 1 0 1 1 1 (- 0))) by ring. rewrite E'. ring. }
  apply Cmult_integral in X as [X|X]; [|exact X]. apply (f_equal fst) in X. simpl in X. lra.
Qed.
