(** C86 at the level of the laser. *)
From Coquelicot Require Import Coquelicot.
From Verif Require Import PyBase CSum NpFFT NumPy GridModel GridSpec GridProofs LaserSpec GridObs EnergyModel EnergyProofs LaserModel OpticsModel LaserOps
  LaserInv LaserInitProofs AngularProofs HistoryProofs OpticsProofs OpticsProofs2 LaserExamples ConvergeSpec ConvergeProofs.
Open Scope R_scope.



Lemma c86_xyt K lo hi p nm nte :
  length lo = 3%nat -> length hi = 3%nat ->
  nth 0 lo 0 < nth 0 hi 0 -> nth 1 lo 0 < nth 1 hi 0 -> nth 2 lo 0 < nth 2 hi 0 ->
  p_energy p = None -> p_dtype p = Complex128 -> 0 <= K ->
  lip_intensity K (nth 0 lo 0) (nth 0 hi 0) (nth 1 lo 0) (nth 1 hi 0) (nth 2 lo 0) (nth 2 hi 0) (p_eval p) ->
  exists A, 0 <= A /\ forall n0 n1 nt, (2 <= n0)%nat -> (2 <= n1)%nat -> (2 <= nt)%nat ->
  exists L e, laser_init Xyt lo hi [n0;n1;nt] p nm nte = Ok L /\
    snd (compute_laser_energy Xyt (l_grid L)) = Ok e /\
    Rabs (e - U_xyt (nth 0 lo 0) (nth 0 hi 0) (nth 1 lo 0) (nth 1 hi 0) (nth 2 lo 0) (nth 2 hi 0) (p_eval p)) <=
    A * (spacing (nth 0 lo 0) (nth 0 hi 0) n0 + spacing (nth 1 lo 0) (nth 1 hi 0) n1 + spacing (nth 2 lo 0) (nth 2 hi 0) nt).
Proof.
  intros Hlo Hhi B0 B1 B2 He Hd HK HL.
  destruct (conv_xyt K lo hi (p_eval p) B0 B1 B2 HK HL) as (A & HA & HC).
  exists A. split; [exact HA|]. intros n0 n1 nt N0 N1 N2.
  assert (HR : energy_request_ok (p_energy p)) by (rewrite He; exact I).
  destruct (xyt_construct_ok lo hi n0 n1 nt p nm nte Hlo Hhi N0 N1 N2 B0 B1 B2 HR Hd) as (L & HI).
  destruct (xyt_samples lo hi n0 n1 nt p nm nte L HI B0 B1 B2 HR) as (a & s & Ha & _ & _ & Hs & Hf).
  rewrite He in Hf. cbn [energy_factor] in Hf. subst s.
  destruct (c13_xyt id_solvers lo hi n0 n1 nt p nm nte L [] a HI Ha) as (E & _). cbn [lrun fold_left] in E.
  exists L, (E_xyt lo hi n0 n1 nt (at3 a)). split; [exact HI|]. split; [exact E|].
  rewrite (E_xyt_ext lo hi n0 n1 nt (at3 a) _ (fun i j k Hi Hj Hk => eq_trans (Hs i j k Hi Hj Hk) (Cmult_1_l _))).
  apply HC; assumption.
Qed.

Lemma c86_xyt_field K lo hi p nm nte E :
  let U := U_xyt (nth 0 lo 0) (nth 0 hi 0) (nth 1 lo 0) (nth 1 hi 0) (nth 2 lo 0) (nth 2 hi 0) (p_eval p) in
  length lo = 3%nat -> length hi = 3%nat ->
  nth 0 lo 0 < nth 0 hi 0 -> nth 1 lo 0 < nth 1 hi 0 -> nth 2 lo 0 < nth 2 hi 0 ->
  p_energy p = Some (Some E) -> 0 <= E -> p_dtype p = Complex128 -> 0 <= K ->
  lip_intensity K (nth 0 lo 0) (nth 0 hi 0) (nth 1 lo 0) (nth 1 hi 0) (nth 2 lo 0) (nth 2 hi 0) (p_eval p) ->
  0 < U ->
  forall eps, 0 < eps -> exists N, forall n0 n1 nt, (N <= n0)%nat -> (N <= n1)%nat -> (N <= nt)%nat ->
  exists L a s, laser_init Xyt lo hi [n0;n1;nt] p nm nte = Ok L /\
    snd (get_temporal_field (l_grid L)) = Ok a /\ Rabs (s - sqrt (E / U)) < eps /\
    forall i j k, (i < n0)%nat -> (j < n1)%nat -> (k < nt)%nat ->
      at3 a i j k = Cmult (RtoC s) (p_eval p (coord (nth 0 lo 0) (nth 0 hi 0) n0 i)
        (coord (nth 1 lo 0) (nth 1 hi 0) n1 j) (coord (nth 2 lo 0) (nth 2 hi 0) nt k)).
Proof.
  intros U Hlo Hhi B0 B1 B2 He HE Hd HK HL HU eps Heps.
  destruct (conv_xyt K lo hi (p_eval p) B0 B1 B2 HK HL) as (A & HA & HC). fold U in HC.
  destruct (sqrt_ratio_cont E U HE HU eps Heps) as (d & Hdp & HD).
  set (h := d / (3 * (A + 1))). assert (Hh : 0 < h) by (unfold h; apply Rdiv_lt_0_compat; lra).
  destruct (spacing_small _ _ h B0 Hh) as (M0 & Q0 & S0). destruct (spacing_small _ _ h B1 Hh) as (M1 & Q1 & S1).
  destruct (spacing_small _ _ h B2 Hh) as (M2 & Q2 & S2).
  exists (M0 + M1 + M2)%nat. intros n0 n1 nt N0 N1 N2.
  assert (HR : energy_request_ok (p_energy p)) by (rewrite He; exact HE).
  destruct (xyt_construct_ok lo hi n0 n1 nt p nm nte Hlo Hhi ltac:(lia) ltac:(lia) ltac:(lia) B0 B1 B2 HR Hd) as (L & HI).
  destruct (xyt_samples lo hi n0 n1 nt p nm nte L HI B0 B1 B2 HR) as (a & s & Ha & _ & _ & Hs & Hf).
  rewrite He in Hf. cbn [energy_factor] in Hf. destruct Hf as (_ & Hf).
  exists L, a, s. split; [exact HI|]. split; [exact Ha|]. split; [|exact Hs].
  specialize (HC n0 n1 nt ltac:(lia) ltac:(lia) ltac:(lia)).
  specialize (S0 n0 ltac:(lia)). specialize (S1 n1 ltac:(lia)). specialize (S2 nt ltac:(lia)).
  set (e := E_xyt lo hi n0 n1 nt _) in *.
  assert (Hd' : Rabs (e - U) < d).
  { eapply Rle_lt_trans; [exact HC|].
    apply Rle_lt_trans with (A * (3 * h)); [apply Rmult_le_compat_l; lra|].
    apply Rlt_le_trans with ((A + 1) * (3 * h)); [nra|]. unfold h. right. field. lra. }
  destruct (HD e Hd') as (P & Q). rewrite (Hf P). exact Q.
Qed.

Lemma rt_factor lo hi np n1 nt p (M : nat) nte L (A : Z -> R -> R -> C) :
  laser_init Rt lo hi np p (Z.of_nat M) nte = Ok L -> (1 <= M)%nat ->
  nth_error np 0 = Some n1 -> nth_error np 1 = Some nt ->
  0 <= nth 0 lo 0 -> nth 0 lo 0 < nth 0 hi 0 -> nth 1 lo 0 < nth 1 hi 0 ->
  energy_request_ok (p_energy p) ->
  (forall r t theta, p_eval p (r * cos theta) (r * sin theta) t = recon M (fun m => A m r t) theta) ->
  (2 * Z.of_nat M - 1 <= match nte with None => 2 * Z.of_nat M - 1 | Some n => n end)%Z ->
  let f := fun q j k => A (Z.of_nat q - (Z.of_nat M - 1))%Z (coord (nth 0 lo 0) (nth 0 hi 0) n1 j) (coord (nth 1 lo 0) (nth 1 hi 0) nt k) in
  exists a s, snd (get_temporal_field (l_grid L)) = Ok a /\
    (forall m j k, (- Z.of_nat M < m < Z.of_nat M)%Z -> (j < n1)%nat -> (k < nt)%nat ->
       at3 a (mode_slot M m) j k = Cmult (RtoC s) (A m (coord (nth 0 lo 0) (nth 0 hi 0) n1 j) (coord (nth 1 lo 0) (nth 1 hi 0) nt k))) /\
    energy_factor (p_energy p) (E_rt lo hi (2 * M - 1) n1 nt f) s.
Proof.
  intros HI HM N1 N2 B0 B1 B2 HR HA Hn f.
  destruct (rt_modes lo hi np n1 nt p M nte L (M - 1) A HI N1 N2 B0 B1 B2 HR) as (a & s & Ha & _ & _ & Hs & Hf).
  - intros r t th. replace (S (M - 1)) with M by lia. apply HA.
  - destruct nte; lia.
  - exists a, s. split; [exact Ha|]. split.
    + intros m j k Hm Hj Hk. rewrite (Hs m j k Hm Hj Hk). f_equal.
      replace (Z.leb (Z.abs m) (Z.of_nat (M - 1))) with true by (symmetry; apply Z.leb_le; lia). reflexivity.
    + erewrite E_rt_ext; [exact Hf|]. intros q j k Hq Hj Hk. unfold f. cbv beta.
      replace (Z.leb (Z.abs (Z.of_nat q - (Z.of_nat M - 1))) (Z.of_nat (M - 1))) with true by (symmetry; apply Z.leb_le; lia). reflexivity.
Qed.

Lemma E_rt_slots lo hi M n1 nt (g : nat -> nat -> nat -> C) : (1 <= M)%nat ->
  E_rt lo hi (2 * M - 1) n1 nt g =
  E_rt lo hi (2 * M - 1) n1 nt (fun q j k => g (mode_slot M (Z.of_nat q - (Z.of_nat M - 1))) j k).
Proof.
  intros HM. unfold E_rt. f_equal. unfold rsum3.
  rewrite (rsum_slots M (fun i => rsum n1 (fun j => rsum nt (fun k => 2 * PI * coord (nth 0 lo 0) (nth 0 hi 0) n1 j
     * spacing (nth 0 lo 0) (nth 0 hi 0) n1 * (c_light * spacing (nth 1 lo 0) (nth 1 hi 0) nt) * Cnorm2 (g i j k)))) HM).
  reflexivity.
Qed.

Lemma c86_rt K lo hi p (M : nat) nte (A : Z -> R -> R -> C) :
  length lo = 2%nat -> length hi = 2%nat -> (1 <= M)%nat ->
  0 <= nth 0 lo 0 -> nth 0 lo 0 < nth 0 hi 0 -> nth 1 lo 0 < nth 1 hi 0 ->
  p_energy p = None -> 0 <= K ->
  lip_intensity K (- nth 0 hi 0) (nth 0 hi 0) (- nth 0 hi 0) (nth 0 hi 0) (nth 1 lo 0) (nth 1 hi 0) (p_eval p) ->
  (forall r t theta, p_eval p (r * cos theta) (r * sin theta) t = recon M (fun m => A m r t) theta) ->
  (2 * Z.of_nat M - 1 <= match nte with None => 2 * Z.of_nat M - 1 | Some n => n end)%Z ->
  exists B, 0 <= B /\ forall n1 nt, (2 <= n1)%nat -> (2 <= nt)%nat ->
  exists L e, laser_init Rt lo hi [n1;nt] p (Z.of_nat M) nte = Ok L /\
    snd (compute_laser_energy Rt (l_grid L)) = Ok e /\
    Rabs (e - U_rt (nth 0 lo 0) (nth 0 hi 0) (nth 1 lo 0) (nth 1 hi 0) (p_eval p)) <=
    B * (spacing (nth 0 lo 0) (nth 0 hi 0) n1 + spacing (nth 1 lo 0) (nth 1 hi 0) nt).
Proof.
  intros Hlo Hhi HM B0 B1 B2 He HK HL HA Hn.
  destruct (conv_rt K lo hi M (p_eval p) A B0 B1 B2 HK HM HL HA) as (B & HB & HC).
  exists B. split; [exact HB|]. intros n1 nt N1 N2.
  assert (HR : energy_request_ok (p_energy p)) by (rewrite He; exact I).
  destruct (rt_construct_ok lo hi [n1;nt] n1 nt p M nte Hlo Hhi eq_refl eq_refl N1 N2 HM B0 B1 B2 HR Hn) as (L & HI).
  destruct (rt_factor lo hi [n1;nt] n1 nt p M nte L A HI HM eq_refl eq_refl B0 B1 B2 HR HA Hn) as (a & s & Ha & Hs & Hf).
  rewrite He in Hf. cbn [energy_factor] in Hf. subst s.
  destruct (c13_rt id_solvers lo hi [n1;nt] n1 nt p M nte L [] a HI ltac:(constructor) eq_refl eq_refl Ha) as (E & _ & _). cbn [lrun fold_left] in E.
  exists L, (E_rt lo hi (2 * M - 1) n1 nt (at3 a)). split; [exact HI|]. split; [exact E|].
  rewrite (E_rt_slots _ _ _ _ _ _ HM).
  rewrite (E_rt_ext lo hi (2 * M - 1) n1 nt _ (fun q j k => A (Z.of_nat q - (Z.of_nat M - 1))%Z
     (coord (nth 0 lo 0) (nth 0 hi 0) n1 j) (coord (nth 1 lo 0) (nth 1 hi 0) nt k))).
  - apply HC; assumption.
  - intros q j k Hq Hj Hk. rewrite Hs by (try assumption; lia). apply Cmult_1_l.
Qed.

Lemma c86_rt_field K lo hi p (M : nat) nte (A : Z -> R -> R -> C) E :
  let U := U_rt (nth 0 lo 0) (nth 0 hi 0) (nth 1 lo 0) (nth 1 hi 0) (p_eval p) in
  length lo = 2%nat -> length hi = 2%nat -> (1 <= M)%nat ->
  0 <= nth 0 lo 0 -> nth 0 lo 0 < nth 0 hi 0 -> nth 1 lo 0 < nth 1 hi 0 ->
  p_energy p = Some (Some E) -> 0 <= E -> 0 <= K ->
  lip_intensity K (- nth 0 hi 0) (nth 0 hi 0) (- nth 0 hi 0) (nth 0 hi 0) (nth 1 lo 0) (nth 1 hi 0) (p_eval p) ->
  (forall r t theta, p_eval p (r * cos theta) (r * sin theta) t = recon M (fun m => A m r t) theta) ->
  (2 * Z.of_nat M - 1 <= match nte with None => 2 * Z.of_nat M - 1 | Some n => n end)%Z ->
  0 < U ->
  forall eps, 0 < eps -> exists N, forall n1 nt, (N <= n1)%nat -> (N <= nt)%nat ->
  exists L a s, laser_init Rt lo hi [n1;nt] p (Z.of_nat M) nte = Ok L /\
    snd (get_temporal_field (l_grid L)) = Ok a /\ Rabs (s - sqrt (E / U)) < eps /\
    forall j k theta, (j < n1)%nat -> (k < nt)%nat ->
      recon M (comp M a j k) theta = Cmult (RtoC s) (p_eval p (coord (nth 0 lo 0) (nth 0 hi 0) n1 j * cos theta)
        (coord (nth 0 lo 0) (nth 0 hi 0) n1 j * sin theta) (coord (nth 1 lo 0) (nth 1 hi 0) nt k)).
Proof.
  intros U Hlo Hhi HM B0 B1 B2 He HE HK HL HA Hn HU eps Heps.
  destruct (conv_rt K lo hi M (p_eval p) A B0 B1 B2 HK HM HL HA) as (B & HB & HC). fold U in HC.
  destruct (sqrt_ratio_cont E U HE HU eps Heps) as (d & Hdp & HD).
  set (h := d / (2 * (B + 1))). assert (Hh : 0 < h) by (unfold h; apply Rdiv_lt_0_compat; lra).
  destruct (spacing_small _ _ h B1 Hh) as (M0 & Q0 & S0). destruct (spacing_small _ _ h B2 Hh) as (M1 & Q1 & S1).
  exists (M0 + M1)%nat. intros n1 nt N1 N2.
  assert (HR : energy_request_ok (p_energy p)) by (rewrite He; exact HE).
  destruct (rt_construct_ok lo hi [n1;nt] n1 nt p M nte Hlo Hhi eq_refl eq_refl ltac:(lia) ltac:(lia) HM B0 B1 B2 HR Hn) as (L & HI).
  destruct (rt_factor lo hi [n1;nt] n1 nt p M nte L A HI HM eq_refl eq_refl B0 B1 B2 HR HA Hn) as (a & s & Ha & Hs & Hf).
  rewrite He in Hf. cbn [energy_factor] in Hf. destruct Hf as (_ & Hf).
  exists L, a, s. split; [exact HI|]. split; [exact Ha|]. split.
  - specialize (HC n1 nt ltac:(lia) ltac:(lia)). specialize (S0 n1 ltac:(lia)). specialize (S1 nt ltac:(lia)).
    set (e := E_rt lo hi (2 * M - 1) n1 nt _) in *.
    assert (Hd' : Rabs (e - U) < d).
    { eapply Rle_lt_trans; [exact HC|].
      apply Rle_lt_trans with (B * (2 * h)); [apply Rmult_le_compat_l; lra|].
      apply Rlt_le_trans with ((B + 1) * (2 * h)); [nra|]. unfold h. right. field. lra. }
    destruct (HD e Hd') as (P & Q). rewrite (Hf P). exact Q.
  - intros j k th Hj Hk. rewrite HA. unfold recon. rewrite <- csum_scal_l. apply csum_ext. intros q Hq. cbv zeta.
    unfold comp. rewrite Hs by (try assumption; lia). rewrite Cmult_assoc. reflexivity.
Qed.

(** ** Example: the vortex r exp(-i theta) *)
Lemma vortex_lip r1 t0 t1 : 0 <= r1 -> lip_intensity (2 * r1) (- r1) r1 (- r1) r1 t0 t1 (p_eval ex_vortex).
Proof.
  intros Hr x x' y y' t t' Ix Ix' Iy Iy' _ _. unfold ex_vortex, Cnorm2. cbn [p_eval fst snd].
  replace (x * x + - y * - y - (x' * x' + - y' * - y')) with ((x - x') * (x + x') + (y - y') * (y + y')) by ring.
  eapply Rle_trans; [apply Rabs_triang|]. rewrite !Rabs_mult.
  assert (Rabs (x + x') <= 2 * r1) by (apply Rabs_le; lra). assert (Rabs (y + y') <= 2 * r1) by (apply Rabs_le; lra).
  pose proof (Rabs_pos (x - x')). pose proof (Rabs_pos (y - y')). pose proof (Rabs_pos (t - t')).
  assert (Rabs (x - x') * Rabs (x + x') <= Rabs (x - x') * (2 * r1)) by (apply Rmult_le_compat_l; assumption).
  assert (Rabs (y - y') * Rabs (y + y') <= Rabs (y - y') * (2 * r1)) by (apply Rmult_le_compat_l; assumption).
  assert (0 <= r1 * Rabs (t - t')) by (apply Rmult_le_pos; assumption). lra.
Qed.
Ltac eqR' := match goal with |- @eq _ ?a ?b => change (@eq R a b) end.
Lemma vortex_U_rt r1 t0 t1 : U_rt 0 r1 t0 t1 (p_eval ex_vortex) = eps0 / 2 * c_light * ((t1 - t0) * (PI / 2 * r1 ^ 4)).
Proof.
  unfold U_rt. f_equal.
  rewrite (RInt_ext _ (fun r => (t1 - t0) * (2 * PI * r ^ 3))).
  - apply is_RInt_unique.
    replace ((t1 - t0) * (PI / 2 * r1 ^ 4)) with (minus ((t1 - t0) * (PI / 2 * r1 ^ 4)) ((t1 - t0) * (PI / 2 * 0 ^ 4)))
      by (unfold minus, plus, opp; simpl; ring).
    apply (is_RInt_derive (fun r => (t1 - t0) * (PI / 2 * r ^ 4))).
    + intros r _. auto_derive; [exact I|]. simpl. field.
    + intros r _. apply (@ex_derive_continuous R_AbsRing R_NormedModule). auto_derive. exact I.
  - intros r _. rewrite (RInt_ext _ (fun _ => 2 * PI * r ^ 3)); [apply (@RInt_const R_CompleteNormedModule)|].
    intros t _. rewrite (RInt_ext _ (fun _ => r ^ 2)).
    + rewrite (@RInt_const R_CompleteNormedModule). change (scal (2 * PI - 0) (r ^ 2)) with ((2 * PI - 0) * r ^ 2). eqR'. simpl. ring.
    + intros th _. unfold ex_vortex, Cnorm2. cbn [p_eval fst snd].
      pose proof (sin2_cos2 th) as Q. unfold Rsqr in Q.
      replace (r * cos th * (r * cos th) + - (r * sin th) * - (r * sin th)) with (r ^ 2 * (sin th * sin th + cos th * cos th)) by ring.
      rewrite Q. eqR'. ring.
Qed.
Lemma vortex_U_xyt a t0 t1 : U_xyt (- a) a (- a) a t0 t1 (p_eval ex_vortex) = eps0 / 2 * c_light * ((t1 - t0) * (8 / 3 * a ^ 4)).
Proof.
  unfold U_xyt. f_equal.
  rewrite (RInt_ext _ (fun x => (t1 - t0) * (2 * a * x ^ 2 + 2 / 3 * a ^ 3))).
  - apply is_RInt_unique.
    replace ((t1 - t0) * (8 / 3 * a ^ 4)) with (minus ((t1 - t0) * (2 / 3 * a * a ^ 3 + 2 / 3 * a ^ 3 * a))
       ((t1 - t0) * (2 / 3 * a * (- a) ^ 3 + 2 / 3 * a ^ 3 * (- a)))) by (unfold minus, plus, opp; simpl; field).
    apply (is_RInt_derive (fun x => (t1 - t0) * (2 / 3 * a * x ^ 3 + 2 / 3 * a ^ 3 * x))).
    + intros r _. auto_derive; [exact I|]. simpl. field.
    + intros r _. apply (@ex_derive_continuous R_AbsRing R_NormedModule). auto_derive. exact I.
  - intros x _. rewrite (RInt_ext _ (fun y => (t1 - t0) * (x ^ 2 + y ^ 2))).
    + apply is_RInt_unique.
      replace ((t1 - t0) * (2 * a * x ^ 2 + 2 / 3 * a ^ 3)) with (minus ((t1 - t0) * (x ^ 2 * a + a ^ 3 / 3))
        ((t1 - t0) * (x ^ 2 * (- a) + (- a) ^ 3 / 3))) by (unfold minus, plus, opp; simpl; field).
      apply (is_RInt_derive (fun y => (t1 - t0) * (x ^ 2 * y + y ^ 3 / 3))).
      * intros r _. auto_derive; [exact I|]. simpl. field.
      * intros r _. apply (@ex_derive_continuous R_AbsRing R_NormedModule). auto_derive. exact I.
    + intros y _. unfold ex_vortex, Cnorm2. cbn [p_eval fst snd]. rewrite (@RInt_const R_CompleteNormedModule).
      change (scal (t1 - t0) (x * x + - y * - y)) with ((t1 - t0) * (x * x + - y * - y)). eqR'. ring.
Qed.
