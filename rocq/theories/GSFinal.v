(** Statements for C52, C53, C62 and concrete cases. *)
From Verif Require Import PyBase CSum NpFFT FFTProofs NumPy NpMath NpMathProofs GridModel GridSpec GridProofs LaserSpec GridObs
  EnergyModel EnergyProofs AngularProofs LaserModel OpticsModel LaserOps LaserInv LaserInitProofs LaserStepProofs
  PropagateProofs HistoryProofs OpticsProofs OpticsProofs2 SolverSpec SolverProofs PropLaws LaserExamples GSModel GSSpec GSProofs GSLaws.
Open Scope R_scope.

Lemma carried_polar S L n0 n1 nt d A p f : Inv L n0 n1 nt -> carried S L d (polar [n0;n1;nt] A p) f -> f = TL S L d (polar [n0;n1;nt] A p).
Proof. intros HI H. apply (carried_iff S L n0 n1 nt) in H; [exact H|exact HI|reflexivity|reflexivity]. Qed.
Lemma c62_monotone S h p1 p2 L1 L2 a1 a2 dz n m ae ae' fuel fuel' h1 h2 phi1 phi2 e psi1 psi2 e' f f' g g' :
  lawful S -> nth_error h p1 = Some L1 -> nth_error h p2 = Some L2 -> reachable S L1 -> reachable S L2 -> same_kind L1 L2 ->
  snd (get_temporal_field (l_grid L1)) = Ok a1 -> snd (get_temporal_field (l_grid L2)) = Ok a2 -> shp a1 = shp a2 ->
  (forall j, (j < dim1 a1)%nat -> 0 <= area L1 j) -> (n <= m)%nat ->
  gerchberg_saxton fuel S h p1 p2 dz MaxIterations (Z.of_nat n) ae = Some (h1, Ok (phi1, phi2, e)) ->
  gerchberg_saxton fuel' S h p1 p2 dz MaxIterations (Z.of_nat m) ae' = Some (h2, Ok (psi1, psi2, e')) ->
  carried S L1 dz (polar (shp a1) (modulus a1) (real_part phi1)) g ->
  carried S L1 dz (polar (shp a1) (modulus a1) (real_part psi1)) g' ->
  carried S L2 (- dz) (polar (shp a1) (modulus a2) (real_part phi2)) f ->
  carried S L2 (- dz) (polar (shp a1) (modulus a2) (real_part psi2)) f' ->
  mismatch L1 (shp a1) f' (modulus a1) <= mismatch L1 (shp a1) f (modulus a1) /\
  mismatch L1 (shp a1) g' (modulus a2) <= mismatch L1 (shp a1) g (modulus a2) /\
  mismatch L1 (shp a1) g (modulus a2) <= mismatch L1 (shp a1) f (modulus a1).
Proof.
  intros (PF & SU & UN & AD & ZE) E1 E2 R1 R2 K T1 T2 Es PA Hnm G1 G2 C1 C2 C3 C4.
  destruct (same_Inv S L1 L2 a1 a2 R1 R2 T1 T2 Es) as (n0 & n1 & nt & Sh & I1 & I2).
  pose proof (gs_max_result _ _ _ _ _ _ _ _ _ _ _ _ _ _ _ _ _ E1 E2 I1 I2 T1 T2 G1) as Q1.
  pose proof (gs_max_result _ _ _ _ _ _ _ _ _ _ _ _ _ _ _ _ _ E1 E2 I1 I2 T1 T2 G2) as Q2.
  unfold dim1 in PA. rewrite Sh in *. cbn [nth] in PA.
  destruct n as [|n]; [discriminate|]. destruct m as [|m]; [lia|]. cbn [outn lastn] in Q1, Q2. injection Q1 as -> -> ->. injection Q2 as -> -> ->.
  rewrite !real_ampl in *. apply carried_polar in C1, C2; [|exact I1|exact I1]. apply carried_polar in C3, C4; [|exact I2|exact I2].
  assert (P : forall a i j k, 0 <= modulus a i j k) by (intros; apply Cmod_ge_0).
  subst f f' g g'. conj.
  - exact (m1_mono S L1 L2 dz n0 n1 nt (modulus a1) (modulus a2) I1 K PF SU UN AD ZE (P a1) (P a2) PA n m ltac:(lia)).
  - exact (m2_mono S L1 L2 dz n0 n1 nt (modulus a1) (modulus a2) I1 K PF SU UN AD ZE (P a1) (P a2) PA (Datatypes.S n) (Datatypes.S m) Hnm).
  - exact (m2_le_m1 S L1 L2 dz n0 n1 nt (modulus a1) (modulus a2) I1 K PF SU UN AD ZE (P a2) PA n).
Qed.
Lemma c52_consistent S h p1 p2 L1 L2 a1 a2 dz n ae fuel h' phi1 phi2 e f :
  lawful S -> nth_error h p1 = Some L1 -> nth_error h p2 = Some L2 -> reachable S L1 -> reachable S L2 -> same_kind L1 L2 ->
  snd (get_temporal_field (l_grid L1)) = Ok a1 -> snd (get_temporal_field (l_grid L2)) = Ok a2 -> shp a1 = shp a2 ->
  carried S L1 dz (polar (shp a1) (modulus a1) (fun _ _ _ => 0)) f -> (forall i j k, inb a1 i j k -> modulus f i j k = modulus a2 i j k) ->
  gerchberg_saxton fuel S h p1 p2 dz MaxIterations (Z.of_nat n) ae = Some (h', Ok (phi1, phi2, e)) ->
  e = 0 /\ forall i j k, inb a1 i j k -> real_part phi1 i j k = 0 /\ real_part phi2 i j k = argument f i j k.
Proof.
  intros (PF & SU & UN & AD & ZE) E1 E2 R1 R2 K T1 T2 Es C CO G.
  destruct (same_Inv S L1 L2 a1 a2 R1 R2 T1 T2 Es) as (n0 & n1 & nt & Sh & I1 & I2).
  pose proof (gs_max_result _ _ _ _ _ _ _ _ _ _ _ _ _ _ _ _ _ E1 E2 I1 I2 T1 T2 G) as Q1. rewrite Sh in *.
  destruct n as [|n]; [discriminate|]. cbn [outn lastn] in Q1. injection Q1 as -> -> ->. apply carried_polar in C; [|exact I1].
  assert (P : forall a i j k, 0 <= modulus a i j k) by (intros; apply Cmod_ge_0).
  unfold inb, dim0, dim1, dim2 in *. rewrite Sh in *. cbn [nth] in *. subst f.
  pose proof (fixed S L1 L2 dz n0 n1 nt (modulus a1) (modulus a2) I1 K PF AD ZE (P a1) CO) as FX.
  split.
  - unfold errn. transitivity (total [n0;n1;nt] (fun _ _ _ => 0)); [|unfold total, rsum3; cbn [nth]; rewrite (rsum_ext n0 _ (fun _ => 0)); [apply rsum_0|intros; rewrite (rsum_ext n1 _ (fun _ => 0)); [apply rsum_0|intros; apply rsum_0]]].
    unfold total. cbn [nth]. apply rsum3_ext. intros i j k Hi Hj Hk. unfold modulus at 1. rewrite (proj2 (FX n)) by (unfold inrange; lia).
    rewrite Cmod_R, Rabs_pos_eq by apply P. unfold modulus. ring.
  - intros i j k H. rewrite !real_ampl. split; [apply (proj1 (FX (Datatypes.S n))); exact H|].
    unfold argument. f_equal. apply (TL_ext S L1 n0 n1 nt I1 PF); try reflexivity; [|exact H].
    intros a b c Hh. cbn [at3 polar]. rewrite (proj1 (FX n)) by exact Hh. reflexivity.
Qed.
(** ** C53 *)
Lemma ratio_false a s e : 0 < s -> np_ratio_gt a s e = false -> a <= e * s.
Proof.
  intros Hs. unfold np_ratio_gt. destruct (Reqb s 0) eqn:E; [apply Reqb_true in E; lra|]. intros B. apply Rltb_false in B. apply Rnot_lt_le in B.
  apply Rmult_le_compat_r with (r := s) in B; [|lra]. replace (a / s * s) with a in B by (field; lra). exact B.
Qed.
Lemma ratio_true a s e : 0 < s -> e * s < a -> np_ratio_gt a s e = true.
Proof.
  intros Hs H. unfold np_ratio_gt. destruct (Reqb s 0) eqn:E; [apply Reqb_true in E; lra|]. apply Rltb_true. apply Rmult_lt_reg_r with s; [exact Hs|].
  replace (a / s * s) with a by (field; lra). exact H.
Qed.
Lemma ratio_false_iff a s e : 0 < s -> a <= e * s -> np_ratio_gt a s e = false.
Proof.
  intros Hs H. unfold np_ratio_gt. destruct (Reqb s 0) eqn:E; [apply Reqb_true in E; lra|]. apply Rltb_false, Rle_not_lt. apply Rmult_le_reg_r with s; [exact Hs|].
  replace (a / s * s) with a by (field; lra). exact H.
Qed.
Lemma c53_signed S h p1 p2 L1 L2 a1 a2 dz mi ae fuel h' phi1 phi2 e :
  nth_error h p1 = Some L1 -> nth_error h p2 = Some L2 -> reachable S L1 -> reachable S L2 ->
  snd (get_temporal_field (l_grid L1)) = Ok a1 -> snd (get_temporal_field (l_grid L2)) = Ok a2 -> shp a1 = shp a2 -> 0 < total (shp a1) (modulus a1) ->
  gerchberg_saxton fuel S h p1 p2 dz AmplitudeError mi ae = Some (h', Ok (phi1, phi2, e)) ->
  e <= ae * total (shp a1) (modulus a1) /\
  exists n q1 q2 f, rounds S L1 L2 dz (shp a1) (modulus a1) (modulus a2) n q1 q2 f /\ holds phi1 (shp a1) q1 /\ holds phi2 (shp a1) q2 /\
    e = total (shp a1) (fun i j k => modulus f i j k - modulus a1 i j k).
Proof.
  intros E1 E2 R1 R2 T1 T2 Es Pt G. destruct (same_Inv S L1 L2 a1 a2 R1 R2 T1 T2 Es) as (n0 & n1 & nt & Sh & I1 & I2). rewrite Sh in *.
  destruct (gs_start fuel S h p1 p2 L1 L2 a1 a2 n0 n1 nt dz AmplitudeError mi ae _ E1 E2 I1 I2 T1 T2 eq_refl) as (h1 & r1 & r2 & Hne & HR & E').
  rewrite E' in G. destruct (loop_some _ _ _ _ _ _ _ _ _ _ _ _ _ Hne fuel 0%nat h1 h' _ HR G) as (k & _ & Q & B & _).
  destruct k as [|k]; [discriminate|]. cbn [outn lastn] in Q. injection Q as -> -> ->. cbn [cv] in B. split; [apply ratio_false; assumption|].
  exists (Datatypes.S k), (ph S L1 L2 dz n0 n1 nt (modulus a1) (modulus a2) (Datatypes.S k)). eexists. exists (back S L1 L2 dz n0 n1 nt (modulus a1) (modulus a2) k).
  split; [apply rounds_ph; assumption|]. split; [split; [reflexivity|split; [reflexivity|intros; reflexivity]]|]. split; [split; [reflexivity|split; [reflexivity|intros; reflexivity]]|reflexivity].
Qed.
Lemma back_zero S L1 L2 n0 n1 nt A1 A2 n : Inv L2 n0 n1 nt -> per_frequency S -> zero_step S -> (forall i j k, 0 <= A2 i j k) ->
  forall i j k, inrange n0 n1 nt i j k -> modulus (back S L1 L2 0 n0 n1 nt A1 A2 n) i j k = A2 i j k.
Proof.
  intros I2 PF ZE P i j k H. unfold modulus, back, round2. rewrite Ropp_0. rewrite (TL_zero S L2 n0 n1 nt I2 (polar [n0;n1;nt] A2 _) ZE eq_refl i j k H). cbn [at3 polar]. apply Cmod_polar, P.
Qed.
Lemma errn_zero S L1 L2 n0 n1 nt A1 A2 n : Inv L2 n0 n1 nt -> per_frequency S -> zero_step S -> (forall i j k, 0 <= A2 i j k) ->
  errn S L1 L2 0 n0 n1 nt A1 A2 n = total [n0;n1;nt] (fun i j k => A2 i j k - A1 i j k).
Proof.
  intros I2 PF ZE P. unfold errn, total. cbn [nth]. apply rsum3_ext. intros i j k Hi Hj Hk. rewrite (back_zero S L1 L2 n0 n1 nt A1 A2 n I2 PF ZE P) by (unfold inrange; lia). reflexivity.
Qed.
(** At zero distance the algorithm stops after one pass as soon as the signed sum is small ... *)
Lemma c53_early S h p1 p2 L1 L2 a1 a2 mi ae fuel :
  per_frequency S -> zero_step S -> nth_error h p1 = Some L1 -> nth_error h p2 = Some L2 -> reachable S L1 -> reachable S L2 ->
  snd (get_temporal_field (l_grid L1)) = Ok a1 -> snd (get_temporal_field (l_grid L2)) = Ok a2 -> shp a1 = shp a2 -> 0 < total (shp a1) (modulus a1) ->
  ae * total (shp a1) (modulus a1) < 9 * 10 ^ 30 ->
  total (shp a1) (fun i j k => modulus a2 i j k - modulus a1 i j k) <= ae * total (shp a1) (modulus a1) -> (2 <= fuel)%nat ->
  exists h' phi1 phi2 e f, gerchberg_saxton fuel S h p1 p2 0 AmplitudeError mi ae = Some (h', Ok (phi1, phi2, e)) /\
    carried S L2 (- 0) (polar (shp a1) (modulus a2) (real_part phi2)) f /\ (forall i j k, inb a1 i j k -> modulus f i j k = modulus a2 i j k).
Proof.
  intros PF ZE E1 E2 R1 R2 T1 T2 Es Pt Hae Hle Hf. destruct (same_Inv S L1 L2 a1 a2 R1 R2 T1 T2 Es) as (n0 & n1 & nt & Sh & I1 & I2). unfold inb, dim0, dim1, dim2. rewrite Sh in *. cbn [nth].
  destruct (gs_start fuel S h p1 p2 L1 L2 a1 a2 n0 n1 nt 0 AmplitudeError mi ae _ E1 E2 I1 I2 T1 T2 eq_refl) as (h1 & r1 & r2 & Hne & HR & E').
  destruct (loop_stop S L1 L2 0 n0 n1 nt (modulus a1) (modulus a2) AmplitudeError (fun amp => np_ratio_gt amp (total [n0;n1;nt] (modulus a1)) ae) r1 r2 Hne 1 1 0 fuel h1 eq_refl ltac:(lia) HR) as (h' & E2').
  - intros m Hm. replace m with 0%nat by lia. apply ratio_true; [exact Pt|exact Hae].
  - cbn [cv]. rewrite errn_zero; [|exact I2|exact PF|exact ZE|intros; apply Cmod_ge_0]. apply ratio_false_iff; [exact Pt|exact Hle].
  - exists h'. eexists. eexists. eexists. exists (back S L1 L2 0 n0 n1 nt (modulus a1) (modulus a2) 0). split; [rewrite E', E2'; reflexivity|]. split.
    + rewrite real_ampl. apply (carried_iff S L2 n0 n1 nt); try reflexivity. exact I2.
    + intros i j k H. apply back_zero; try assumption. intros; apply Cmod_ge_0.
Qed.
(** ... and otherwise never, whatever max_iterations. *)
Lemma c53_never S h p1 p2 L1 L2 a1 a2 mi ae :
  per_frequency S -> zero_step S -> nth_error h p1 = Some L1 -> nth_error h p2 = Some L2 -> reachable S L1 -> reachable S L2 ->
  snd (get_temporal_field (l_grid L1)) = Ok a1 -> snd (get_temporal_field (l_grid L2)) = Ok a2 -> shp a1 = shp a2 -> 0 < total (shp a1) (modulus a1) ->
  ae * total (shp a1) (modulus a1) < 9 * 10 ^ 30 ->
  ae * total (shp a1) (modulus a1) < total (shp a1) (fun i j k => modulus a2 i j k - modulus a1 i j k) ->
  forall fuel, gerchberg_saxton fuel S h p1 p2 0 AmplitudeError mi ae = None.
Proof.
  intros PF ZE E1 E2 R1 R2 T1 T2 Es Pt Hae Hlt fuel. destruct (same_Inv S L1 L2 a1 a2 R1 R2 T1 T2 Es) as (n0 & n1 & nt & Sh & I1 & I2). rewrite Sh in *.
  destruct (gs_start fuel S h p1 p2 L1 L2 a1 a2 n0 n1 nt 0 AmplitudeError mi ae _ E1 E2 I1 I2 T1 T2 eq_refl) as (h1 & r1 & r2 & Hne & HR & E').
  rewrite E'. apply loop_none; [exact Hne|exact HR|]. intros [|m] _; cbn [cv gs_cond0]; apply ratio_true; try assumption.
  rewrite errn_zero; [exact Hlt|exact I2|exact PF|exact ZE|intros; apply Cmod_ge_0].
Qed.

(** ** Concrete lasers *)
Definition ramp (c d : R) : profile := mkProfile (2 * PI * c_light) 1 (RtoC 1, RtoC 0) None Complex128 (fun x y t => RtoC (c + d * x)).
Lemma ramp_ok c d : exists L, laser_init Xyt [-1;-1;-1] [1;1;1] [2;2;2]%nat (ramp c d) 1 None = Ok L.
Proof. apply xyt_construct_ok; simpl; try lia; try lra; try reflexivity. Qed.
Lemma ramp_field c d L : 0 <= c - d -> 0 <= c + d -> laser_init Xyt [-1;-1;-1] [1;1;1] [2;2;2]%nat (ramp c d) 1 None = Ok L ->
  exists a, snd (get_temporal_field (l_grid L)) = Ok a /\ shp a = [2;2;2]%nat /\ forall i j k, (i < 2)%nat -> (j < 2)%nat -> (k < 2)%nat -> modulus a i j k = c + d * (INR i * 2 - 1).
Proof.
  intros H1 H2 HL. destruct (xyt_samples _ _ _ _ _ _ _ _ _ HL) as (a & s & Ha & Sh & _ & Hv & Hs); try (simpl; lra); try exact I.
  cbn in Hs. subst s. exists a. split; [exact Ha|]. split; [exact Sh|]. intros i j k Hi Hj Hk. unfold modulus. rewrite Hv by assumption. cbn [ramp p_eval nth].
  unfold coord. replace (Cmult (RtoC 1) _) with (RtoC (c + d * (INR i * 2 - 1))).
  - rewrite Cmod_R. apply Rabs_pos_eq. destruct i as [|[|i]]; [simpl INR; lra|simpl INR; lra|lia].
  - rewrite Cmult_1_l. f_equal. simpl (INR 2). lra.
Qed.
Lemma ramp_total a F : shp a = [2;2;2]%nat -> total (shp a) F = F 0%nat 0%nat 0%nat + F 0%nat 0%nat 1%nat + F 0%nat 1%nat 0%nat + F 0%nat 1%nat 1%nat + F 1%nat 0%nat 0%nat + F 1%nat 0%nat 1%nat + F 1%nat 1%nat 0%nat + F 1%nat 1%nat 1%nat.
Proof. intros ->. unfold total, rsum3. cbn [nth rsum]. ring. Qed.
Lemma ramp_reach S c d L : laser_init Xyt [-1;-1;-1] [1;1;1] [2;2;2]%nat (ramp c d) 1 None = Ok L -> reachable S L.
Proof. intros H. exact (reachable_init S _ _ _ _ _ _ _ L [] H ltac:(constructor) ltac:(constructor)). Qed.
Lemma c53_refuted_residual : exists L1 L2 a1 h' phi1 phi2 e f,
  reachable asm_solvers L1 /\ reachable asm_solvers L2 /\ same_kind L1 L2 /\ snd (get_temporal_field (l_grid L1)) = Ok a1 /\
  gerchberg_saxton 2 asm_solvers [L1; L2] 0 1 0 AmplitudeError 100 (1 / 100) = Some (h', Ok (phi1, phi2, e)) /\
  (exists a2, snd (get_temporal_field (l_grid L2)) = Ok a2 /\ carried asm_solvers L2 (- 0) (polar (shp a1) (modulus a2) (real_part phi2)) f) /\
  0 < total (shp a1) (modulus a1) /\ deviation (shp a1) f (modulus a1) = total (shp a1) (modulus a1).
Proof.
  destruct (ramp_ok 1 0) as (L1 & H1). destruct (ramp_ok 1 1) as (L2 & H2).
  destruct (ramp_field 1 0 L1 ltac:(lra) ltac:(lra) H1) as (a1 & T1 & S1 & F1). destruct (ramp_field 1 1 L2 ltac:(lra) ltac:(lra) H2) as (a2 & T2 & S2 & F2).
  assert (Pt : total (shp a1) (modulus a1) = 8). { rewrite (ramp_total a1 _ S1), !F1 by lia. simpl INR. ring. }
  destruct (c53_early asm_solvers [L1;L2] 0 1 L1 L2 a1 a2 100 (1/100) 2 asm_per_frequency asm_zero eq_refl eq_refl (ramp_reach _ _ _ _ H1) (ramp_reach _ _ _ _ H2) T1 T2 ltac:(congruence)) as (h' & phi1 & phi2 & e & f & G & C & M).
  - lra.
  - rewrite Pt. simpl. lra.
  - rewrite Pt, (ramp_total a1 _ S1), !F1, !F2 by lia. simpl INR. lra.
  - lia.
  - exists L1, L2, a1, h', phi1, phi2, e, f. split; [exact (ramp_reach _ _ _ _ H1)|]. split; [exact (ramp_reach _ _ _ _ H2)|]. split.
    { destruct (laser_init_Inv _ _ _ _ _ _ _ _ H1) as (g1 & n0 & n1 & nt & G1 & (M1 & M2 & M3 & M4 & M5 & M6 & M7 & M8 & M9 & M10) & D1 & D2 & D3 & D4 & _).
      destruct (laser_init_Inv _ _ _ _ _ _ _ _ H2) as (g2 & m0 & m1 & mt & G2 & (N1 & N2 & N3 & N4 & N5 & N6 & N7 & N8 & N9 & N10) & C1 & C2 & C3 & C4 & _).
      rewrite G1 in G2. injection G2 as <-. unfold same_kind. rewrite M1, M2, M4, M7, M8, N1, N2, N4, N7, N8, D1, C1, D2, C2, D3, C3, D4, C4. conj; try reflexivity. split; reflexivity. }
    split; [exact T1|]. split; [exact G|]. split; [exists a2; split; [exact T2|exact C]|]. split; [lra|].
    unfold deviation. rewrite Pt, (ramp_total a1 _ S1). assert (Q : forall i j k, (i < 2)%nat -> (j < 2)%nat -> (k < 2)%nat -> modulus f i j k = 1 + 1 * (INR i * 2 - 1)).
    { intros i j k Hi Hj Hk. rewrite M; [apply F2; assumption|]. unfold inb, dim0, dim1, dim2. rewrite S1. cbn [nth]. lia. }
    rewrite !Q, !F1 by lia. simpl INR. rewrite !(Rabs_left (1 + 1 * (0 * 2 - 1) - (1 + 0 * (0 * 2 - 1)))) by lra. rewrite !(Rabs_right (1 + 1 * (1 * 2 - 1) - (1 + 0 * (1 * 2 - 1)))) by lra. ring.
Qed.
Lemma c53_refuted_limit : exists L1 L2, reachable asm_solvers L1 /\ reachable asm_solvers L2 /\ same_kind L1 L2 /\
  forall max_iterations fuel, gerchberg_saxton fuel asm_solvers [L1; L2] 0 1 0 AmplitudeError max_iterations (1 / 100) = None.
Proof.
  destruct (ramp_ok 1 0) as (L1 & H1). destruct (ramp_ok 3 1) as (L2 & H2).
  destruct (ramp_field 1 0 L1 ltac:(lra) ltac:(lra) H1) as (a1 & T1 & S1 & F1). destruct (ramp_field 3 1 L2 ltac:(lra) ltac:(lra) H2) as (a2 & T2 & S2 & F2).
  assert (Pt : total (shp a1) (modulus a1) = 8). { rewrite (ramp_total a1 _ S1), !F1 by lia. simpl INR. ring. }
  exists L1, L2. split; [exact (ramp_reach _ _ _ _ H1)|]. split; [exact (ramp_reach _ _ _ _ H2)|]. split.
  { destruct (laser_init_Inv _ _ _ _ _ _ _ _ H1) as (g1 & n0 & n1 & nt & G1 & (M1 & M2 & M3 & M4 & M5 & M6 & M7 & M8 & M9 & M10) & D1 & D2 & D3 & D4 & _).
    destruct (laser_init_Inv _ _ _ _ _ _ _ _ H2) as (g2 & m0 & m1 & mt & G2 & (N1 & N2 & N3 & N4 & N5 & N6 & N7 & N8 & N9 & N10) & C1 & C2 & C3 & C4 & _).
    rewrite G1 in G2. injection G2 as <-. unfold same_kind. rewrite M1, M2, M4, M7, M8, N1, N2, N4, N7, N8, D1, C1, D2, C2, D3, C3, D4, C4. conj; try reflexivity. split; reflexivity. }
  intros mi fuel. apply (c53_never asm_solvers [L1;L2] 0 1 L1 L2 a1 a2 mi (1/100) asm_per_frequency asm_zero eq_refl eq_refl (ramp_reach _ _ _ _ H1) (ramp_reach _ _ _ _ H2) T1 T2 ltac:(congruence)).
  - lra.
  - rewrite Pt. simpl. lra.
  - rewrite Pt, (ramp_total a1 _ S1), !F1, !F2 by lia. simpl INR. lra.
Qed.
Lemma asm_lawful : lawful asm_solvers.
Proof. exact (conj asm_per_frequency (conj asm_superposes (conj asm_unitary (conj asm_additive asm_zero)))). Qed.
(** A pulse and the same pulse after propagation over dz: consistent amplitudes. *)
Lemma pulse_pair dz : exists L1 L2 a1 a2 f, reachable asm_solvers L1 /\ reachable asm_solvers L2 /\ same_kind L1 L2 /\
  snd (get_temporal_field (l_grid L1)) = Ok a1 /\ snd (get_temporal_field (l_grid L2)) = Ok a2 /\ shp a1 = shp a2 /\
  (forall j, (j < dim1 a1)%nat -> 0 <= area L1 j) /\ 0 < modulus a1 1 1 1 /\
  carried asm_solvers L1 dz (polar (shp a1) (modulus a1) (fun _ _ _ => 0)) f /\ (forall i j k, inb a1 i j k -> modulus f i j k = modulus a2 i j k).
Proof.
  destruct (ramp_ok 1 (1/2)) as (L & H). pose proof (ramp_reach asm_solvers _ _ _ H) as RL.
  destruct (laser_init_Inv _ _ _ _ _ _ _ _ H) as (g1 & n0 & n1 & nt & _ & _ & D1 & _ & _ & D4 & _ & _ & _ & HI).
  destruct (xyt_samples _ _ _ _ _ _ _ _ _ H) as (a & s & Ha & Sh & _ & Hv & Hs); try (simpl; lra); try exact I. cbn in Hs. subst s.
  assert (Hn : n0 = 2%nat /\ n1 = 2%nat /\ nt = 2%nat).
  { destruct (tread_shape _ _ (proj1 (i_coh _ _ _ _ HI)) Ha) as (E & _). rewrite (gs_shape _ _ _ _ _ (i_shape _ _ _ _ HI)), Sh in E. injection E as <- <- <-. auto. }
  destruct Hn as (-> & -> & ->).
  destruct (proj1 (tread_sread_iff _ (proj1 (i_coh _ _ _ _ HI))) (ex_intro _ a Ha)) as (sp & Hsp).
  assert (K : forall d, exists L' g1', fst (lstep asm_solvers L (OpPropagate d None None backend_NP)) = L' /\ L' = set_grid (set_prop L (Some (used_prop L backend_NP))) (shift_domain g1' d) /\ same_meta (l_grid L) g1' /\ Inv L' 2 2 2 /\ evolved L L' /\
    snd (get_temporal_field (l_grid L')) = Ok (np_fft_last (apply_phase (l_omega L) (p_omega0 (l_prof L)) d (stepped asm_solvers (used_prop L backend_NP) sp d)))).
  { intros d. destruct (propagate_simple asm_solvers L 2 2 2 d backend_NP sp HI Hsp) as (b' & L' & g' & U & E & HI' & EL & M1 & G1 & F & SS & TT).
    exists L', g'. cbn [lstep]. rewrite E, U. cbn [fst]. conj; try assumption; try reflexivity. unfold evolved. rewrite EL. cbn [l_dim l_omega l_prof set_grid set_prop]. conj; try reflexivity.
    unfold used_prop at 1. cbn [l_prop set_grid set_prop]. symmetry. exact U. }
  pose proof (reads_idft _ _ _ (i_coh _ _ _ _ HI) Ha Hsp) as AE.
  assert (KE : forall d i j k, inrange 2 2 2 i j k -> at3 (np_fft_last (apply_phase (l_omega L) (p_omega0 (l_prof L)) d (stepped asm_solvers (used_prop L backend_NP) sp d))) i j k = at3 (TL asm_solvers L d a) i j k).
  { intros d i j k (Hi & Hj & Hk). destruct (sread_shape _ _ (proj1 (i_coh _ _ _ _ HI)) Hsp) as (Es & _). rewrite (gs_shape _ _ _ _ _ (i_shape _ _ _ _ HI)) in Es.
    unfold TL, Tr. cbn [at3 np_fft_last apply_phase]. unfold dim2. cbn [shp apply_phase stepped np_ifft_last]. rewrite Es, Sh. cbn [nth]. apply fft1_ext. intros q Hq. f_equal.
    destruct (used_fresh L 2 2 2 backend_NP HI) as (b & ->). apply (stepped_ext asm_solvers L 2 2 2 HI asm_per_frequency); [|unfold inrange; lia].
    intros i' j' k' (Hi' & Hj' & Hk'). apply AE. unfold inb, dim0, dim1, dim2. rewrite Es. cbn [nth]. lia. }
  destruct (K 0) as (L1 & g1' & E1 & EL1 & M1 & I1 & V1 & T1). destruct (K dz) as (L2 & g2' & E2 & EL2 & M2 & I2 & V2 & T2).
  set (a1 := np_fft_last (apply_phase (l_omega L) (p_omega0 (l_prof L)) 0 (stepped asm_solvers (used_prop L backend_NP) sp 0))) in *.
  set (a2 := np_fft_last (apply_phase (l_omega L) (p_omega0 (l_prof L)) dz (stepped asm_solvers (used_prop L backend_NP) sp dz))) in *.
  assert (S1 : shp a1 = [2;2;2]%nat). { rewrite (proj1 (tread_shape _ _ (proj1 (i_coh _ _ _ _ I1)) T1)). apply (gs_shape _ _ _ _ _ (i_shape _ _ _ _ I1)). }
  assert (S2 : shp a2 = [2;2;2]%nat). { rewrite (proj1 (tread_shape _ _ (proj1 (i_coh _ _ _ _ I2)) T2)). apply (gs_shape _ _ _ _ _ (i_shape _ _ _ _ I2)). }
  assert (Q1 : forall i j k, inrange 2 2 2 i j k -> at3 a1 i j k = at3 a i j k).
  { intros i j k Hr. unfold a1. rewrite KE by exact Hr. apply (TL_zero asm_solvers L 2 2 2 HI a asm_zero Sh i j k Hr). }
  assert (Pos : forall i j k, inrange 2 2 2 i j k -> exists v, 0 < v /\ at3 a i j k = RtoC v).
  { intros i j k (Hi & Hj & Hk). rewrite Hv by assumption. cbn [ramp p_eval nth]. rewrite Cmult_1_l. eexists. split; [|reflexivity]. unfold coord. simpl (INR 2).
    destruct i as [|[|i]]; [simpl INR; lra|simpl INR; lra|lia]. }
  exists L1, L2, a1, a2, (TL asm_solvers L1 dz (polar (shp a1) (modulus a1) (fun _ _ _ => 0))).
  assert (Rch : forall d, reachable asm_solvers (fst (lstep asm_solvers L (OpPropagate d None None backend_NP)))).
  { intros d. refine (reachable_init asm_solvers _ _ _ _ _ _ _ L [OpPropagate d None None backend_NP] H _ _); repeat constructor. }
  split; [rewrite <- E1; apply Rch|]. split; [rewrite <- E2; apply Rch|]. split.
  { destruct M1 as (A1 & A2 & A3 & A4 & A5 & A6 & A7 & A8 & _). destruct M2 as (B1 & B2 & B3 & B4 & B5 & B6 & B7 & B8 & _).
    rewrite EL1, EL2. unfold same_kind. cbn [l_dim l_omega l_prof l_grid l_prop set_grid set_prop shift_domain with_domain g_shape g_modes g_axes g_lo g_hi].
    rewrite A1, A2, A4, A7, A8, B1, B2, B4, B7, B8. pose proof (i_shape _ _ _ _ HI) as GS. rewrite D1 in *.
    pose proof (gs_lo _ _ _ _ _ GS) as L_lo. pose proof (gs_hi _ _ _ _ _ GS) as L_hi. pose proof (gs_axes _ _ _ _ _ GS) as L_ax. cbn in L_lo, L_hi, L_ax.
    destruct (g_lo (l_grid L)) as [|x0 [|x1 [|x2 [|]]]]; try discriminate. destruct (g_hi (l_grid L)) as [|y0 [|y1 [|y2 [|]]]]; try discriminate. destruct (g_axes (l_grid L)) as [|z0 [|z1 [|z2 [|]]]]; try discriminate.
    conj; try reflexivity. split; reflexivity. }
  split; [exact T1|]. split; [exact T2|]. split; [congruence|]. split.
  { intros j _. unfold area. rewrite (proj1 V1), D1. lra. }
  split.
  { unfold modulus. rewrite Q1 by (unfold inrange; lia). destruct (Pos 1%nat 1%nat 1%nat) as (v & Pv & ->); [unfold inrange; lia|]. rewrite Cmod_R. apply Rabs_pos_lt. lra. }
  split.
  { rewrite S1. apply (carried_iff asm_solvers L1 2 2 2); try reflexivity. exact I1. }
  intros i j k Hb. unfold inb, dim0, dim1, dim2 in Hb. rewrite S1 in Hb. cbn [nth] in Hb. unfold modulus. f_equal. unfold a2. rewrite KE by exact Hb.
  rewrite (TL_evolved asm_solvers L L1 dz _ V1), S1. apply (TL_ext asm_solvers L 2 2 2 HI asm_per_frequency dz); try reflexivity; try assumption.
  intros i' j' k' Hr. cbn [at3 polar]. unfold modulus. rewrite (Q1 _ _ _ Hr). destruct (Pos _ _ _ Hr) as (v & Pv & ->). rewrite Cmod_R, cis_0, Rabs_pos_eq by lra. ring.
Qed.
