(** C88: analysis. *)
From Coquelicot Require Import Coquelicot.
From Verif Require Import PyBase CSum NpFFT NumPy GridModel GridSpec GridProofs LaserSpec GridObs EnergyModel EnergyProofs LaserModel OpticsModel LaserOps
  LaserInv LaserInitProofs AngularProofs HistoryProofs OpticsProofs OpticsProofs2 LaserExamples ConvergeSpec ConvergeProofs ConvergeLaser
  AnalysisModel DurationProofs ZernikeOrtho DurConvSpec.
Open Scope R_scope.

(** ** Continuity of the standard deviation in the moments *)
Lemma std_cont M0 M1 M2 : 0 < M0 -> forall eps, 0 < eps -> exists d, 0 < d /\
  forall a b c, Rabs (a - M0) < d -> Rabs (b - M1) < d -> Rabs (c - M2) < d ->
  0 < a /\ Rabs (sqrt (c / a - (b / a) ^ 2) - sqrt (M2 / M0 - (M1 / M0) ^ 2)) < eps.
Proof.
  intros HM eps He.
  set (F := fun p : R * (R * R) => sqrt (snd (snd p) * / fst p - (fst (snd p) * / fst p) * (fst (snd p) * / fst p))).
  assert (C : continuous F (M0, (M1, M2))).
  { assert (Ca : continuous (fun p : R * (R * R) => fst p) (M0, (M1, M2))) by apply continuous_fst.
    assert (Cs : continuous (fun p : R * (R * R) => snd p) (M0, (M1, M2))) by apply continuous_snd.
    assert (Cb : continuous (fun p : R * (R * R) => fst (snd p)) (M0, (M1, M2))).
    { apply (continuous_comp (fun p : R * (R * R) => snd p) fst); [exact Cs|apply continuous_fst]. }
    assert (Cc : continuous (fun p : R * (R * R) => snd (snd p)) (M0, (M1, M2))).
    { apply (continuous_comp (fun p : R * (R * R) => snd p) snd); [exact Cs|apply continuous_snd]. }
    assert (Ci : continuous (fun p : R * (R * R) => / fst p) (M0, (M1, M2))).
    { apply (continuous_comp (fun p : R * (R * R) => fst p) Rinv); [exact Ca|]. apply continuous_Rinv. simpl. lra. }
    assert (Cbi : continuous (fun p : R * (R * R) => fst (snd p) * / fst p) (M0, (M1, M2))).
    { apply (@continuous_mult _ R_AbsRing (fun p : R * (R * R) => fst (snd p)) (fun p : R * (R * R) => / fst p)); assumption. }
    unfold F. apply (continuous_comp (fun p : R * (R * R) => snd (snd p) * / fst p - (fst (snd p) * / fst p) * (fst (snd p) * / fst p)) sqrt).
    - apply (@continuous_minus _ R_AbsRing R_NormedModule (fun p : R * (R * R) => snd (snd p) * / fst p)
         (fun p : R * (R * R) => (fst (snd p) * / fst p) * (fst (snd p) * / fst p))).
      + apply (@continuous_mult _ R_AbsRing (fun p : R * (R * R) => snd (snd p)) (fun p : R * (R * R) => / fst p)); assumption.
      + apply (@continuous_mult _ R_AbsRing (fun p : R * (R * R) => fst (snd p) * / fst p) (fun p : R * (R * R) => fst (snd p) * / fst p)); assumption.
    - apply continuous_sqrt. }
  destruct (C (fun y => Rabs (y - F (M0, (M1, M2))) < eps)) as (d & Hd).
  { exists (mkposreal eps He). intros y Hy. exact Hy. }
  exists (Rmin d M0). split; [apply Rmin_pos; [apply cond_pos|exact HM]|].
  intros a b c Ha Hb Hc.
  assert (Qa : Rabs (a - M0) < d /\ Rabs (a - M0) < M0) by (split; (eapply Rlt_le_trans; [exact Ha|]); [apply Rmin_l|apply Rmin_r]).
  assert (Qb : Rabs (b - M1) < d) by (eapply Rlt_le_trans; [exact Hb|apply Rmin_l]).
  assert (Qc : Rabs (c - M2) < d) by (eapply Rlt_le_trans; [exact Hc|apply Rmin_l]).
  split; [apply Rabs_lt_between in Ha; destruct Qa as (_ & Qa); apply Rabs_lt_between in Qa; lra|].
  specialize (Hd (a, (b, c))). unfold F in Hd. cbn [fst snd] in Hd.
  replace (c / a - (b / a) ^ 2) with (c * / a - (b * / a) * (b * / a)) by (unfold Rdiv; ring).
  replace (M2 / M0 - (M1 / M0) ^ 2) with (M2 * / M0 - (M1 * / M0) * (M1 * / M0)) by (unfold Rdiv; ring).
  apply Hd. split; [exact (proj1 Qa)|split; [exact Qb|exact Qc]].
Qed.

(** ** Weighted sums *)
Lemma rms_discrete n (t w : nat -> R) : rsum n w <> 0 ->
  let m := rsum n (fun k => t k * w k) / rsum n w in
  rsum n (fun k => (t k - m) ^ 2 * w k) / rsum n w =
  rsum n (fun k => t k ^ 2 * w k) / rsum n w - (rsum n (fun k => t k * w k) / rsum n w) ^ 2.
Proof.
  intros H m.
  rewrite (rsum_ext n _ (fun k => t k ^ 2 * w k + ((-2 * m) * (t k * w k) + m ^ 2 * w k))) by (intros k _; ring).
  rewrite !rsum_plus, !rsum_scal_l.
  assert (E : rsum n (fun k => t k * w k) = m * rsum n w) by (unfold m; field; exact H).
  rewrite E. field. exact H.
Qed.

(** ** Linearity of the iterated integrals on Lipschitz functions *)
Lemma RInt_lin a b f g u v : ex_RInt f u v -> ex_RInt g u v ->
  RInt (fun x => a * f x + b * g x) u v = a * RInt f u v + b * RInt g u v.
Proof.
  intros Hf Hg. apply is_RInt_unique.
  apply (@is_RInt_plus R_NormedModule (fun x => a * f x) (fun x => b * g x)).
  - apply (@is_RInt_scal R_NormedModule f u v a). apply (@RInt_correct R_CompleteNormedModule). exact Hf.
  - apply (@is_RInt_scal R_NormedModule g u v b). apply (@RInt_correct R_CompleteNormedModule). exact Hg.
Qed.
Lemma RInt2_lin a b f g K K' x0 x1 y0 y1 : x0 < x1 -> y0 < y1 -> 0 <= K -> 0 <= K' ->
  lip2 K x0 x1 y0 y1 f -> lip2 K' x0 x1 y0 y1 g ->
  RInt2 (fun x y => a * f x y + b * g x y) x0 x1 y0 y1 = a * RInt2 f x0 x1 y0 y1 + b * RInt2 g x0 x1 y0 y1.
Proof.
  intros Hx Hy HK HK' Hf Hg. unfold RInt2.
  rewrite (RInt_ext _ (fun x => a * RInt (f x) y0 y1 + b * RInt (g x) y0 y1)).
  - apply RInt_lin.
    + apply (lip_ex (K * (y1 - y0)) x0 x1); try lra; [apply Rmult_le_pos; lra|]. apply inner_lip; assumption.
    + apply (lip_ex (K' * (y1 - y0)) x0 x1); try lra; [apply Rmult_le_pos; lra|]. apply inner_lip; assumption.
  - intros x Hx'. rewrite Rmin_left, Rmax_right in Hx' by lra. apply RInt_lin.
    + apply (lip_ex K y0 y1); try lra. apply (lip2_1 _ x0 x1 _ _ _ _ Hf). lra.
    + apply (lip_ex K' y0 y1); try lra. apply (lip2_1 _ x0 x1 _ _ _ _ Hg). lra.
Qed.
Lemma RInt3_lin a b f g K K' x0 x1 y0 y1 t0 t1 : x0 < x1 -> y0 < y1 -> t0 < t1 -> 0 <= K -> 0 <= K' ->
  lip3 K x0 x1 y0 y1 t0 t1 f -> lip3 K' x0 x1 y0 y1 t0 t1 g ->
  RInt3 (fun x y t => a * f x y t + b * g x y t) x0 x1 y0 y1 t0 t1 =
  a * RInt3 f x0 x1 y0 y1 t0 t1 + b * RInt3 g x0 x1 y0 y1 t0 t1.
Proof.
  intros Hx Hy Ht HK HK' Hf Hg. unfold RInt3.
  assert (PW : 0 <= K * (t1 - t0) /\ 0 <= K' * (t1 - t0)) by (split; apply Rmult_le_pos; lra). destruct PW as (P1 & P2).
  rewrite (RInt_ext _ (fun x => a * RInt2 (f x) y0 y1 t0 t1 + b * RInt2 (g x) y0 y1 t0 t1)).
  - apply RInt_lin.
    + apply (lip_ex (K * (t1 - t0) * (y1 - y0)) x0 x1); try lra; [apply Rmult_le_pos; lra|].
      apply (inner_lip (K * (t1 - t0)) x0 x1 y0 y1 (fun x y => RInt (f x y) t0 t1)); [lra|exact P1|].
      apply lip3_xy; assumption.
    + apply (lip_ex (K' * (t1 - t0) * (y1 - y0)) x0 x1); try lra; [apply Rmult_le_pos; lra|].
      apply (inner_lip (K' * (t1 - t0)) x0 x1 y0 y1 (fun x y => RInt (g x y) t0 t1)); [lra|exact P2|].
      apply lip3_xy; assumption.
  - intros x Hx'. rewrite Rmin_left, Rmax_right in Hx' by lra. apply (RInt2_lin a b (f x) (g x) K K'); try assumption.
    + apply (lip3_yt _ x0 x1 _ _ _ _ _ _ Hf). lra.
    + apply (lip3_yt _ x0 x1 _ _ _ _ _ _ Hg). lra.
Qed.

(** ** Products with a function of time *)
Definition poly2 (phi : R -> R) : Prop := exists a b c, forall t, phi t = a + b * t + c * t ^ 2.
Lemma poly2_lip phi t0 t1 : t0 < t1 -> poly2 phi -> exists K B, 0 <= K /\ 0 <= B /\ lip1 K t0 t1 phi /\ bnd1 B t0 t1 phi.
Proof.
  intros Ht (a & b & c & H). set (T := Rabs t0 + Rabs t1).
  assert (HT : forall t, t0 <= t <= t1 -> Rabs t <= T).
  { intros t It. unfold T. unfold Rabs. repeat destruct Rcase_abs; lra. }
  assert (PT : 0 <= T) by (unfold T; pose proof (Rabs_pos t0); pose proof (Rabs_pos t1); lra).
  pose proof (Rabs_pos a). pose proof (Rabs_pos b). pose proof (Rabs_pos c).
  assert (PcT : 0 <= Rabs c * T) by (apply Rmult_le_pos; assumption).
  exists (Rabs b + Rabs c * (2 * T)), (Rabs a + Rabs b * T + Rabs c * (T * T)). split; [lra|]. split; [nn|]. split.
  - intros x y Ix Iy. rewrite !H.
    replace (a + b * x + c * x ^ 2 - (a + b * y + c * y ^ 2)) with ((b + c * (x + y)) * (x - y)) by ring.
    rewrite Rabs_mult. apply Rmult_le_compat_r; [apply Rabs_pos|].
    eapply Rle_trans; [apply Rabs_triang|]. apply Rplus_le_compat_l. rewrite Rabs_mult. apply Rmult_le_compat_l; [apply Rabs_pos|].
    eapply Rle_trans; [apply Rabs_triang|]. pose proof (HT x Ix). pose proof (HT y Iy). lra.
  - intros x Ix. rewrite H. eapply Rle_trans; [apply Rabs_triang|]. apply Rplus_le_compat.
    + eapply Rle_trans; [apply Rabs_triang|]. apply Rplus_le_compat_l. rewrite Rabs_mult. apply Rmult_le_compat_l; [apply Rabs_pos|auto].
    + rewrite Rabs_mult. apply Rmult_le_compat_l; [apply Rabs_pos|]. simpl. rewrite Rmult_1_r, Rabs_mult.
      apply Rmult_le_compat; auto using Rabs_pos.
Qed.
Lemma lip3_bnd K x0 x1 y0 y1 t0 t1 f : x0 < x1 -> y0 < y1 -> t0 < t1 -> 0 <= K -> lip3 K x0 x1 y0 y1 t0 t1 f ->
  exists B, 0 <= B /\ forall x y t, x0 <= x <= x1 -> y0 <= y <= y1 -> t0 <= t <= t1 -> Rabs (f x y t) <= B.
Proof.
  intros Hx Hy Ht HK H. exists (Rabs (f x0 y0 t0) + K * ((x1 - x0) + (y1 - y0) + (t1 - t0))). split.
  { apply Rplus_le_le_0_compat; [apply Rabs_pos|apply Rmult_le_pos; lra]. }
  intros x y t I1 I2 I3. replace (f x y t) with (f x0 y0 t0 + (f x y t - f x0 y0 t0)) by ring.
  eapply Rle_trans; [apply Rabs_triang|]. apply Rplus_le_compat_l.
  eapply Rle_trans; [apply H; lra|]. apply Rmult_le_compat_l; [exact HK|]. rewrite !Rabs_right by lra. lra.
Qed.
Lemma prod_close p p' q q' Kp Bp Kq Bq d e : Rabs (p - p') <= Kp * d -> Rabs p <= Bp -> Rabs (q - q') <= Kq * e ->
  Rabs q' <= Bq -> 0 <= d -> d <= e -> 0 <= Kp -> 0 <= Bp -> 0 <= Kq -> 0 <= Bq ->
  Rabs (p * q - p' * q') <= (Bp * Kq + Kp * Bq) * e.
Proof.
  intros H1 H2 H3 H4 Hd Hde P1 P2 P3 P4.
  replace (p * q - p' * q') with (p * (q - q') + (p - p') * q') by ring.
  eapply Rle_trans; [apply Rabs_triang|]. rewrite !Rabs_mult.
  assert (Q1 : Rabs p * Rabs (q - q') <= Bp * (Kq * e)) by (apply Rmult_le_compat; auto using Rabs_pos).
  assert (Q2 : Rabs (p - p') * Rabs q' <= (Kp * e) * Bq).
  { apply Rmult_le_compat; auto using Rabs_pos. eapply Rle_trans; [exact H1|]. apply Rmult_le_compat_l; assumption. }
  lra.
Qed.
Lemma lip3_mul K x0 x1 y0 y1 t0 t1 f phi : x0 < x1 -> y0 < y1 -> t0 < t1 -> 0 <= K -> lip3 K x0 x1 y0 y1 t0 t1 f ->
  poly2 phi -> exists K', 0 <= K' /\ lip3 K' x0 x1 y0 y1 t0 t1 (fun x y t => phi t * f x y t).
Proof.
  intros Hx Hy Ht HK H Hp. destruct (poly2_lip phi t0 t1 Ht Hp) as (Kp & Bp & P1 & P2 & P3 & P4).
  destruct (lip3_bnd K x0 x1 y0 y1 t0 t1 f Hx Hy Ht HK H) as (B & PB & HB).
  exists (Bp * K + Kp * B). split; [nn|]. intros x x' y y' t t' Ix Ix' Iy Iy' It It'.
  pose proof (Rabs_pos (x - x')). pose proof (Rabs_pos (y - y')). pose proof (Rabs_pos (t - t')).
  apply (prod_close _ _ _ _ Kp Bp K B (Rabs (t - t'))); auto; try lra.
Qed.
Lemma lip2_bnd K x0 x1 y0 y1 f : x0 < x1 -> y0 < y1 -> 0 <= K -> lip2 K x0 x1 y0 y1 f ->
  exists B, 0 <= B /\ forall x y, x0 <= x <= x1 -> y0 <= y <= y1 -> Rabs (f x y) <= B.
Proof.
  intros Hx Hy HK H. exists (Rabs (f x0 y0) + K * ((x1 - x0) + (y1 - y0))). split.
  { apply Rplus_le_le_0_compat; [apply Rabs_pos|apply Rmult_le_pos; lra]. }
  intros x y I1 I2. replace (f x y) with (f x0 y0 + (f x y - f x0 y0)) by ring.
  eapply Rle_trans; [apply Rabs_triang|]. apply Rplus_le_compat_l.
  eapply Rle_trans; [apply H; lra|]. apply Rmult_le_compat_l; [exact HK|]. rewrite !Rabs_right by lra. lra.
Qed.
Lemma lip2_mul K x0 x1 t0 t1 f phi : x0 < x1 -> t0 < t1 -> 0 <= K -> lip2 K x0 x1 t0 t1 f ->
  poly2 phi -> exists K', 0 <= K' /\ lip2 K' x0 x1 t0 t1 (fun x t => phi t * f x t).
Proof.
  intros Hx Ht HK H Hp. destruct (poly2_lip phi t0 t1 Ht Hp) as (Kp & Bp & P1 & P2 & P3 & P4).
  destruct (lip2_bnd K x0 x1 t0 t1 f Hx Ht HK H) as (B & PB & HB).
  exists (Bp * K + Kp * B). split; [nn|]. intros x x' t t' Ix Ix' It It'.
  pose proof (Rabs_pos (x - x')). pose proof (Rabs_pos (t - t')).
  apply (prod_close _ _ _ _ Kp Bp K B (Rabs (t - t'))); auto; try lra.
Qed.
Lemma riem2_conv K x0 x1 t0 t1 f : x0 < x1 -> t0 < t1 -> 0 <= K -> lip2 K x0 x1 t0 t1 f ->
  exists A, 0 <= A /\ forall n nt, (2 <= n)%nat -> (2 <= nt)%nat ->
  Rabs (riem2 f x0 x1 t0 t1 n nt - RInt2 f x0 x1 t0 t1) <= A * (spacing x0 x1 n + spacing t0 t1 nt).
Proof.
  intros Hx Ht HK H. destruct (lip2_bnd K x0 x1 t0 t1 f Hx Ht HK H) as (B & PB & HB).
  set (a1 := 2 * (x1 - x0) * (K * (t1 - t0) + B)). set (a2 := K * (t1 - t0) * (x1 - x0) + (t1 - t0) * B).
  assert (P1 : 0 <= a1). { unfold a1. apply Rmult_le_pos; [lra|]. apply Rplus_le_le_0_compat; [apply Rmult_le_pos; lra|lra]. }
  assert (P2 : 0 <= a2). { unfold a2. apply Rplus_le_le_0_compat; repeat apply Rmult_le_pos; lra. }
  exists (a1 + a2). split; [lra|]. intros n nt Hn Hnt.
  pose proof (spacing_pos x0 x1 n Hx Hn). pose proof (spacing_pos t0 t1 nt Ht Hnt).
  eapply Rle_trans; [apply (riem2_RInt2 K B); assumption|].
  replace (2 * (x1 - x0) * ((K * (t1 - t0) + B) * spacing t0 t1 nt) + (K * (t1 - t0) * (x1 - x0) + (t1 - t0) * B) * spacing x0 x1 n)
    with (a1 * spacing t0 t1 nt + a2 * spacing x0 x1 n) by (unfold a1, a2; ring).
  assert (0 <= a1 * spacing x0 x1 n /\ 0 <= a2 * spacing t0 t1 nt) by (split; apply Rmult_le_pos; lra). lra.
Qed.

(** ** The duration of moments linear on polynomials *)
Definition lin2 (I : (R -> R) -> R) : Prop :=
  (forall phi psi a b, poly2 phi -> poly2 psi -> I (fun t => a * phi t + b * psi t) = a * I phi + b * I psi) /\
  (forall phi psi, (forall t, phi t = psi t) -> I phi = I psi).
Lemma poly2_1 : poly2 (fun _ => 1).
Proof. exists 1, 0, 0. intros. ring. Qed.
Lemma poly2_t : poly2 (fun t => t).
Proof. exists 0, 1, 0. intros. ring. Qed.
Lemma poly2_t2 : poly2 (fun t => t ^ 2).
Proof. exists 0, 0, 1. intros. ring. Qed.
Lemma poly2_mix a b c : poly2 (fun t => a * t ^ 2 + b * (c * t)).
Proof. exists 0, (b * c), a. intros. ring. Qed.
Lemma rms_moments I : lin2 I -> I (fun _ => 1) <> 0 ->
  rms_duration I = sqrt (I (fun t => t ^ 2) / I (fun _ => 1) - (I (fun t => t) / I (fun _ => 1)) ^ 2).
Proof.
  intros (HL & HX) H. unfold rms_duration. f_equal. set (m := mean_time I).
  assert (P : poly2 (fun t => (-2 * m) * t + m ^ 2 * 1)) by (exists (m ^ 2), (-2 * m), 0; intros; ring).
  rewrite (HX _ (fun t => 1 * t ^ 2 + 1 * ((-2 * m) * t + m ^ 2 * 1))) by (intros; ring).
  rewrite (HL (fun t => t ^ 2) (fun t => (-2 * m) * t + m ^ 2 * 1) 1 1 poly2_t2 P).
  rewrite (HL (fun t => t) (fun _ => 1) (-2 * m) (m ^ 2) poly2_t poly2_1).
  assert (E : I (fun t => t) = m * I (fun _ => 1)) by (unfold m, mean_time; field; exact H).
  rewrite E. field. exact H.
Qed.

Lemma moment_xyt_lin K x0 x1 y0 y1 t0 t1 E : x0 < x1 -> y0 < y1 -> t0 < t1 -> 0 <= K ->
  lip_intensity K x0 x1 y0 y1 t0 t1 E -> lin2 (moment_xyt x0 x1 y0 y1 t0 t1 E).
Proof.
  intros Hx Hy Ht HK H. split.
  - intros phi psi a b Hp Hq.
    destruct (lip3_mul K x0 x1 y0 y1 t0 t1 _ phi Hx Hy Ht HK (lipI_3 _ _ _ _ _ _ _ _ H) Hp) as (K1 & P1 & L1).
    destruct (lip3_mul K x0 x1 y0 y1 t0 t1 _ psi Hx Hy Ht HK (lipI_3 _ _ _ _ _ _ _ _ H) Hq) as (K2 & P2 & L2).
    pose proof (RInt3_lin a b _ _ K1 K2 x0 x1 y0 y1 t0 t1 Hx Hy Ht P1 P2 L1 L2) as Q. unfold RInt3, RInt2 in Q.
    unfold moment_xyt. rewrite <- Q. apply RInt_ext. intros x _. apply RInt_ext. intros y _. apply RInt_ext. intros t _.
    match goal with |- @eq _ ?a ?b => change (@eq R a b) end. ring.
  - intros phi psi Hp. unfold moment_xyt. apply RInt_ext. intros x _. apply RInt_ext. intros y _. apply RInt_ext. intros t _.
    rewrite Hp. reflexivity.
Qed.

(** Lipschitz constant of the angle-integrated intensity times r. *)
Definition Grt (E : R -> R -> R -> C) (r t : R) : R :=
  RInt (fun theta => Cnorm2 (E (r * cos theta) (r * sin theta) t)) 0 (2 * PI) * r.
Lemma Grt_modes M (E : R -> R -> R -> C) (A : Z -> R -> R -> C) : (1 <= M)%nat ->
  (forall r t theta, E (r * cos theta) (r * sin theta) t = recon M (fun m => A m r t) theta) ->
  forall r t, is_RInt (fun theta => Cnorm2 (E (r * cos theta) (r * sin theta) t)) 0 (2 * PI)
      (2 * PI * rsum (2 * M - 1) (fun q => Cnorm2 (A (Z.of_nat q - (Z.of_nat M - 1))%Z r t))).
Proof.
  intros HM HA r t. apply (is_RInt_same (fun th => Cnorm2 (recon M (fun m => A m r t) th))); [intros th _; rewrite HA; reflexivity|].
  apply (recon_angle M (fun m => A m r t) HM).
Qed.
Lemma Grt_lip K r0 r1 t0 t1 M (E : R -> R -> R -> C) (A : Z -> R -> R -> C) :
  0 <= r0 -> r0 < r1 -> t0 < t1 -> 0 <= K -> (1 <= M)%nat ->
  lip_intensity K (- r1) r1 (- r1) r1 t0 t1 E ->
  (forall r t theta, E (r * cos theta) (r * sin theta) t = recon M (fun m => A m r t) theta) ->
  exists KG, 0 <= KG /\ lip2 KG r0 r1 t0 t1 (Grt E).
Proof.
  intros R0 B0 B1 HK HM H HA.
  set (F := fun r t => RInt (fun theta => Cnorm2 (E (r * cos theta) (r * sin theta) t)) 0 (2 * PI)).
  assert (HX : forall r t, ex_RInt (fun theta => Cnorm2 (E (r * cos theta) (r * sin theta) t)) 0 (2 * PI)).
  { intros r t. eexists. apply (Grt_modes M E A HM HA). }
  pose proof PI_RGT_0 as Ppi.
  assert (FL : lip2 (4 * PI * K) r0 r1 t0 t1 F).
  { intros r r' t t' Ir Ir' It It'. unfold F.
    eapply Rle_trans; [apply (RInt_close _ _ _ _ (K * (2 * Rabs (r - r') + Rabs (t - t')))); auto|].
    - lra.
    - intros th _. destruct (r_trig r r1 th) as (Q1 & Q2); [lra|]. destruct (r_trig r' r1 th) as (Q3 & Q4); [lra|].
      destruct (abs_trig r r' th) as (Q5 & Q6). eapply Rle_trans; [apply H; assumption|]. apply Rmult_le_compat_l; [exact HK|lra].
    - pose proof (Rabs_pos (t - t')). assert (0 <= K * Rabs (t - t')) by (apply Rmult_le_pos; assumption).
      assert (0 <= PI * (K * Rabs (t - t'))) by (apply Rmult_le_pos; lra). lra. }
  assert (PK : 0 <= 4 * PI * K) by nn.
  destruct (lip2_bnd _ r0 r1 t0 t1 F B0 B1 PK FL) as (B & PB & HB).
  exists (r1 * (4 * PI * K) + 1 * B). split; [nn|]. intros r r' t t' Ir Ir' It It'.
  change (Grt E r t) with (F r t * r). change (Grt E r' t') with (F r' t' * r'). rewrite (Rmult_comm (F r t)), (Rmult_comm (F r' t')).
  pose proof (Rabs_pos (r - r')). pose proof (Rabs_pos (t - t')).
  apply (prod_close _ _ _ _ 1 r1 (4 * PI * K) B (Rabs (r - r'))); auto; try lra.
  rewrite Rabs_right; lra.
Qed.
Lemma moment_rt_lin K r0 r1 t0 t1 M (E : R -> R -> R -> C) (A : Z -> R -> R -> C) :
  0 <= r0 -> r0 < r1 -> t0 < t1 -> 0 <= K -> (1 <= M)%nat ->
  lip_intensity K (- r1) r1 (- r1) r1 t0 t1 E ->
  (forall r t theta, E (r * cos theta) (r * sin theta) t = recon M (fun m => A m r t) theta) ->
  lin2 (moment_rt r0 r1 t0 t1 E).
Proof.
  intros R0 B0 B1 HK HM H HA. destruct (Grt_lip K r0 r1 t0 t1 M E A R0 B0 B1 HK HM H HA) as (KG & PG & LG). split.
  - intros phi psi a b Hp Hq.
    destruct (lip2_mul KG r0 r1 t0 t1 _ phi B0 B1 PG LG Hp) as (K1 & P1 & L1).
    destruct (lip2_mul KG r0 r1 t0 t1 _ psi B0 B1 PG LG Hq) as (K2 & P2 & L2).
    pose proof (RInt2_lin a b _ _ K1 K2 r0 r1 t0 t1 B0 B1 P1 P2 L1 L2) as Q. unfold RInt2 in Q.
    unfold moment_rt. fold (Grt E). unfold Grt in Q. rewrite <- Q. apply RInt_ext. intros r _. apply RInt_ext. intros t _.
    match goal with |- @eq _ ?a ?b => change (@eq R a b) end. ring.
  - intros phi psi Hp. unfold moment_rt. apply RInt_ext. intros x _. apply RInt_ext. intros t _.
    rewrite Hp. reflexivity.
Qed.
