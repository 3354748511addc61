(** C91: the Bessel function of the specification solves Bessel's equation, and Bessel waves the wave equation. *)
From Coquelicot Require Import Coquelicot.
From Verif Require Import PyBase CSum LaserSpec WaveSpec GaussInt WaveProofs WaveEq.
Open Scope R_scope.

Lemma bessel_coef_neq n i : bessel_coef n i <> 0.
Proof.
  unfold bessel_coef, Rdiv. apply Rmult_integral_contrapositive_currified; [apply pow_nonzero; lra|].
  apply Rinv_neq_0_compat, Rmult_integral_contrapositive_currified; apply INR_fact_neq_0.
Qed.
Lemma bessel_coef_S n i : INR (S i) * INR (S i + n) * bessel_coef n (S i) = - bessel_coef n i.
Proof.
  unfold bessel_coef. replace (S i + n)%nat with (S (i + n)) by lia.
  rewrite !fact_simpl, !mult_INR. cbn [pow].
  pose proof (INR_fact_neq_0 i). pose proof (INR_fact_neq_0 (i + n)).
  assert (INR (S i) <> 0) by (apply not_0_INR; lia). assert (INR (S (i + n)) <> 0) by (apply not_0_INR; lia).
  field. auto.
Qed.
Lemma bessel_radius n : CV_radius (bessel_coef n) = p_infty.
Proof.
  apply CV_radius_infinite_DAlembert; [apply bessel_coef_neq|].
  apply (is_lim_seq_le_le (fun _ => 0) _ (fun i => / INR (S i))).
  - intros i. split; [apply Rabs_pos|].
    assert (P1 : 0 < INR (S i)) by (apply lt_0_INR; lia).
    assert (P2 : 1 <= INR (S i + n)) by (apply (le_INR 1); lia).
    assert (E : bessel_coef n (S i) / bessel_coef n i = - / (INR (S i) * INR (S i + n))).
    { pose proof (bessel_coef_S n i) as Q. pose proof (bessel_coef_neq n i). apply (Rmult_eq_reg_r (bessel_coef n i)); [|assumption].
      unfold Rdiv. rewrite Rmult_assoc, Rinv_l by assumption. replace (bessel_coef n i) with (- (INR (S i) * INR (S i + n) * bessel_coef n (S i))) by lra.
      field. split; lra. }
    rewrite E, Rabs_Ropp, Rabs_pos_eq.
    + apply Rinv_le_contravar; [exact P1|]. rewrite <- (Rmult_1_r (INR (S i))) at 1. apply Rmult_le_compat_l; lra.
    + apply Rlt_le, Rinv_0_lt_compat, Rmult_lt_0_compat; lra.
  - apply is_lim_seq_const.
  - apply (is_lim_seq_incr_1 (fun i => / INR i)). replace (Finite 0) with (Rbar_inv p_infty) by reflexivity.
    apply is_lim_seq_inv; [apply is_lim_seq_INR|discriminate].
Qed.

Section Bessel.
Variable n : nat.
Let F0 := PSeries (bessel_coef n).
Let F1 := PSeries (PS_derive (bessel_coef n)).
Let F2 := PSeries (PS_derive (PS_derive (bessel_coef n))).
Lemma dF0 y : is_derive F0 y (F1 y).
Proof. apply is_derive_PSeries. rewrite bessel_radius. exact I. Qed.
Lemma dF1 y : is_derive F1 y (F2 y).
Proof. apply is_derive_PSeries. rewrite CV_radius_derive, bessel_radius. exact I. Qed.
Lemma series_ode y : y * F2 y + (INR n + 1) * F1 y + F0 y = 0.
Proof.
  assert (E0 : ex_pseries (bessel_coef n) y) by (apply CV_radius_inside; rewrite bessel_radius; exact I).
  assert (E1 : ex_pseries (PS_derive (bessel_coef n)) y) by (apply CV_radius_inside; rewrite CV_radius_derive, bessel_radius; exact I).
  assert (E2 : ex_pseries (PS_derive (PS_derive (bessel_coef n))) y) by (apply CV_radius_inside; rewrite !CV_radius_derive, bessel_radius; exact I).
  unfold F0, F1, F2. rewrite <- PSeries_incr_1, <- PSeries_scal.
  assert (X2 : ex_pseries (PS_incr_1 (PS_derive (PS_derive (bessel_coef n)))) y) by (apply ex_pseries_incr_1, E2).
  assert (X1 : ex_pseries (PS_scal (INR n + 1) (PS_derive (bessel_coef n))) y) by (apply ex_pseries_scal; [apply Rmult_comm|exact E1]).
  rewrite <- (PSeries_plus _ _ y X2 X1), <- (PSeries_plus _ _ y (ex_pseries_plus _ _ y X2 X1) E0).
  rewrite (PSeries_ext _ (fun _ => 0)); [apply PSeries_const_0|].
  intros i. unfold PS_plus, PS_scal, PS_incr_1, PS_derive. unfold plus, scal; cbn -[INR bessel_coef]. unfold mult; cbn -[INR bessel_coef].
  pose proof (bessel_coef_S n i) as Q. rewrite plus_INR in Q.
  destruct i as [|i].
  - unfold zero; cbn -[INR bessel_coef]. rewrite <- (Ropp_involutive (bessel_coef n 0)), <- Q. change (INR 1) with 1. ring.
  - rewrite <- (Ropp_involutive (bessel_coef n (S i))), <- Q. rewrite !S_INR. ring.
Qed.
Lemma pow_pred r m : r <> 0 -> INR m * r ^ pred m = INR m * r ^ m / r.
Proof. intros H. destruct m as [|m]; [cbn [INR]; unfold Rdiv; ring|]. cbn [pred pow]. field. exact H. Qed.

Let g (s r : R) := (s * r) ^ n * F0 ((s * r) ^ 2).
Let g1 (s r : R) := s ^ n * (INR n * r ^ pred n * F0 ((s * r) ^ 2) + r ^ n * (2 * s ^ 2 * r) * F1 ((s * r) ^ 2)).
Let g2 (s r : R) := s ^ n * (INR n * (INR (pred n) * r ^ pred (pred n)) * F0 ((s * r) ^ 2) + 2 * (INR n * r ^ pred n * (2 * s ^ 2 * r) * F1 ((s * r) ^ 2))
   + r ^ n * (2 * s ^ 2) * F1 ((s * r) ^ 2) + r ^ n * (2 * s ^ 2 * r) * (2 * s ^ 2 * r) * F2 ((s * r) ^ 2)).
Lemma dg s r : is_derive (g s) r (g1 s r).
Proof.
  assert (E0 := dF0 ((s * r) ^ 2)).
  assert (D : is_derive (fun r => s ^ n * r ^ n * F0 ((s * r) ^ 2)) r (g1 s r)).
  { unfold g1. auto_derive; [exact (ex_intro _ _ E0)|].
    match goal with |- context [Derive ?f ?x] => replace (Derive f x) with (F1 ((s * r) ^ 2)) by (symmetry; exact (is_derive_unique _ _ _ E0)) end.
    change (s * r * (s * r * 1)) with ((s * r) ^ 2). eqR. ring. }
  apply (is_derive_ext (fun r => s ^ n * r ^ n * F0 ((s * r) ^ 2))); [|exact D].
  intros t. unfold g. rewrite (Rpow_mult_distr s t n). reflexivity.
Qed.
Lemma dg1 s r : is_derive (g1 s) r (g2 s r).
Proof.
  assert (E0 := dF0 ((s * r) ^ 2)). assert (E1 := dF1 ((s * r) ^ 2)). unfold g1, g2.
  auto_derive; [repeat split; [exact (ex_intro _ _ E0)|exact (ex_intro _ _ E1)]|].
  match goal with |- context [Derive (fun x => F0 x) ?y] => replace (Derive (fun x => F0 x) y) with (F1 ((s * r) ^ 2)) by (symmetry; exact (is_derive_unique _ _ _ E0)) end.
  match goal with |- context [Derive (fun x => F1 x) ?y] => replace (Derive (fun x => F1 x) y) with (F2 ((s * r) ^ 2)) by (symmetry; exact (is_derive_unique _ _ _ E1)) end.
  change (s * r * (s * r * 1)) with ((s * r) ^ 2). eqR. ring.
Qed.
Lemma g_ode s r : r <> 0 -> g2 s r + g1 s r / r + (4 * s ^ 2 - INR n ^ 2 / r ^ 2) * g s r = 0.
Proof.
  intros Hr. pose proof (series_ode ((s * r) ^ 2)) as Q.
  assert (P1 := pow_pred r n Hr).
  assert (P2 : INR n * (INR (pred n) * r ^ pred (pred n)) = INR n * (INR n - 1) * r ^ n / r ^ 2).
  { destruct n as [|[|m]]; [cbn [INR]; unfold Rdiv; ring|cbn; field; exact Hr|]. rewrite pow_pred by exact Hr. cbn [pred]. rewrite !S_INR. cbn [pow]. field. exact Hr. }
  unfold g2, g1, g. rewrite P2, P1, (Rpow_mult_distr s r n).
  set (f0 := F0 ((s * r) ^ 2)) in *. set (f1 := F1 ((s * r) ^ 2)) in *. set (f2 := F2 ((s * r) ^ 2)) in *.
  transitivity (4 * s ^ 2 * s ^ n * r ^ n * ((s * r) ^ 2 * f2 + (INR n + 1) * f1 + f0)); [field; exact Hr|]. rewrite Q. ring.
Qed.
Lemma bessel_g k r : bessel n (k * r) = g (k / 2) r.
Proof. unfold bessel, g, F0. replace (k * r / 2) with (k / 2 * r) by field. reflexivity. Qed.
Lemma bessel_ode k : exists b1 b2, (forall r, is_derive (fun r => bessel n (k * r)) r (b1 r)) /\ (forall r, is_derive b1 r (b2 r)) /\
  forall r, r <> 0 -> b2 r + b1 r / r + (k ^ 2 - INR n ^ 2 / r ^ 2) * bessel n (k * r) = 0.
Proof.
  exists (g1 (k / 2)), (g2 (k / 2)). split; [|split].
  - intros r. apply (is_derive_ext (g (k / 2))); [intros t; symmetry; apply bessel_g|]. apply dg.
  - intros r. apply dg1.
  - intros r Hr. rewrite bessel_g. rewrite <- (g_ode (k / 2) r Hr). field. exact Hr.
Qed.
End Bessel.

Definition bd1 (v : bwave) (r : R) : R := Derive (fun r => bessel (Z.abs_nat (bw_m v)) (bw_kr v * r)) r.
Definition bd2 (v : bwave) (r : R) : R := Derive (bd1 v) r.
Lemma bd_ok v : (forall r, is_derive (fun r => bessel (Z.abs_nat (bw_m v)) (bw_kr v * r)) r (bd1 v r)) /\ (forall r, is_derive (bd1 v) r (bd2 v r)) /\
  forall r, r <> 0 -> bd2 v r + bd1 v r / r + (bw_kr v ^ 2 - IZR (bw_m v) ^ 2 / r ^ 2) * bessel (Z.abs_nat (bw_m v)) (bw_kr v * r) = 0.
Proof.
  destruct (bessel_ode (Z.abs_nat (bw_m v)) (bw_kr v)) as (b1 & b2 & H1 & H2 & H3).
  assert (E1 : forall r, bd1 v r = b1 r) by (intros r; apply is_derive_unique, H1).
  assert (D2 : forall r, is_derive (bd1 v) r (b2 r)) by (intros r; apply (is_derive_ext b1); [intros t; symmetry; apply E1|apply H2]).
  assert (E2 : forall r, bd2 v r = b2 r) by (intros r; apply is_derive_unique, D2).
  split; [intros r; rewrite E1; apply H1|]. split; [intros r; rewrite E2; apply D2|].
  intros r Hr. rewrite E1, E2. rewrite <- (H3 r Hr). replace (IZR (bw_m v) ^ 2) with (INR (Z.abs_nat (bw_m v)) ^ 2); [reflexivity|].
  rewrite INR_IZR_INZ, Zabs2Nat.id_abs, abs_IZR, pow2_abs. reflexivity.
Qed.

Lemma dfold {A} (l : list A) (f f1 : A -> R -> R) (w : A -> R) r : (forall v, is_derive (f v) r (f1 v r)) ->
  is_derive (fun r => fold_right (fun v s => f v r * w v + s) 0 l) r (fold_right (fun v s => f1 v r * w v + s) 0 l).
Proof.
  intros H. induction l as [|v l IH]; [exact (is_derive_const (K := R_AbsRing) (V := R_NormedModule) 0 r)|].
  cbn [fold_right]. apply (is_derive_plus (fun r => f v r * w v) _ r _ _); [|exact IH].
  apply (is_derive_ext (fun r => scal (w v) (f v r))); [intros t; unfold scal; cbn; unfold mult; cbn; eqR; ring|].
  replace (f1 v r * w v) with (scal (w v) (f1 v r)) by (unfold scal; cbn; unfold mult; cbn; eqR; ring). apply is_derive_scal, H.
Qed.

Lemma bessel_waves_solve ws : Forall (fun v => bw_kr v ^ 2 <= (bw_w v / c_light) ^ 2) ws -> solves_cylindrical_wave_equation (bessel_waves ws).
Proof.
  intros HF part H r th z t Hr. pose proof c_light_pos as Pc.
  set (ph := fun v => - (IZR (bw_m v) * th) + bw_kz v * z - bw_w v * t).
  set (J := fun v r => bessel (Z.abs_nat (bw_m v)) (bw_kr v * r)).
  set (w := fun v => part (Cmult (bw_A v) (cis (ph v)))).
  assert (Hpart : forall f : bwave -> R, part (lsum ws (fun v => Cmult (bw_A v) (Cmult (RtoC (f v)) (cis (ph v))))) = fold_right (fun v s => f v * w v + s) 0 ws).
  { intros f. unfold w. rewrite <- (part_lsum part H ws f (fun v => Cmult (bw_A v) (cis (ph v)))). f_equal. apply lsum_ext. intros v _. ring. }
  set (E := fun v => Cmult (Cmult (bw_A v) (RtoC (J v r))) (cis (ph v))).
  exists (fold_right (fun v s => bd1 v r * w v + s) 0 ws), (fold_right (fun v s => bd2 v r * w v + s) 0 ws),
    (part (lsum ws (fun v => Cmult (RtoC (- (- IZR (bw_m v)) ^ 2)) (E v)))), (part (lsum ws (fun v => Cmult (RtoC (- bw_kz v ^ 2)) (E v)))),
    (part (lsum ws (fun v => Cmult (RtoC (- (- bw_w v) ^ 2)) (E v)))).
  assert (Q : forall (k : bwave -> R) (F : R -> C) (xx : R), (forall yy, F yy = lsum ws (fun v => Cmult (Cmult (bw_A v) (RtoC (J v r))) (cis (k v * yy + (ph v - k v * xx))))) ->
     is_derive_n (fun x => part (F x)) 2 xx (part (lsum ws (fun v => Cmult (RtoC (- k v ^ 2)) (E v))))).
  { intros k F xx HF'. pose proof (d2lsum part H ws (fun v => Cmult (bw_A v) (RtoC (J v r))) k (fun v => ph v - k v * xx) F xx HF') as D.
    replace (part (lsum ws (fun v => Cmult (RtoC (- k v ^ 2)) (E v)))) with
      (part (lsum ws (fun v => Cmult (RtoC (- k v ^ 2)) (Cmult (Cmult (bw_A v) (RtoC (J v r))) (cis (k v * xx + (ph v - k v * xx))))))); [exact D|].
    f_equal. apply lsum_ext. intros v _. unfold E. do 3 apply f_equal. ring. }
  assert (Hd1 : forall r, is_derive (fun r => part (bessel_waves ws r th z t)) r (fold_right (fun v s => bd1 v r * w v + s) 0 ws)).
  { intros r'. apply (is_derive_ext (fun r => fold_right (fun v s => J v r * w v + s) 0 ws)).
    - intros y. symmetry. apply (Hpart (fun v => J v y)).
    - apply (dfold ws J bd1 w r'). intros v. apply bd_ok. }
  refine (conj _ (conj _ (conj _ (conj _ (conj _ _))))).
  - apply Hd1.
  - apply (derive2 _ (fun r => fold_right (fun v s => bd1 v r * w v + s) 0 ws)); [exact Hd1|]. apply (dfold ws bd1 bd2 w r). intros v. apply bd_ok.
  - apply Q. intros yy. unfold bessel_waves. apply lsum_ext. intros v _. rewrite Cmult_assoc. unfold ph. apply f_equal, f_equal. ring.
  - apply Q. intros yy. unfold bessel_waves. apply lsum_ext. intros v _. rewrite Cmult_assoc. unfold ph. apply f_equal, f_equal. ring.
  - apply Q. intros yy. unfold bessel_waves. apply lsum_ext. intros v _. rewrite Cmult_assoc. unfold ph. apply f_equal, f_equal. ring.
  - rewrite !(part_lsum part H). clear Q Hd1 Hpart.
    assert (Ew : forall v, part (E v) = J v r * w v).
    { intros v. unfold E, w. rewrite <- (part_scal part H). f_equal. ring. }
    induction HF as [|v l Hv _ IH]; cbn [fold_right]; [unfold Rdiv; ring|].
    assert (Kz : bw_kz v ^ 2 = (bw_w v / c_light) ^ 2 - bw_kr v ^ 2) by (unfold bw_kz; apply pow2_sqrt; lra).
    replace (- bw_kz v ^ 2) with (- ((bw_w v / c_light) ^ 2 - bw_kr v ^ 2)) by (rewrite Kz; reflexivity).
    destruct (bd_ok v) as (_ & _ & O). specialize (O r Hr). fold (J v r) in O.
    revert IH.
    generalize (fold_right (fun (v : bwave) (s : R) => bd2 v r * w v + s) 0 l) as S1.
    generalize (fold_right (fun (v : bwave) (s : R) => bd1 v r * w v + s) 0 l) as S2.
    generalize (fold_right (fun (v : bwave) (s : R) => - (- IZR (bw_m v)) ^ 2 * part (E v) + s) 0 l) as S3.
    generalize (fold_right (fun (v : bwave) (s : R) => - bw_kz v ^ 2 * part (E v) + s) 0 l) as S4.
    generalize (fold_right (fun (v : bwave) (s : R) => - (- bw_w v) ^ 2 * part (E v) + s) 0 l) as S5.
    intros S5 S4 S3 S2 S1 IH. rewrite (Ew v).
    transitivity ((bd2 v r + bd1 v r / r + (bw_kr v ^ 2 - IZR (bw_m v) ^ 2 / r ^ 2) * J v r) * w v - (bw_w v / c_light) ^ 2 * (J v r * w v) + (S1 + S2 / r + S3 / r ^ 2 + S4)); [field; lra|].
    rewrite O, IH. field. lra.
Qed.
