(** Lemmas on finite real/complex sums, [cis] and [cexp]. *)
From Verif Require Import PyBase.

Open Scope R_scope.

(** ** Real sums *)
Lemma rsum_ext n f g : (forall i, (i < n)%nat -> f i = g i) -> rsum n f = rsum n g.
Proof. induction n as [|n IH]; simpl; intros H; [reflexivity|]. rewrite IH, H by (intros; try apply H; lia); reflexivity. Qed.
Lemma rsum_0 n : rsum n (fun _ => 0) = 0.
Proof. induction n as [|n IH]; simpl; [reflexivity|]; rewrite IH; ring. Qed.
Lemma rsum_plus n f g : rsum n (fun i => f i + g i) = rsum n f + rsum n g.
Proof. induction n as [|n IH]; simpl; [ring|]; rewrite IH; ring. Qed.
Lemma rsum_minus n f g : rsum n (fun i => f i - g i) = rsum n f - rsum n g.
Proof. induction n as [|n IH]; simpl; [ring|]; rewrite IH; ring. Qed.
Lemma rsum_scal_l n a f : rsum n (fun i => a * f i) = a * rsum n f.
Proof. induction n as [|n IH]; simpl; [ring|]; rewrite IH; ring. Qed.
Lemma rsum_scal_r n a f : rsum n (fun i => f i * a) = rsum n f * a.
Proof. induction n as [|n IH]; simpl; [ring|]; rewrite IH; ring. Qed.
Lemma rsum_const n a : rsum n (fun _ => a) = INR n * a.
Proof. induction n as [|n IH]; [simpl; ring|]. rewrite S_INR; simpl; rewrite IH; ring. Qed.
Lemma rsum_le n f g : (forall i, (i < n)%nat -> f i <= g i) -> rsum n f <= rsum n g.
Proof. induction n as [|n IH]; simpl; intros H; [lra|]. apply Rplus_le_compat; [apply IH; intros; apply H; lia | apply H; lia]. Qed.
Lemma rsum_nonneg n f : (forall i, (i < n)%nat -> 0 <= f i) -> 0 <= rsum n f.
Proof. intros H; rewrite <- (rsum_0 n); apply rsum_le; exact H. Qed.
Lemma rsum_swap n m (f : nat -> nat -> R) :
  rsum n (fun i => rsum m (fun j => f i j)) = rsum m (fun j => rsum n (fun i => f i j)).
Proof.
  induction n as [|n IH]; simpl; [symmetry; apply rsum_0|].
  rewrite IH, <- rsum_plus; apply rsum_ext; intros; reflexivity.
Qed.
Lemma rsum_nonneg_zero n f :
  (forall i, (i < n)%nat -> 0 <= f i) -> rsum n f = 0 -> forall i, (i < n)%nat -> f i = 0.
Proof.
  induction n as [|n IH]; simpl; intros H Hs i Hi; [lia|].
  assert (H1 : 0 <= rsum n f) by (apply rsum_nonneg; intros; apply H; lia).
  assert (H2 : 0 <= f n) by (apply H; lia).
  destruct (Nat.eq_dec i n) as [->|Hn]; [lra|].
  apply IH; [intros; apply H; lia | lra | lia].
Qed.
Lemma rsum_telescope n (f : nat -> R) : rsum n (fun i => f (S i) - f i) = f n - f 0%nat.
Proof. induction n as [|n IH]; simpl; [ring|]; rewrite IH; ring. Qed.
Lemma rsum_split n m f : rsum (n + m) f = rsum n f + rsum m (fun i => f (n + i)%nat).
Proof.
  induction m as [|m IH]; simpl; [rewrite Nat.add_0_r; ring|].
  rewrite Nat.add_succ_r; simpl; rewrite IH; ring.
Qed.
Lemma rsum_first n f : rsum (S n) f = f 0%nat + rsum n (fun i => f (S i)).
Proof. change (S n) with (1 + n)%nat; rewrite rsum_split; simpl; ring. Qed.
Lemma rsum_rev n f : rsum n (fun i => f (n - 1 - i)%nat) = rsum n f.
Proof.
  induction n as [|n IH]; [reflexivity|].
  rewrite rsum_first. simpl rsum at 2. rewrite <- IH.
  replace (S n - 1 - 0)%nat with n by lia.
  rewrite Rplus_comm; f_equal; apply rsum_ext; intros i Hi; f_equal; lia.
Qed.
Lemma rsum_single n f i0 : (i0 < n)%nat -> (forall i, (i < n)%nat -> i <> i0 -> f i = 0) -> rsum n f = f i0.
Proof.
  induction n as [|n IH]; simpl; intros Hi H; [lia|].
  destruct (Nat.eq_dec i0 n) as [->|Hn].
  - rewrite (rsum_ext _ f (fun _ => 0)), rsum_0; [ring|]. intros i Hin; apply H; lia.
  - rewrite IH; [rewrite (H n) by lia; ring | lia | intros; apply H; lia].
Qed.
Lemma rsum_abs n f : Rabs (rsum n f) <= rsum n (fun i => Rabs (f i)).
Proof.
  induction n as [|n IH]; simpl; [rewrite Rabs_R0; lra|].
  eapply Rle_trans; [apply Rabs_triang|]; lra.
Qed.

(** ** Complex sums *)
Lemma csum_ext n f g : (forall i, (i < n)%nat -> f i = g i) -> csum n f = csum n g.
Proof. induction n as [|n IH]; simpl; intros H; [reflexivity|]. rewrite IH, H by (intros; try apply H; lia); reflexivity. Qed.
Lemma csum_0 n : csum n (fun _ => RtoC 0) = RtoC 0.
Proof. induction n as [|n IH]; simpl; [reflexivity|]; rewrite IH; ring. Qed.
Lemma csum_zero n f : (forall i, (i < n)%nat -> f i = RtoC 0) -> csum n f = RtoC 0.
Proof. intros H; rewrite <- (csum_0 n); apply csum_ext; exact H. Qed.
Lemma csum_plus n f g : csum n (fun i => Cplus (f i) (g i)) = Cplus (csum n f) (csum n g).
Proof. induction n as [|n IH]; simpl; [ring|]; rewrite IH; ring. Qed.
Lemma csum_scal_l n a f : csum n (fun i => Cmult a (f i)) = Cmult a (csum n f).
Proof. induction n as [|n IH]; simpl; [ring|]; rewrite IH; ring. Qed.
Lemma csum_scal_r n a f : csum n (fun i => Cmult (f i) a) = Cmult (csum n f) a.
Proof. induction n as [|n IH]; simpl; [ring|]; rewrite IH; ring. Qed.
Lemma csum_const n a : csum n (fun _ => a) = Cmult (RtoC (INR n)) a.
Proof. induction n as [|n IH]; [simpl; ring|]. rewrite S_INR, RtoC_plus; simpl; rewrite IH; ring. Qed.
Lemma csum_swap n m (f : nat -> nat -> C) :
  csum n (fun i => csum m (fun j => f i j)) = csum m (fun j => csum n (fun i => f i j)).
Proof.
  induction n as [|n IH]; simpl; [symmetry; apply csum_0|].
  rewrite IH, <- csum_plus; apply csum_ext; intros; reflexivity.
Qed.
Lemma csum_split n m f : csum (n + m) f = Cplus (csum n f) (csum m (fun i => f (n + i)%nat)).
Proof.
  induction m as [|m IH]; simpl; [rewrite Nat.add_0_r; ring|].
  rewrite Nat.add_succ_r; simpl; rewrite IH; ring.
Qed.
Lemma csum_first n f : csum (S n) f = Cplus (f 0%nat) (csum n (fun i => f (S i))).
Proof. change (S n) with (1 + n)%nat; rewrite csum_split; simpl; ring. Qed.
Lemma csum_rev n f : csum n (fun i => f (n - 1 - i)%nat) = csum n f.
Proof.
  induction n as [|n IH]; [reflexivity|].
  rewrite csum_first. simpl csum at 2. rewrite <- IH.
  replace (S n - 1 - 0)%nat with n by lia.
  rewrite Cplus_comm; f_equal; apply csum_ext; intros i Hi; f_equal; lia.
Qed.
Lemma csum_single n f i0 : (i0 < n)%nat -> (forall i, (i < n)%nat -> i <> i0 -> f i = RtoC 0) -> csum n f = f i0.
Proof.
  induction n as [|n IH]; simpl; intros Hi H; [lia|].
  destruct (Nat.eq_dec i0 n) as [->|Hn].
  - rewrite (csum_zero n f); [ring|]. intros i Hin; apply H; lia.
  - rewrite IH; [rewrite (H n) by lia; ring | lia | intros; apply H; lia].
Qed.
Lemma fst_csum n f : fst (csum n f) = rsum n (fun i => fst (f i)).
Proof. induction n as [|n IH]; simpl; [reflexivity|]; rewrite IH; reflexivity. Qed.
Lemma snd_csum n f : snd (csum n f) = rsum n (fun i => snd (f i)).
Proof. induction n as [|n IH]; simpl; [reflexivity|]; rewrite IH; reflexivity. Qed.
Lemma csum_RtoC n f : csum n (fun i => RtoC (f i)) = RtoC (rsum n f).
Proof. induction n as [|n IH]; simpl; [reflexivity|]; rewrite IH, RtoC_plus; reflexivity. Qed.
Lemma csum_mult n m f g :
  Cmult (csum n f) (csum m g) = csum n (fun i => csum m (fun j => Cmult (f i) (g j))).
Proof.
  rewrite <- csum_scal_r; apply csum_ext; intros i _; rewrite csum_scal_l; reflexivity.
Qed.

(** ** Conjugate and squared modulus *)
Lemma Cconj_plus x y : Cconj (Cplus x y) = Cplus (Cconj x) (Cconj y).
Proof. apply injective_projections; simpl; ring. Qed.
Lemma Cconj_mult x y : Cconj (Cmult x y) = Cmult (Cconj x) (Cconj y).
Proof. apply injective_projections; simpl; ring. Qed.
Lemma Cconj_R x : Cconj (RtoC x) = RtoC x.
Proof. apply injective_projections; simpl; ring. Qed.
Lemma Cconj_conj x : Cconj (Cconj x) = x.
Proof. apply injective_projections; simpl; ring. Qed.
Lemma Cconj_csum n f : Cconj (csum n f) = csum n (fun i => Cconj (f i)).
Proof. induction n as [|n IH]; simpl; [apply Cconj_R|]; rewrite Cconj_plus, IH; reflexivity. Qed.
Lemma Cnorm2_conj z : RtoC (Cnorm2 z) = Cmult z (Cconj z).
Proof. unfold Cnorm2; apply injective_projections; simpl; ring. Qed.
Lemma Cnorm2_mult x y : Cnorm2 (Cmult x y) = Cnorm2 x * Cnorm2 y.
Proof. unfold Cnorm2; simpl; ring. Qed.
Lemma Cnorm2_R x : Cnorm2 (RtoC x) = x * x.
Proof. unfold Cnorm2; simpl; ring. Qed.
Lemma Cnorm2_nonneg z : 0 <= Cnorm2 z.
Proof. unfold Cnorm2; nra. Qed.
Lemma Cnorm2_0 : Cnorm2 (RtoC 0) = 0.
Proof. unfold Cnorm2; simpl; ring. Qed.
Lemma Cnorm2_eq_0 z : Cnorm2 z = 0 -> z = RtoC 0.
Proof.
  unfold Cnorm2; intros H; apply injective_projections; simpl; nra.
Qed.
Lemma Cmod_Cnorm2 z : Cmod z = sqrt (Cnorm2 z).
Proof. unfold Cmod, Cnorm2; f_equal; ring. Qed.
Lemma Cnorm2_Cmod z : Cnorm2 z = Cmod z * Cmod z.
Proof. rewrite Cmod_Cnorm2, sqrt_sqrt; [reflexivity | apply Cnorm2_nonneg]. Qed.
Lemma Cnorm2_pos z : z <> RtoC 0 -> 0 < Cnorm2 z.
Proof.
  intros H; destruct (Rle_lt_or_eq_dec _ _ (Cnorm2_nonneg z)) as [|E]; [assumption|].
  exfalso; apply H, Cnorm2_eq_0; auto.
Qed.
Lemma Cmod_csum n f : Cmod (csum n f) <= rsum n (fun i => Cmod (f i)).
Proof.
  induction n as [|n IH]; simpl; [rewrite Cmod_0; lra|].
  eapply Rle_trans; [apply Cmod_triangle|]; lra.
Qed.
Lemma Cmod_csum_le n f b : (forall i, (i < n)%nat -> Cmod (f i) <= b) -> Cmod (csum n f) <= INR n * b.
Proof.
  intros H; eapply Rle_trans; [apply Cmod_csum|].
  rewrite <- rsum_const; apply rsum_le; exact H.
Qed.

(** ** cis / cexp *)
Lemma cis_0 : cis 0 = RtoC 1.
Proof. unfold cis; rewrite cos_0, sin_0; reflexivity. Qed.
Lemma cis_plus a b : cis (a + b) = Cmult (cis a) (cis b).
Proof. unfold cis; apply injective_projections; simpl; [rewrite cos_plus | rewrite sin_plus]; ring. Qed.
Lemma cis_opp a : cis (- a) = Cconj (cis a).
Proof. unfold cis, Cconj; simpl; rewrite cos_neg, sin_neg; reflexivity. Qed.
Lemma Cnorm2_cis a : Cnorm2 (cis a) = 1.
Proof. unfold Cnorm2, cis; simpl; pose proof (sin2_cos2 a) as H; unfold Rsqr in H; lra. Qed.
Lemma Cmod_cis a : Cmod (cis a) = 1.
Proof. rewrite Cmod_Cnorm2, Cnorm2_cis; apply sqrt_1. Qed.
Lemma cis_neq0 a : cis a <> RtoC 0.
Proof. intros H; pose proof (Cnorm2_cis a) as E; rewrite H, Cnorm2_0 in E; lra. Qed.
Lemma cis_mul_opp a : Cmult (cis a) (cis (- a)) = RtoC 1.
Proof. rewrite <- cis_plus, Rplus_opp_r; apply cis_0. Qed.
Lemma cis_2PI_nat n : cis (2 * PI * INR n) = RtoC 1.
Proof.
  induction n as [|n IH]; [simpl; rewrite Rmult_0_r; apply cis_0|].
  rewrite S_INR; replace (2 * PI * (INR n + 1)) with (2 * PI * INR n + 2 * PI) by ring.
  rewrite cis_plus, IH. unfold cis; rewrite cos_2PI, sin_2PI; apply injective_projections; simpl; ring.
Qed.
Lemma cis_2PI_Z z : cis (2 * PI * IZR z) = RtoC 1.
Proof.
  destruct (Z_le_gt_dec 0 z) as [H|H].
  - rewrite <- (Z2Nat.id z) by lia; rewrite <- INR_IZR_INZ; apply cis_2PI_nat.
  - replace (2 * PI * IZR z) with (- (2 * PI * IZR (- z))) by (rewrite opp_IZR; ring).
    rewrite cis_opp. rewrite <- (Z2Nat.id (- z)) by lia.
    rewrite <- INR_IZR_INZ, cis_2PI_nat; apply Cconj_R.
Qed.
Lemma cis_period a z : cis (a + 2 * PI * IZR z) = cis a.
Proof. rewrite cis_plus, cis_2PI_Z; ring. Qed.
Lemma cis_pow a n : (fix p k := match k with O => RtoC 1 | S k => Cmult (cis a) (p k) end) n = cis (INR n * a).
Proof.
  induction n as [|n IH]; [rewrite Rmult_0_l, cis_0; reflexivity|].
  rewrite IH, S_INR, <- cis_plus; f_equal; ring.
Qed.
Lemma cis_PI : cis PI = RtoC (-1).
Proof. unfold cis; rewrite cos_PI, sin_PI; reflexivity. Qed.

Lemma cexp_plus a b : cexp (Cplus a b) = Cmult (cexp a) (cexp b).
Proof.
  unfold cexp, Re, Im; cbn [fst snd Cplus]. rewrite exp_plus, cis_plus, RtoC_mult; ring.
Qed.
Lemma cexp_0 : cexp (RtoC 0) = RtoC 1.
Proof. unfold cexp, Re, Im; cbn [fst snd RtoC]; rewrite exp_0, cis_0; ring. Qed.
Lemma cexp_imag t : cexp (0, t) = cis t.
Proof. unfold cexp, Re, Im; cbn [fst snd]; rewrite exp_0; ring. Qed.
Lemma cexp_real t : cexp (RtoC t) = RtoC (exp t).
Proof. unfold cexp, Re, Im; cbn [fst snd RtoC]; rewrite cis_0; ring. Qed.
Lemma Cmod_cexp z : Cmod (cexp z) = exp (fst z).
Proof.
  unfold cexp; rewrite Cmod_mult, Cmod_cis, Cmod_R, Rabs_right; [simpl; unfold Re; ring|].
  apply Rle_ge, Rlt_le, exp_pos.
Qed.
Lemma cexp_neq0 z : cexp z <> RtoC 0.
Proof.
  intros H; pose proof (Cmod_cexp z) as E; rewrite H, Cmod_0 in E.
  pose proof (exp_pos (fst z)); lra.
Qed.
Lemma RtoC_neq0 x : x <> 0 -> RtoC x <> RtoC 0.
Proof. intros H E; apply H; apply RtoC_inj; exact E. Qed.
