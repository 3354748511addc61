(** Proofs of C79, C80: orthogonality and power of the Laguerre-Gauss modes. *)
From Coquelicot Require Import Coquelicot.
From Coq Require Import Arith.Factorial.
From Verif Require Import PyBase CSum NumPy NpMath NpMathProofs ZernikeProofs ZernikeOrtho AnalyticModel AnalyticProofs LGProofs ParaxialLG TransShapeProofs GaussInt HGOrtho PolarSpec.
Open Scope R_scope.

(** ** Finite differences with the leading coefficient: the d-th difference is constant, equal to l. *)
Fixpoint Plead (d : nat) (l : R) (f : nat -> R) : Prop :=
  match d with O => forall k, f k = l | S d => Plead d l (fun k => f k - f (S k)) end.
Lemma Plead_ext d l : forall f g, (forall k, f k = g k) -> Plead d l f -> Plead d l g.
Proof.
  induction d as [|d IH]; cbn; intros f g E H; [intros k; rewrite <- E; apply H|]. apply (IH (fun k => f k - f (S k))); [intros k; rewrite !E; reflexivity|exact H].
Qed.
Lemma Plead_plus d l l' : forall f g, Plead d l f -> Plead d l' g -> Plead d (l + l') (fun k => f k + g k).
Proof.
  induction d as [|d IH]; cbn; intros f g Hf Hg; [intros k; rewrite Hf, Hg; ring|].
  apply (Plead_ext d _ (fun k => (f k - f (S k)) + (g k - g (S k)))); [intros; ring|]. apply IH; assumption.
Qed.
Lemma Plead_scal d c l : forall f, Plead d l f -> Plead d (c * l) (fun k => c * f k).
Proof.
  induction d as [|d IH]; cbn; intros f Hf; [intros k; rewrite Hf; ring|]. apply (Plead_ext d _ (fun k => c * (f k - f (S k)))); [intros; ring|]. apply IH; assumption.
Qed.
Lemma Plead_shift d l : forall f, Plead d l f -> Plead d l (fun k => f (S k)).
Proof. induction d as [|d IH]; cbn; intros f H; [intros k; apply H|]. apply (IH (fun k => f k - f (S k))). exact H. Qed.
Lemma Plead_lin al be d l : forall f, Plead d l f -> Plead (S d) (- be * INR (S d) * l) (fun k => (al + be * INR k) * f k).
Proof.
  induction d as [|d IH]; intros f H.
  - cbn [Plead] in *. intros k. rewrite !H, !S_INR. simpl INR. ring.
  - change (Plead (S d) (- be * INR (S (S d)) * l) (fun k => (al + be * INR k) * f k - (al + be * INR (S k)) * f (S k))).
    apply (Plead_ext (S d) _ (fun k => (al + be * INR k) * (f k - f (S k)) + (- be) * f (S k))); [intros k; rewrite S_INR; ring|].
    replace (- be * INR (S (S d)) * l) with (- be * INR (S d) * l + - be * l) by (rewrite (S_INR (S d)); ring).
    apply Plead_plus; [apply IH; exact H|]. apply Plead_scal, Plead_shift. exact H.
Qed.
Lemma Plead_up d l : forall f, Plead d l f -> Plead (S d) 0 f.
Proof.
  induction d as [|d IH]; intros f H; [cbn [Plead] in *; intros k; rewrite !H; ring|].
  change (Plead (S d) 0 (fun k => f k - f (S k))). apply (IH (fun k => f k - f (S k))). exact H.
Qed.
Lemma Plead_zero d f n : (d <= n)%nat -> Plead d 0 f -> Plead n 0 f.
Proof. intros H. induction H as [|n H IH]; [auto|]. intros Hf. apply (Plead_up n 0), IH, Hf. Qed.
Lemma alt_Plead a : forall l f, Plead a l f -> alt a f = l.
Proof.
  induction a as [|a IH]; intros l f H.
  - unfold alt. cbn [rsum]. rewrite H. rewrite bin_0. simpl. ring.
  - rewrite alt_S. apply IH. exact H.
Qed.
(** prod over t < n of (c + t + k) *)
Fixpoint rising (n : nat) (c k : R) : R := match n with O => 1 | S n => rising n c k * (c + INR n + k) end.
Lemma rising_Plead n c : Plead n ((-1) ^ n * INR (fact n)) (fun k => rising n c (INR k)).
Proof.
  induction n as [|n IH]; [cbn [Plead]; intros; simpl; ring|]. cbn [rising].
  apply (Plead_ext _ _ (fun k => ((c + INR n) + 1 * INR k) * rising n c (INR k))); [intros; ring|].
  replace ((-1) ^ S n * INR (fact (S n))) with (- (1) * INR (S n) * ((-1) ^ n * INR (fact n))) by (rewrite fact_simpl, mult_INR; simpl pow; ring).
  apply Plead_lin, IH.
Qed.
Lemma rising_fact n k i : INR (fact (k + i + n)) = INR (fact (k + i)) * rising n (INR k + 1) (INR i).
Proof.
  induction n as [|n IH]; [rewrite Nat.add_0_r; cbn [rising]; ring|]. rewrite Nat.add_succ_r, fact_simpl, mult_INR, IH. cbn [rising].
  rewrite S_INR, !plus_INR. ring.
Qed.
(** ** Moments of the Laguerre polynomials *)
Lemma lag_sum p k j : rsum (S p) (fun i => lc p k i * INR (fact (k + i + j))) = INR (fact (p + k)) / INR (fact p) * alt p (fun i => rising j (INR k + 1) (INR i)).
Proof.
  unfold alt. rewrite <- rsum_scal_l. apply rsum_ext. intros i Hi. rewrite rising_fact, bin_INR by lia. unfold lc.
  pose proof (fact_neq0 p). pose proof (fact_neq0 (p - i)). pose proof (fact_neq0 i). pose proof (fact_neq0 (k + i)). field. repeat split; assumption.
Qed.
Lemma lag_low p k j : (j < p)%nat -> rsum (S p) (fun i => lc p k i * INR (fact (k + i + j))) = 0.
Proof.
  intros H. rewrite lag_sum. rewrite (alt_Plead p 0); [ring|]. apply (Plead_zero (S j)); [exact H|]. apply (Plead_up _ ((-1) ^ j * INR (fact j))), rising_Plead.
Qed.
Lemma lag_top p k : rsum (S p) (fun i => lc p k i * INR (fact (k + i + p))) = (-1) ^ p * INR (fact (p + k)).
Proof. rewrite lag_sum, (alt_Plead p _ _ (rising_Plead p _)). field. apply fact_neq0. Qed.
Definition lag2 (p p' k : nat) : R := rsum (S p) (fun i => rsum (S p') (fun j => lc p k i * lc p' k j * INR (fact (k + i + j)))).
Lemma lag2_sym p p' k : lag2 p p' k = lag2 p' p k.
Proof.
  unfold lag2. rewrite rsum_swap. apply rsum_ext. intros j _. apply rsum_ext. intros i _. replace (k + i + j)%nat with (k + j + i)%nat by lia. ring.
Qed.
Lemma lag2_inner p p' k : lag2 p p' k = rsum (S p') (fun j => lc p' k j * rsum (S p) (fun i => lc p k i * INR (fact (k + i + j)))).
Proof.
  unfold lag2. rewrite rsum_swap. apply rsum_ext. intros j _. rewrite <- rsum_scal_l. apply rsum_ext. intros i _. ring.
Qed.
Lemma lag2_value p p' k : lag2 p p' k = if Nat.eqb p p' then INR (fact (p + k)) / INR (fact p) else 0.
Proof.
  assert (L : forall p p', (p' < p)%nat -> lag2 p p' k = 0).
  { clear p p'. intros p p' H. rewrite lag2_inner. rewrite (rsum_ext _ _ (fun _ => 0)); [apply rsum_0|]. intros j Hj. rewrite lag_low by lia. ring. }
  destruct (Nat.eqb_spec p p') as [<-|N].
  - rewrite lag2_inner. cbn [rsum]. rewrite (rsum_ext p _ (fun _ => 0)); [|intros j Hj; change (rsum p (fun i => lc p k i * INR (fact (k + i + j))) + lc p k p * INR (fact (k + p + j))) with (rsum (S p) (fun i => lc p k i * INR (fact (k + i + j)))); rewrite lag_low by lia; ring].
    rewrite rsum_0. change (rsum p (fun i => lc p k i * INR (fact (k + i + p))) + lc p k p * INR (fact (k + p + p))) with (rsum (S p) (fun i => lc p k i * INR (fact (k + i + p)))). rewrite lag_top.
    unfold lc. rewrite Nat.sub_diag. replace (k + p)%nat with (p + k)%nat by lia. simpl (INR (fact 0)). pose proof (pow_m1_sq p) as E. pose proof (fact_neq0 p). pose proof (fact_neq0 (p + k)).
    transitivity (((-1) ^ p * (-1) ^ p) * (INR (fact (p + k)) / INR (fact p))); [field; split; assumption|rewrite E; ring].
  - destruct (Nat.lt_trichotomy p p') as [H|[H|H]]; [rewrite lag2_sym|contradiction|]; apply L, H.
Qed.
(** ** Gaussian moments in polar coordinates *)
Fixpoint Jm (b : R) (n : nat) (x : R) : R :=
  match n with O => (1 - exp (- (b * x ^ 2))) / (2 * b) | S n => (INR (2 * n + 2) * Jm b n x - x ^ (2 * n + 2) * exp (- (b * x ^ 2))) / (2 * b) end.
Lemma Jm_0 b n : 0 < b -> Jm b n 0 = 0.
Proof.
  intros Hb. induction n as [|n IH]; cbn [Jm].
  - replace (- (b * 0 ^ 2)) with 0 by ring. rewrite exp_0. field. lra.
  - rewrite IH, pow_i by lia. field. lra.
Qed.
Lemma Jm_derive b n x : 0 < b -> is_derive (Jm b n) x (x ^ (2 * n + 1) * exp (- (b * x ^ 2))).
Proof.
  intros Hb. assert (EE : is_derive (fun x => exp (- (b * x ^ 2))) x (- (2 * b * x) * exp (- (b * x ^ 2)))).
  { auto_derive; [exact I|]. eqR. replace (x * (x * 1)) with (x ^ 2) by ring. ring. }
  induction n as [|n IH]; cbn [Jm].
  - apply (is_derive_ext (fun x => (1 - exp (- (b * x ^ 2))) * (/ (2 * b)))); [reflexivity|].
    replace (x ^ (2 * 0 + 1) * exp (- (b * x ^ 2))) with ((0 - - (2 * b * x) * exp (- (b * x ^ 2))) * / (2 * b)) by (simpl (2 * 0 + 1)%nat; rewrite pow_1; field; lra).
    apply (@is_derive_scal_l R_AbsRing R_NormedModule (fun x => 1 - exp (- (b * x ^ 2)))).
    apply (@is_derive_minus R_AbsRing R_NormedModule (fun _ => 1)); [apply (@is_derive_const R_AbsRing R_NormedModule)|exact EE].
  - pose proof (dmul (fun x => x ^ (2 * n + 2)) (fun x => exp (- (b * x ^ 2))) x _ _ (is_derive_pow (fun x => x) (2 * n + 2) x 1 (@is_derive_id R_AbsRing x)) EE) as D.
    replace (x ^ (2 * S n + 1) * exp (- (b * x ^ 2))) with
      ((INR (2 * n + 2) * (x ^ (2 * n + 1) * exp (- (b * x ^ 2))) - (INR (2 * n + 2) * 1 * x ^ Nat.pred (2 * n + 2) * exp (- (b * x ^ 2)) + x ^ (2 * n + 2) * (- (2 * b * x) * exp (- (b * x ^ 2))))) * / (2 * b)).
    + apply (is_derive_ext (fun x => (INR (2 * n + 2) * Jm b n x - x ^ (2 * n + 2) * exp (- (b * x ^ 2))) * / (2 * b))); [reflexivity|].
      apply (@is_derive_scal_l R_AbsRing R_NormedModule (fun x => INR (2 * n + 2) * Jm b n x - x ^ (2 * n + 2) * exp (- (b * x ^ 2)))).
      apply (@is_derive_minus R_AbsRing R_NormedModule (fun x => INR (2 * n + 2) * Jm b n x)); [|exact D].
      apply (is_derive_scal (Jm b n)). exact IH.
    + replace (Nat.pred (2 * n + 2)) with (2 * n + 1)%nat by lia. replace (2 * S n + 1)%nat with (S (S (2 * n + 1))) by lia. replace (2 * n + 2)%nat with (S (2 * n + 1)) by lia. rewrite <- !tech_pow_Rmult. field. lra.
Qed.
Lemma Jm_int b n L : 0 < b -> is_RInt (fun x => x ^ (2 * n + 1) * exp (- (b * x ^ 2))) 0 L (Jm b n L).
Proof.
  intros Hb. replace (Jm b n L) with (Jm b n L - Jm b n 0) by (rewrite Jm_0 by exact Hb; ring).
  apply (is_RInt_derive (Jm b n)).
  - intros x _. apply Jm_derive, Hb.
  - intros x _. cont1.
Qed.
Lemma Jbnd b n : 0 < b -> to_inf (fun x => x ^ (2 * n) * exp (- (b * x ^ 2))) 0.
Proof.
  intros Hb. unfold to_inf.
  assert (H : is_lim (fun x => (1 + (sqrt b * x) ^ 2) ^ n * exp (- (sqrt b * x) ^ 2)) p_infty 0).
  { apply (is_lim_comp (fun y => (1 + y ^ 2) ^ n * exp (- y ^ 2)) (fun x => sqrt b * x) p_infty 0 p_infty); [apply pow_exp_0| |exists 0; discriminate].
    pose proof (sqrt_lt_R0 b Hb) as Hs. replace p_infty with (Rbar_mult (sqrt b) p_infty) at 2; [apply is_lim_scal_l, is_lim_id|].
    cbn. destruct (Rle_dec 0 (sqrt b)) as [G|G]; [|exfalso; apply G; lra]. destruct (Rle_lt_or_eq_dec 0 (sqrt b) G); [reflexivity|lra]. }
  apply (is_lim_le_le_loc (fun _ => 0) (fun x => / b ^ n * ((1 + (sqrt b * x) ^ 2) ^ n * exp (- (sqrt b * x) ^ 2)))).
  - exists 0. intros x Hx. assert (Eb : (sqrt b * x) ^ 2 = b * x ^ 2) by (rewrite Rpow_mult_distr, pow2_sqrt by lra; reflexivity). rewrite Eb.
    pose proof (exp_pos (- (b * x ^ 2))) as Pe. assert (Px : 0 <= x ^ (2 * n)) by (apply pow_le; lra). split; [apply Rmult_le_pos; lra|].
    rewrite <- Rmult_assoc. apply Rmult_le_compat_r; [lra|]. assert (Pb : 0 < b ^ n) by (apply pow_lt, Hb).
    apply (Rmult_le_reg_l (b ^ n)); [exact Pb|]. rewrite <- Rmult_assoc, Rinv_r, Rmult_1_l by lra. rewrite pow_mult, <- Rpow_mult_distr.
    apply pow_incr. pose proof (pow2_ge_0 x). assert (0 <= b * x ^ 2) by (apply Rmult_le_pos; lra). lra.
  - apply is_lim_const.
  - replace (Finite 0) with (Rbar_mult (/ b ^ n) 0) by (cbn; f_equal; ring). apply is_lim_scal_l, H.
Qed.
Lemma Jm_lim b n : 0 < b -> to_inf (Jm b n) (INR (fact n) / (2 * b ^ S n)).
Proof.
  intros Hb. unfold to_inf. induction n as [|n IH]; cbn [Jm].
  - apply (is_lim_ext (fun x => / (2 * b) + - (/ (2 * b)) * (x ^ (2 * 0) * exp (- (b * x ^ 2))))); [intros x; simpl (x ^ (2 * 0)); field; lra|].
    replace (INR (fact 0) / (2 * b ^ 1)) with (/ (2 * b) + - (/ (2 * b)) * 0) by (simpl; field; lra).
    apply (is_lim_plus' (fun _ => / (2 * b))); [apply is_lim_const|]. apply (is_lim_scal_l (fun x => x ^ (2 * 0) * exp (- (b * x ^ 2))) _ p_infty 0), Jbnd, Hb.
  - apply (is_lim_ext (fun x => INR (2 * n + 2) / (2 * b) * Jm b n x + - (/ (2 * b)) * (x ^ (2 * S n) * exp (- (b * x ^ 2))))).
    { intros x. replace (2 * S n)%nat with (2 * n + 2)%nat by lia. field. lra. }
    replace (INR (fact (S n)) / (2 * b ^ S (S n))) with (INR (2 * n + 2) / (2 * b) * (INR (fact n) / (2 * b ^ S n)) + - (/ (2 * b)) * 0).
    2:{ rewrite fact_simpl, mult_INR, S_INR, plus_INR, mult_INR. simpl (INR 2). rewrite <- (tech_pow_Rmult b (S n)). assert (b ^ S n <> 0) by (apply pow_nonzero; lra). field. split; lra. }
    apply (is_lim_plus' (fun x => INR (2 * n + 2) / (2 * b) * Jm b n x)); [apply (is_lim_scal_l (Jm b n) _ p_infty (Finite (INR (fact n) / (2 * b ^ S n)))), IH|].
    apply (is_lim_scal_l (fun x => x ^ (2 * S n) * exp (- (b * x ^ 2))) _ p_infty 0), Jbnd, Hb.
Qed.
Lemma lim_rsum n (f : nat -> R -> R) (l : nat -> R) : (forall i, (i < n)%nat -> to_inf (f i) (l i)) -> to_inf (fun x => rsum n (fun i => f i x)) (rsum n l).
Proof.
  intros H. induction n as [|n IH]; cbn [rsum]; [apply is_lim_const|].
  apply (is_lim_plus' (fun x => rsum n (fun i => f i x))); [apply IH; intros; apply H; lia|apply H; lia].
Qed.
(** ** Two modes at a point in polar coordinates *)
Definition lgq (w0 z : R) (p p' k k' : nat) (r : R) : R :=
  let b := 2 / (w0 ^ 2 * (1 + z ^ 2)) in
  r ^ k * r ^ k' * (genlaguerre p k (b * r ^ 2) * genlaguerre p' k' (b * r ^ 2)) * exp (- (b * r ^ 2)) / (1 + z ^ 2).
Definition lgphase (p p' : nat) (m m' : Z) (z : R) : R := IZR (2 * Z.of_nat p' + m' - (2 * Z.of_nat p + m)) * angle ((1, - z) : C).
Lemma cis_conj_neg a : Cconj (cis a) = cis (- a).
Proof. unfold Cconj, cis. cbn [fst snd]. rewrite cos_neg, sin_neg. reflexivity. Qed.
Lemma lg_product w0 p p' m m' z r th : 0 < w0 ->
  Cmult (lg_trans_at w0 p m z (r * cos th) (r * sin th)) (Cconj (lg_trans_at w0 p' m' z (r * cos th) (r * sin th))) =
  Cmult (RtoC (lgq w0 z p p' (Z.abs_nat m) (Z.abs_nat m') r)) (cis (IZR (m' - m) * th + lgphase p p' m m' z)).
Proof.
  intros Hw0. rewrite !c44_at, !lg_axis. unfold lg_radial, lgq, lgphase. cbn zeta. set (d := (1, - z) : C). set (psi := angle d).
  set (b := 2 / (w0 ^ 2 * (1 + z ^ 2))). assert (Hq : 0 < 1 + z ^ 2) by (pose proof (pow2_ge_0 z); lra).
  assert (Md : Cmod d ^ 2 = 1 + z ^ 2) by (replace (Cmod d ^ 2) with (Cnorm2 d) by (rewrite Cnorm2_Cmod; ring); unfold d, Cnorm2; cbn [fst snd]; ring).
  assert (Wp : (w0 * Cmod d) ^ 2 = w0 ^ 2 * (1 + z ^ 2)) by (rewrite Rpow_mult_distr, Md; reflexivity).
  assert (Eb : 2 * r ^ 2 / (w0 * Cmod d) ^ 2 = b * r ^ 2) by (rewrite Wp; unfold b; field; split; lra).
  assert (Hd : Cmult (Cdiv (RtoC 1) d) (Cconj (Cdiv (RtoC 1) d)) = RtoC (/ (1 + z ^ 2))).
  { rewrite <- Cnorm2_conj, Cnorm2_Cmod. rewrite Cmod_div by (intros E; apply (f_equal fst) in E; exact (R1_neq_R0 E)). rewrite Cmod_1. rewrite <- Md. f_equal. field. intros E; rewrite E in Md; lra. }
  assert (He : forall n, Cminus (Cdiv (RtoC (- r ^ 2)) (Cmult (RtoC (w0 ^ 2)) d)) (Cmult (Cmult Ci (RtoC n)) (RtoC psi)) =
     (- (b * r ^ 2) / 2, - (b * r ^ 2) / 2 * z - n * psi)).
  { intros n. unfold b, d, Cminus, Cplus, Copp, Cdiv, Cmult, Cinv, RtoC, Ci. cbn [fst snd]. f_equal; (field; repeat split; try lra).
    all: replace ((w0 ^ 2) ^ 2 + (w0 ^ 2 * - z) ^ 2) with ((w0 ^ 2) ^ 2 * (1 + z ^ 2)) by ring; apply Rmult_integral_contrapositive_currified; [apply pow_nonzero, pow_nonzero|]; lra. }
  rewrite Eb, !He. set (G := genlaguerre p _ _). set (G' := genlaguerre p' _ _). set (ea := cexp _). set (eb := cexp _).
  set (ra := r ^ Z.abs_nat m). set (rb := r ^ Z.abs_nat m').
  replace (Cmult (Cmult (cis (- (IZR m * th))) (Cmult (RtoC ra) (Cmult (Cmult (RtoC G) ea) (Cdiv (RtoC 1) d)))) (Cconj (Cmult (cis (- (IZR m' * th))) (Cmult (RtoC rb) (Cmult (Cmult (RtoC G') eb) (Cdiv (RtoC 1) d))))))
    with (Cmult (RtoC (ra * rb * (G * G'))) (Cmult (Cmult (cis (- (IZR m * th))) (Cconj (cis (- (IZR m' * th))))) (Cmult (Cmult ea (Cconj eb)) (Cmult (Cdiv (RtoC 1) d) (Cconj (Cdiv (RtoC 1) d)))))).
  2:{ rewrite !Cconj_mult. assert (CR : forall x, Cconj (RtoC x) = RtoC x) by (intros x; unfold Cconj, RtoC; cbn; f_equal; ring). rewrite !CR, !RtoC_mult. ring. }
  rewrite Hd. unfold ea, eb. rewrite cexp_conj_mul. rewrite cis_conj_neg, <- cis_plus.
  replace (2 * (- (b * r ^ 2) / 2)) with (- (b * r ^ 2)) by field.
  rewrite !minus_IZR. set (N := IZR (2 * Z.of_nat p + m)). set (N' := IZR (2 * Z.of_nat p' + m')).
  replace (- (b * r ^ 2) / 2 * z - N * psi - (- (b * r ^ 2) / 2 * z - N' * psi)) with ((N' - N) * psi) by ring.
  replace (- (IZR m * th) + - - (IZR m' * th)) with ((IZR m' - IZR m) * th) by ring.
  rewrite cis_plus. unfold Rdiv. rewrite !RtoC_mult. ring.
Qed.
(** Radial integral *)
Lemma lgq_int w0 z p p' k L : 0 < w0 ->
  is_RInt (fun r => lgq w0 z p p' k k r * r) 0 L
    (rsum (S p) (fun i => rsum (S p') (fun j => lc p k i * lc p' k j * (2 / (w0 ^ 2 * (1 + z ^ 2))) ^ (i + j) / (1 + z ^ 2) * Jm (2 / (w0 ^ 2 * (1 + z ^ 2))) (k + i + j) L))).
Proof.
  intros Hw0. set (b := 2 / (w0 ^ 2 * (1 + z ^ 2))). assert (Hq : 0 < 1 + z ^ 2) by (pose proof (pow2_ge_0 z); lra).
  assert (Hb : 0 < b) by (apply Rdiv_lt_0_compat; [lra|]; apply Rmult_lt_0_compat; [apply pow_lt, Hw0|exact Hq]).
  apply (is_RInt_same (fun r => rsum (S p) (fun i => rsum (S p') (fun j => lc p k i * lc p' k j * b ^ (i + j) / (1 + z ^ 2) * (r ^ (2 * (k + i + j) + 1) * exp (- (b * r ^ 2))))))).
  - intros r _. unfold lgq. fold b.
    assert (EL : forall p, genlaguerre p k (b * r ^ 2) = rsum (S p) (fun i => lc p k i * (b * r ^ 2) ^ i)) by (intros q; unfold genlaguerre; apply rsum_ext; intros i _; unfold lc; unfold Rdiv; ring).
    rewrite !EL. set (e := exp (- (b * r ^ 2))).
    replace (r ^ k * r ^ k * (rsum (S p) (fun i => lc p k i * (b * r ^ 2) ^ i) * rsum (S p') (fun i => lc p' k i * (b * r ^ 2) ^ i)) * e / (1 + z ^ 2) * r)
      with (rsum (S p) (fun i => lc p k i * (b * r ^ 2) ^ i) * (rsum (S p') (fun i => lc p' k i * (b * r ^ 2) ^ i) * (r ^ k * r ^ k * r * e / (1 + z ^ 2)))) by (unfold Rdiv; ring).
    rewrite <- rsum_scal_r. apply rsum_ext. intros i _. rewrite <- rsum_scal_r, <- rsum_scal_l. apply rsum_ext. intros j _.
    replace (2 * (k + i + j) + 1)%nat with (k + k + 2 * i + 2 * j + 1)%nat by lia. rewrite !pow_add, !pow_mult, !Rpow_mult_distr, pow_1. unfold Rdiv. ring.
  - apply is_RInt_rsum. intros i _. apply is_RInt_rsum. intros j _. apply is_RInt_scal_l, Jm_int, Hb.
Qed.
Lemma lgq_lim w0 z p p' k : 0 < w0 ->
  to_inf (fun L => rsum (S p) (fun i => rsum (S p') (fun j => lc p k i * lc p' k j * (2 / (w0 ^ 2 * (1 + z ^ 2))) ^ (i + j) / (1 + z ^ 2) * Jm (2 / (w0 ^ 2 * (1 + z ^ 2))) (k + i + j) L)))
    ((w0 ^ 2 / 2) ^ S k * (1 + z ^ 2) ^ k / 2 * (if Nat.eqb p p' then INR (fact (p + k)) / INR (fact p) else 0)).
Proof.
  intros Hw0. set (b := 2 / (w0 ^ 2 * (1 + z ^ 2))). assert (Hq : 0 < 1 + z ^ 2) by (pose proof (pow2_ge_0 z); lra).
  assert (Hw2 : 0 < w0 ^ 2) by (apply pow_lt, Hw0).
  assert (Hb : 0 < b) by (apply Rdiv_lt_0_compat; [lra|]; apply Rmult_lt_0_compat; assumption).
  rewrite <- lag2_value. unfold lag2. rewrite <- rsum_scal_l.
  apply lim_rsum. intros i _. rewrite <- rsum_scal_l. apply lim_rsum. intros j _.
  replace ((w0 ^ 2 / 2) ^ S k * (1 + z ^ 2) ^ k / 2 * (lc p k i * lc p' k j * INR (fact (k + i + j)))) with (lc p k i * lc p' k j * b ^ (i + j) / (1 + z ^ 2) * (INR (fact (k + i + j)) / (2 * b ^ S (k + i + j)))).
  - apply (is_lim_scal_l (Jm b (k + i + j)) _ p_infty (Finite (INR (fact (k + i + j)) / (2 * b ^ S (k + i + j))))), Jm_lim, Hb.
  - replace (S (k + i + j)) with (S k + (i + j))%nat by lia. rewrite (pow_add b (S k) (i + j)).
    assert (E : (w0 ^ 2 / 2) ^ S k * (1 + z ^ 2) ^ k * (1 + z ^ 2) * b ^ S k = 1).
    { replace ((w0 ^ 2 / 2) ^ S k * (1 + z ^ 2) ^ k * (1 + z ^ 2)) with ((w0 ^ 2 / 2) ^ S k * (1 + z ^ 2) ^ S k) by (cbn [pow]; ring).
      rewrite <- !Rpow_mult_distr. replace (w0 ^ 2 / 2 * (1 + z ^ 2) * b) with 1; [apply pow1|]. unfold b. field. split; [apply Rgt_not_eq, Rlt_gt, Hw0 || lra|lra]. }
    assert (B1 : b ^ S k <> 0) by (apply pow_nonzero; lra). assert (B2 : b ^ (i + j) <> 0) by (apply pow_nonzero; lra).
    set (u := (w0 ^ 2 / 2) ^ S k) in *. set (v := (1 + z ^ 2) ^ k) in *. set (q := 1 + z ^ 2) in *. set (bk := b ^ S k) in *. set (bij := b ^ (i + j)) in *.
    assert (Eu : u * v = / (q * bk)) by (apply (Rmult_eq_reg_r (q * bk)); [rewrite Rinv_l by (apply Rmult_integral_contrapositive_currified; lra); lra|apply Rmult_integral_contrapositive_currified; lra]).
    replace (u * v / 2) with (/ (q * bk) / 2) by (rewrite <- Eu; reflexivity). field. repeat split; lra.
Qed.
Lemma is_RInt_angle (n : Z) (q a : R) : is_RInt (fun th => q * cos (IZR n * th + a)) 0 (2 * PI) (if Z.eqb n 0 then 2 * PI * q * cos a else 0) /\
  is_RInt (fun th => q * sin (IZR n * th + a)) 0 (2 * PI) (if Z.eqb n 0 then 2 * PI * q * sin a else 0).
Proof.
  pose proof (is_RInt_cosZ n) as C. pose proof (is_RInt_sinZ n) as S. split.
  - apply (is_RInt_same (fun th => q * cos a * cos (IZR n * th) + - (q * sin a) * sin (IZR n * th))); [intros th _; rewrite cos_plus; ring|].
    eapply is_RInt_val; [apply (is_RInt_plus (V := R_NormedModule)); apply is_RInt_scal_l; [exact C|exact S]|]. change plus with Rplus. destruct (Z.eqb n 0); ring.
  - apply (is_RInt_same (fun th => q * sin a * cos (IZR n * th) + q * cos a * sin (IZR n * th))); [intros th _; rewrite sin_plus; ring|].
    eapply is_RInt_val; [apply (is_RInt_plus (V := R_NormedModule)); apply is_RInt_scal_l; [exact C|exact S]|]. change plus with Rplus. destruct (Z.eqb n 0); ring.
Qed.
Lemma lg_overlap w0 p p' m m' z : 0 < w0 ->
  polar_overlap (lg_trans_at w0 p m z) (lg_trans_at w0 p' m' z)
    (if andb (Nat.eqb p p') (Z.eqb m m') then RtoC (PI * (w0 ^ 2 / 2) ^ S (Z.abs_nat m) * (1 + z ^ 2) ^ Z.abs_nat m * (INR (fact (p + Z.abs_nat m)) / INR (fact p))) else RtoC 0).
Proof.
  intros Hw0. unfold polar_overlap, polar_int. set (k := Z.abs_nat m). set (al := lgphase p p' m m' z).
  set (q := lgq w0 z p p' k (Z.abs_nat m')).
  assert (PR : forall r th, Re (Cmult (lg_trans_at w0 p m z (r * cos th) (r * sin th)) (Cconj (lg_trans_at w0 p' m' z (r * cos th) (r * sin th)))) = q r * cos (IZR (m' - m) * th + al)).
  { intros r th. rewrite lg_product by exact Hw0. fold k q al. unfold cis, Cmult, RtoC, Re. cbn [fst snd]. ring. }
  assert (PI' : forall r th, Im (Cmult (lg_trans_at w0 p m z (r * cos th) (r * sin th)) (Cconj (lg_trans_at w0 p' m' z (r * cos th) (r * sin th)))) = q r * sin (IZR (m' - m) * th + al)).
  { intros r th. rewrite lg_product by exact Hw0. fold k q al. unfold cis, Cmult, RtoC, Im. cbn [fst snd]. ring. }
  assert (AR : forall r, is_RInt (fun th => Re (Cmult (lg_trans_at w0 p m z (r * cos th) (r * sin th)) (Cconj (lg_trans_at w0 p' m' z (r * cos th) (r * sin th))))) 0 (2 * PI) (if Z.eqb (m' - m) 0 then 2 * PI * q r * cos al else 0)).
  { intros r. apply (is_RInt_same (fun th => q r * cos (IZR (m' - m) * th + al))); [intros th _; symmetry; apply PR|]. exact (proj1 (is_RInt_angle (m' - m) (q r) al)). }
  assert (AI : forall r, is_RInt (fun th => Im (Cmult (lg_trans_at w0 p m z (r * cos th) (r * sin th)) (Cconj (lg_trans_at w0 p' m' z (r * cos th) (r * sin th))))) 0 (2 * PI) (if Z.eqb (m' - m) 0 then 2 * PI * q r * sin al else 0)).
  { intros r. apply (is_RInt_same (fun th => q r * sin (IZR (m' - m) * th + al))); [intros th _; symmetry; apply PI'|]. exact (proj2 (is_RInt_angle (m' - m) (q r) al)). }
  destruct (Z.eqb_spec m m') as [E|N].
  - subst m'. rewrite Z.sub_diag in AR, AI. cbn [Z.eqb] in AR, AI. rewrite andb_true_r.
    set (J := fun L => rsum (S p) (fun i => rsum (S p') (fun j => lc p k i * lc p' k j * (2 / (w0 ^ 2 * (1 + z ^ 2))) ^ (i + j) / (1 + z ^ 2) * Jm (2 / (w0 ^ 2 * (1 + z ^ 2))) (k + i + j) L))).
    exists (fun L => (2 * PI * cos al * J L, 2 * PI * sin al * J L)). split; [|split].
    + intros L _. exists (fun r => 2 * PI * q r * cos al), (fun r => 2 * PI * q r * sin al). split; [intros r _; apply AR|]. split; [intros r _; apply AI|].
      unfold Re, Im; cbn [fst snd]. split.
      * apply (is_RInt_same (fun r => 2 * PI * cos al * (q r * r))); [intros; ring|]. apply is_RInt_scal_l. exact (lgq_int w0 z p p' k L Hw0).
      * apply (is_RInt_same (fun r => 2 * PI * sin al * (q r * r))); [intros; ring|]. apply is_RInt_scal_l. exact (lgq_int w0 z p p' k L Hw0).
    + unfold Re at 1; cbn [fst]. pose proof (lgq_lim w0 z p p' k Hw0) as H. fold J in H.
      pose proof (is_lim_scal_l J (2 * PI * cos al) p_infty _ H) as H'. eapply is_lim_ext in H'; [|intros; reflexivity].
      match goal with |- is_lim _ _ (Finite ?v) => replace v with (2 * PI * cos al * ((w0 ^ 2 / 2) ^ S k * (1 + z ^ 2) ^ k / 2 * (if Nat.eqb p p' then INR (fact (p + k)) / INR (fact p) else 0))); [exact H'|] end.
      destruct (Nat.eqb_spec p p') as [<-|Np]; [|unfold Re, RtoC; cbn [fst]; ring].
      assert (A0 : al = 0) by (unfold al, lgphase; rewrite Z.sub_diag; ring). rewrite A0, cos_0. unfold Re, RtoC; cbn [fst]. unfold Rdiv. field. split; [apply fact_neq0|lra] || apply fact_neq0.
    + unfold Im at 1; cbn [snd]. pose proof (lgq_lim w0 z p p' k Hw0) as H. fold J in H.
      pose proof (is_lim_scal_l J (2 * PI * sin al) p_infty _ H) as H'. eapply is_lim_ext in H'; [|intros; reflexivity].
      match goal with |- is_lim _ _ (Finite ?v) => replace v with (2 * PI * sin al * ((w0 ^ 2 / 2) ^ S k * (1 + z ^ 2) ^ k / 2 * (if Nat.eqb p p' then INR (fact (p + k)) / INR (fact p) else 0))); [exact H'|] end.
      destruct (Nat.eqb_spec p p') as [<-|Np]; [|unfold Im, RtoC; cbn [snd]; ring].
      assert (A0 : al = 0) by (unfold al, lgphase; rewrite Z.sub_diag; ring). rewrite A0, sin_0. unfold Im, RtoC; cbn [snd]. ring.
  - assert (N' : Z.eqb (m' - m) 0 = false) by (apply Z.eqb_neq; lia). rewrite N' in AR, AI. rewrite andb_false_r.
    exists (fun _ => RtoC 0). split; [|split; apply is_lim_const].
    intros L _. exists (fun _ => 0), (fun _ => 0). split; [intros r _; apply AR|]. split; [intros r _; apply AI|].
    assert (Z0 : is_RInt (fun r => 0 * r) 0 L 0).
    { apply (is_RInt_same (fun _ => 0)); [intros; ring|]. apply (is_RInt_val _ _ _ _ _ (is_RInt_const (V := R_NormedModule) 0 L 0)). change (scal (L - 0) 0) with ((L - 0) * 0). ring. }
    split; exact Z0.
Qed.
Lemma polar_overlap_ext f f' g g' v : (forall x y, f x y = f' x y) -> (forall x y, g x y = g' x y) -> polar_overlap f g v -> polar_overlap f' g' v.
Proof.
  intros Hf Hg (I & D & L1 & L2). exists I. split; [|split; assumption]. intros L HL. destruct (D L HL) as (gr & gi & A & B & C & E). exists gr, gi.
  split; [|split; [|split; assumption]].
  - intros r Hr. apply (is_RInt_same _ _ _ _ _ (fun th _ => f_equal Re (f_equal2 (fun a b => Cmult a (Cconj b)) (Hf (r * cos th) (r * sin th)) (Hg (r * cos th) (r * sin th)))) (A r Hr)).
  - intros r Hr. apply (is_RInt_same _ _ _ _ _ (fun th _ => f_equal Im (f_equal2 (fun a b => Cmult a (Cconj b)) (Hf (r * cos th) (r * sin th)) (Hg (r * cos th) (r * sin th)))) (B r Hr)).
Qed.
Lemma lg_00 w0 z x y : lg_trans_at w0 0 0 z x y = gaussian_trans_at w0 z x y.
Proof.
  rewrite lg_split. unfold lg_radial, gaussian_trans_at. cbn zeta. cbn [Z.abs_nat cpow Z.of_nat Z.mul Z.add]. unfold genlaguerre. cbn [rsum Nat.add Nat.sub fact pow INR].
  replace (0 + 1 * (1 / (1 * 1)) * 1 / 1) with 1 by field.
  replace (Cmult (Cmult Ci (RtoC 0)) (RtoC (angle ((1, - z) : C)))) with (RtoC 0) by ring. unfold Cminus. rewrite <- RtoC_opp, Ropp_0, Cplus_0_r. unfold Cdiv. ring.
Qed.
Lemma c79_orthogonal w0 wl zf p p' m m' f g : 0 < w0 -> lg_transverse w0 p m wl zf = Ok f -> lg_transverse w0 p' m' wl zf = Ok g -> p <> p' \/ m <> m' -> polar_overlap f g (RtoC 0).
Proof.
  intros Hw Hf Hg N. destruct (lg_transverse_inv _ _ _ _ _ _ Hf) as (z & Hz & ->). destruct (lg_transverse_inv _ _ _ _ _ _ Hg) as (z' & Hz' & ->).
  assert (z' = z) by congruence. subst z'. pose proof (lg_overlap w0 p p' m m' z Hw) as H.
  destruct N as [N|N]; [apply Nat.eqb_neq in N; rewrite N in H|apply Z.eqb_neq in N; rewrite N, andb_false_r in H]; exact H.
Qed.
Lemma c80_power w0 l zf p m f : 0 < w0 -> lg_transverse w0 p m (Some l) zf = Ok f ->
  power f (PI * (w0 ^ 2 / 2) ^ S (Z.abs_nat m) * (1 + (zf * l / (PI * w0 ^ 2)) ^ 2) ^ Z.abs_nat m * (INR (fact (p + Z.abs_nat m)) / INR (fact p))).
Proof.
  intros Hw Hf. destruct (lg_transverse_inv _ _ _ _ _ _ Hf) as (z & Hz & ->). unfold power.
  assert (Ez : z = zf * l / (PI * w0 ^ 2)).
  { unfold z_foc_over_zr in Hz. destruct (Reqb zf 0) eqn:E; [|congruence]. apply Reqb_true in E. injection Hz as <-. rewrite E. unfold Rdiv. ring. }
  rewrite <- Ez. pose proof (lg_overlap w0 p p m m z Hw) as H. rewrite Nat.eqb_refl, Z.eqb_refl in H. exact H.
Qed.
Lemma c80_gaussian w0 wl zf f : 0 < w0 -> gaussian_transverse w0 wl zf = Ok f -> power f (PI * w0 ^ 2 / 2).
Proof.
  intros Hw. unfold gaussian_transverse. destruct (z_foc_over_zr w0 wl zf) as [z|]; cbn [bind]; [|discriminate]. intros [= <-]. unfold power.
  pose proof (lg_overlap w0 0 0 0 0 z Hw) as H. cbn [Nat.eqb Z.eqb andb Z.abs_nat Nat.add fact] in H. 
  apply (polar_overlap_ext _ _ _ _ _ (lg_00 w0 z) (lg_00 w0 z)). replace (PI * w0 ^ 2 / 2) with (PI * (w0 ^ 2 / 2) ^ 1 * (1 + z ^ 2) ^ 0 * (INR 1 / INR 1)) by (rewrite pow_1; simpl (_ ^ 0); simpl (INR 1); field). exact H.
Qed.
(** Powers are unique. *)
Lemma power_unique f u v : power f u -> power f v -> u = v.
Proof.
  intros (I & D & L & _) (I' & D' & L' & _).
  assert (E : forall x, 0 <= x -> Re (I x) = Re (I' x)).
  { intros x Hx. destruct (D x Hx) as (gr & gi & A & _ & B & _). destruct (D' x Hx) as (gr' & gi' & A' & _ & B' & _).
    rewrite <- (@is_RInt_unique R_CompleteNormedModule _ _ _ _ B), <- (@is_RInt_unique R_CompleteNormedModule _ _ _ _ B'). apply RInt_ext. intros r [Hr _]. rewrite Rmin_left in Hr by exact Hx.
    f_equal. pose proof (@is_RInt_unique R_CompleteNormedModule _ _ _ _ (A r ltac:(lra))) as U. pose proof (@is_RInt_unique R_CompleteNormedModule _ _ _ _ (A' r ltac:(lra))) as U'. exact (eq_trans (eq_sym U) U'). }
  assert (L2 : is_lim (fun x => Re (I x)) p_infty (Re (RtoC v))).
  { apply (is_lim_ext_loc (fun x => Re (I' x))); [|exact L']. exists 0. intros x Hx. symmetry. apply E. lra. }
  apply is_lim_unique in L. apply is_lim_unique in L2. rewrite L in L2. injection L2 as ->. reflexivity.
Qed.
