(** Orthonormality of the Zernike modes (C61). *)
From Verif Require Import PyBase CSum NumPy NpMath NpMathProofs AnalysisModel ZernikeModel ZernikeSpec ZernikeProofs.
From Coquelicot Require Import Coquelicot.
Open Scope R_scope.

(** ** Finite differences *)
(** f is a polynomial of degree < d *)
Fixpoint Pdeg (d : nat) (f : nat -> R) : Prop :=
  match d with O => forall k, f k = 0 | S d => Pdeg d (fun k => f k - f (S k)) end.
Lemma Pdeg_ext d : forall f g, (forall k, f k = g k) -> Pdeg d f -> Pdeg d g.
Proof.
  induction d as [|d IH]; cbn; intros f g E H; [intros k; rewrite <- E; apply H|]. apply (IH (fun k => f k - f (S k))); [intros k; rewrite !E; reflexivity|exact H].
Qed.
Lemma Pdeg_plus d : forall f g, Pdeg d f -> Pdeg d g -> Pdeg d (fun k => f k + g k).
Proof.
  induction d as [|d IH]; cbn; intros f g Hf Hg; [intros k; rewrite Hf, Hg; ring|].
  apply (Pdeg_ext d (fun k => (f k - f (S k)) + (g k - g (S k)))); [intros; ring|]. apply IH; assumption.
Qed.
Lemma Pdeg_scal d c : forall f, Pdeg d f -> Pdeg d (fun k => c * f k).
Proof.
  induction d as [|d IH]; cbn; intros f Hf; [intros k; rewrite Hf; ring|]. apply (Pdeg_ext d (fun k => c * (f k - f (S k)))); [intros; ring|]. apply IH; assumption.
Qed.
Lemma Pdeg_shift d : forall f, Pdeg d f -> Pdeg d (fun k => f (S k)).
Proof. induction d as [|d IH]; cbn; intros f H; [intros k; apply H|]. apply (IH (fun k => f k - f (S k))). exact H. Qed.
Lemma Pdeg_lin al be d : forall f, Pdeg d f -> Pdeg (S d) (fun k => (al + be * INR k) * f k).
Proof.
  induction d as [|d IH]; intros f H.
  - cbn in *. intros k. rewrite !H. ring.
  - change (Pdeg (S d) (fun k => (al + be * INR k) * f k - (al + be * INR (S k)) * f (S k))).
    apply (Pdeg_ext (S d) (fun k => (al + be * INR k) * (f k - f (S k)) + (- be) * f (S k))); [intros k; rewrite S_INR; ring|].
    apply Pdeg_plus; [apply IH; exact H|]. apply Pdeg_scal, Pdeg_shift. exact H.
Qed.
Lemma Pdeg_const c : Pdeg 1 (fun _ => c). Proof. cbn. intros; ring. Qed.
Lemma Pdeg_zero n : Pdeg n (fun _ => 0).
Proof. induction n as [|n IH]; [cbn; reflexivity|]. cbn. apply (Pdeg_ext n (fun _ => 0)); [intros; ring|exact IH]. Qed.
Lemma Pdeg_c n c : Pdeg (S n) (fun _ => c).
Proof. cbn. apply (Pdeg_ext n (fun _ => 0)); [intros; ring|apply Pdeg_zero]. Qed.
Lemma alt_Pdeg a : forall f, Pdeg a f -> alt a f = 0.
Proof.
  induction a as [|a IH]; intros f H.
  - unfold alt. cbn [rsum]. rewrite H. ring.
  - rewrite alt_S. apply IH. exact H.
Qed.
Lemma alt_plus a f g : alt a (fun k => f k + g k) = alt a f + alt a g.
Proof. unfold alt. rewrite <- rsum_plus. apply rsum_ext. intros. ring. Qed.
Lemma alt_scal a c f : alt a (fun k => c * f k) = c * alt a f.
Proof. unfold alt. rewrite <- rsum_scal_l. apply rsum_ext. intros. ring. Qed.
(** prod (c s - k) over s < n *)
Fixpoint lprod (n : nat) (c : nat -> R) (k : R) : R := match n with O => 1 | S n => lprod n c k * (c n - k) end.
(** the same without the factor s = i *)
Fixpoint lprod_wo (i n : nat) (c : nat -> R) (k : R) : R := match n with O => 1 | S n => lprod_wo i n c k * (if (n =? i)%nat then 1 else c n - k) end.
Lemma lprod_Pdeg n c : Pdeg (S n) (fun k => lprod n c (INR k)).
Proof.
  induction n as [|n IH]; [exact (Pdeg_const 1)|]. cbn [lprod]. apply (Pdeg_ext _ (fun k => (c n + -1 * INR k) * lprod n c (INR k))); [intros; ring|]. apply Pdeg_lin, IH.
Qed.
Lemma lprod_wo_ge i n c k : (n <= i)%nat -> lprod_wo i n c k = lprod n c k.
Proof. induction n as [|n IH]; intros H; [reflexivity|]. cbn. rewrite IH by lia. destruct (Nat.eqb_spec n i); [lia|reflexivity]. Qed.
Lemma lprod_wo_Pdeg i n c : (i < n)%nat -> Pdeg n (fun k => lprod_wo i n c (INR k)).
Proof.
  induction n as [|n IH]; intros H; [lia|]. cbn [lprod_wo]. destruct (Nat.eqb_spec n i) as [->|E].
  - apply (Pdeg_ext _ (fun k => lprod i c (INR k))); [intros; rewrite lprod_wo_ge by lia; ring|]. apply lprod_Pdeg.
  - apply (Pdeg_ext _ (fun k => (c n + -1 * INR k) * lprod_wo i n c (INR k))); [intros; ring|]. apply Pdeg_lin, IH. lia.
Qed.
Lemma lprod_factor i n c k : (i < n)%nat -> lprod n c k = lprod_wo i n c k * (c i - k).
Proof.
  induction n as [|n IH]; intros H; [lia|]. cbn. destruct (Nat.eqb_spec n i) as [->|E]; [rewrite lprod_wo_ge by lia; ring|]. rewrite IH by lia. ring.
Qed.
(** Division by (y - k) with remainder *)
Lemma lprod_div n c y : exists Q, Pdeg n Q /\ forall k, lprod n c (INR k) = Q k * (y - INR k) + lprod n c y.
Proof.
  induction n as [|n (Q & HQ & E)]; [exists (fun _ => 0); split; [cbn; reflexivity|intros; cbn; ring]|].
  exists (fun k => (c n + -1 * INR k) * Q k + lprod n c y). split.
  - apply Pdeg_plus; [apply Pdeg_lin, HQ|]. apply (Pdeg_c n (lprod n c y)).
  - intros k. cbn [lprod]. rewrite E. ring.
Qed.
(** Differences of 1/(y - k) *)
Lemma lprod_pos n c k : (forall s, (s < n)%nat -> 0 < c s - k) -> 0 < lprod n c k.
Proof. induction n as [|n IH]; intros H; cbn; [lra|]. apply Rmult_lt_0_compat; [apply IH; intros; apply H; lia|apply H; lia]. Qed.
Lemma lprod_shift n y k : lprod (S n) (fun s => y - INR s) k = (y - k) * lprod n (fun s => y - INR s) (k + 1).
Proof.
  induction n as [|n IH]; [cbn; ring|]. change (lprod (S (S n)) (fun s => y - INR s) k) with (lprod (S n) (fun s => y - INR s) k * (y - INR (S n) - k)).
  rewrite IH. cbn [lprod]. rewrite S_INR. ring.
Qed.
Lemma alt_inv a : forall s y, INR (a + s) < y ->
  alt a (fun k => / lprod (S s) (fun t => y - INR t) (INR k)) = (-1) ^ a * INR (fact (s + a)) / INR (fact s) * / lprod (S (s + a)) (fun t => y - INR t) 0.
Proof.
  induction a as [|a IH]; intros s y Hy.
  - unfold alt. cbn [rsum]. rewrite bin_0, Nat.add_0_r. simpl INR. simpl pow. pose proof (fact_pos s).
    change (INR 0) with 0. rewrite Rplus_0_l. field. split; [|lra]. apply Rgt_not_eq. apply (lprod_pos (S s)). intros t Ht. pose proof (le_INR t s ltac:(lia)). cbn [Nat.add] in Hy. lra.
  - rewrite alt_S. rewrite (alt_ext a _ (fun k => - INR (S s) * / lprod (S (S s)) (fun t => y - INR t) (INR k))).
    + rewrite alt_scal. rewrite IH by (replace (a + S s)%nat with (S a + s)%nat by lia; exact Hy).
      replace (S s + a)%nat with (s + S a)%nat by lia. change (fact (S s)) with (S s * fact s)%nat. rewrite mult_INR. pose proof (fact_pos s).
      assert (INR (S s) <> 0) by (apply not_0_INR; lia). simpl (pow _ (S a)).
      assert (lprod (S (s + S a)) (fun t => y - INR t) 0 <> 0).
      { apply Rgt_not_eq. apply lprod_pos. intros t Ht. pose proof (le_INR t (S a + s) ltac:(lia)). lra. }
      field. repeat split; lra || assumption.
    + intros k Hk. 
      assert (P1 : 0 < lprod s (fun t => y - INR t) (INR k + 1)).
      { apply lprod_pos. intros t Ht. pose proof (le_INR (t + k + 1) (S a + s) ltac:(lia)) as Q. rewrite !plus_INR in Q. rewrite plus_INR in Hy. change (INR 1) with 1 in Q. lra. }
      rewrite !lprod_shift. rewrite S_INR. change (lprod (S s) (fun t => y - INR t) (INR k + 1)) with (lprod s (fun t => y - INR t) (INR k + 1) * (y - INR s - (INR k + 1))).
      rewrite <- (lprod_shift s y (INR k + 1)). change (lprod (S s) (fun t => y - INR t) (INR k + 1)) with (lprod s (fun t => y - INR t) (INR k + 1) * (y - INR s - (INR k + 1))).
      assert (0 < y - INR k) by (pose proof (le_INR k (S a + s) ltac:(lia)); lra).
      assert (0 < y - INR s - (INR k + 1)).
      { pose proof (le_INR (s + k + 1) (S a + s) ltac:(lia)) as Q. rewrite !plus_INR in Q. rewrite plus_INR in Hy. change (INR 1) with 1 in Q. lra. }
      rewrite (S_INR s). field. repeat split; lra.
Qed.
(** ** The radial moments *)
(** C(2a+m-k, a) as a product *)
Lemma bin_lprod a x : INR (bin (x + a) a) * INR (fact a) = lprod a (fun t => INR x + INR t + 1) 0.
Proof.
  rewrite bin_INR by lia. replace (x + a - a)%nat with x by lia. pose proof (fact_pos a). pose proof (fact_pos x).
  assert (E : INR (fact (x + a)) = lprod a (fun t => INR x + INR t + 1) 0 * INR (fact x)).
  { clear. induction a as [|a IH]; [rewrite Nat.add_0_r; cbn [lprod]; ring|]. rewrite <- plus_n_Sm. change (fact (S (x + a))) with (S (x + a) * fact (x + a))%nat.
    rewrite mult_INR, IH, S_INR, plus_INR. cbn [lprod]. ring. }
  rewrite E. field. lra.
Qed.
Lemma lprod_move n c d k : lprod n (fun t => c t - d) k = lprod n c (k + d).
Proof. induction n as [|n IH]; [reflexivity|]. cbn. rewrite IH. ring. Qed.
Lemma lprod_ext n c c' k : (forall t, (t < n)%nat -> c t = c' t) -> lprod n c k = lprod n c' k.
Proof. induction n as [|n IH]; intros H; [reflexivity|]. cbn. rewrite IH, H by (intros; apply H; lia) || lia. reflexivity. Qed.
Lemma binom_lprod a m k : (k <= a)%nat -> INR (bin (2 * a + m - k) a) = / INR (fact a) * lprod a (fun t => INR (a + m) + INR t + 1) (INR k).
Proof.
  intros H. pose proof (fact_pos a). replace (2 * a + m - k)%nat with ((a + m - k) + a)%nat by lia.
  apply (Rmult_eq_reg_r (INR (fact a))); [|lra]. rewrite bin_lprod. rewrite (lprod_ext a _ (fun t => (INR (a + m) + INR t + 1) - INR k)).
  - rewrite lprod_move, Rplus_0_l. field. lra.
  - intros t _. rewrite minus_INR by lia. ring.
Qed.
(** moment a m i = integral of R rho^(m+2i) rho *)
Definition moment (a m i : nat) : R := alt a (fun k => INR (bin (2 * a + m - k) a) / (2 * (INR (a + m + i + 1) - INR k))).
Lemma moment_low a m i : (i < a)%nat -> moment a m i = 0.
Proof.
  intros H. unfold moment. rewrite (alt_ext a _ (fun k => (/ INR (fact a) / 2) * lprod_wo i a (fun t => INR (a + m) + INR t + 1) (INR k))).
  - rewrite alt_scal, alt_Pdeg; [ring|]. apply lprod_wo_Pdeg, H.
  - intros k Hk. rewrite binom_lprod by exact Hk. rewrite (lprod_factor i) by exact H.
    assert (0 < INR (a + m + i + 1) - INR k) by (assert (INR k < INR (a + m + i + 1)); [apply lt_INR; lia|lra]).
    replace (INR (a + m) + INR i + 1 - INR k) with (INR (a + m + i + 1) - INR k) by (rewrite !(plus_INR (a + m + i)), !(plus_INR (a + m)); simpl (INR 1); ring).
    pose proof (fact_pos a). field. lra.
Qed.
Lemma lprod_fact a : lprod a (fun t => INR t) (INR a) = (-1) ^ a * INR (fact a).
Proof.
  (* (t - a) for t < a *)
  assert (G : forall n, (n <= a)%nat -> lprod n (fun t => INR t) (INR a) * INR (fact (a - n)) = (-1) ^ n * INR (fact a)).
  { induction n as [|n IH]; intros Hn; [rewrite Nat.sub_0_r; cbn; ring|]. cbn [lprod]. specialize (IH ltac:(lia)).
    replace (a - n)%nat with (S (a - S n)) in IH by lia. change (fact (S (a - S n))) with (S (a - S n) * fact (a - S n))%nat in IH. rewrite mult_INR in IH.
    replace (INR n - INR a) with (- INR (S (a - S n))) by (replace (S (a - S n)) with (a - n)%nat by lia; rewrite minus_INR by lia; ring).
    simpl (pow _ (S n)). transitivity (-1 * ((-1) ^ n * INR (fact a))); [|ring]. rewrite <- IH. ring. }
  specialize (G a (le_n a)). rewrite Nat.sub_diag in G. change (INR (fact 0)) with 1 in G. rewrite <- G. ring.
Qed.
Lemma pow_m1_sq a : (-1) ^ a * (-1) ^ a = 1.
Proof. rewrite <- Rpow_mult_distr. replace (-1 * -1) with 1 by ring. apply pow1. Qed.
Lemma moment_top a m : INR (bin (2 * a + m) a) * moment a m a = / (2 * (INR (2 * a + m) + 1)).
Proof.
  set (y := INR (2 * a + m) + 1). set (c := fun t : nat => INR (a + m) + INR t + 1).
  destruct (lprod_div a c y) as (Q & HQ & E).
  assert (Ey : INR (a + m + a + 1) = y) by (unfold y; replace (a + m + a + 1)%nat with (S (2 * a + m)) by lia; apply S_INR).
  assert (V : lprod a c y = (-1) ^ a * INR (fact a)).
  { rewrite <- lprod_fact. rewrite (lprod_ext a c (fun t => INR t - - (INR (a + m) + 1))) by (intros; unfold c; ring). rewrite lprod_move. f_equal.
    unfold y. replace (2 * a + m)%nat with (a + (a + m))%nat by lia. rewrite plus_INR. ring. }
  assert (M : moment a m a = / 2 * ((-1) ^ a * alt a (fun k => / lprod 1 (fun t => y - INR t) (INR k)))).
  { unfold moment. rewrite Ey. rewrite (alt_ext a _ (fun k => (/ INR (fact a) / 2) * Q k + (/ 2 * (-1) ^ a) * / lprod 1 (fun t => y - INR t) (INR k))).
    - rewrite alt_plus, !alt_scal, (alt_Pdeg a Q HQ). ring.
    - intros k Hk. rewrite binom_lprod by exact Hk. fold c. rewrite E, V. pose proof (fact_pos a).
      assert (0 < y - INR k) by (assert (INR k <= INR (2 * a + m)) by (apply le_INR; lia); unfold y; lra). cbn [lprod]. change (INR 0) with 0. field. lra. }
  rewrite M, alt_inv by (rewrite Nat.add_0_r; unfold y; assert (INR a <= INR (2 * a + m)) by (apply le_INR; lia); lra). cbn [Nat.add].
  (* the product y (y-1) ... (y-a) *)
  assert (Pr : lprod (S a) (fun t => y - INR t) 0 = y * (INR (bin (2 * a + m) a) * INR (fact a))).
  { rewrite lprod_shift. rewrite Rplus_0_l. replace (2 * a + m)%nat with ((a + m) + a)%nat by lia. rewrite bin_lprod. rewrite Rminus_0_r. f_equal.
    (* reverse the order of the factors *)
    rewrite (lprod_ext a _ (fun t => (INR (a + m) + INR (a - 1 - t) + 1) + 1)).
    - assert (Rv : forall n (g : nat -> R), lprod n (fun t => g (n - 1 - t)%nat) 0 = lprod n g 0).
      { clear. induction n as [|n IH]; intros g; [reflexivity|].
        assert (First : forall n (h : nat -> R), lprod (S n) h 0 = h 0%nat * lprod n (fun t => h (S t)) 0).
        { clear. induction n as [|n IH]; intros h; [cbn; ring|]. change (lprod (S (S n)) h 0) with (lprod (S n) h 0 * (h (S n) - 0)). rewrite IH. cbn [lprod]. ring. }
        rewrite First. replace (S n - 1 - 0)%nat with n by lia.
        rewrite (lprod_ext n (fun t => g (S n - 1 - S t)%nat) (fun t => g (n - 1 - t)%nat)) by (intros; f_equal; lia). rewrite IH. cbn [lprod]. ring. }
      rewrite (lprod_ext a _ (fun t => (fun u => INR (a + m) + INR u + 2) (a - 1 - t)%nat)) by (intros; ring).
      transitivity (lprod a (fun u => INR (a + m) + INR u + 2) 1).
      + replace 1 with (0 + 1) by ring. rewrite <- !lprod_move. apply (Rv a (fun u => INR (a + m) + INR u + 2 - 1)).
      + replace 1 with (0 + 1) by ring. rewrite <- lprod_move. apply lprod_ext. intros; ring.
    - intros t Ht. unfold y. rewrite !minus_INR by lia. replace (2 * a + m)%nat with (a + (a + m))%nat by lia. rewrite plus_INR. simpl (INR 1). ring. }
  rewrite Pr. pose proof (fact_pos a). assert (0 < INR (bin (2 * a + m) a)).
  { rewrite bin_INR by lia. apply Rdiv_lt_0_compat; [apply fact_pos|]. apply Rmult_lt_0_compat; apply fact_pos. }
  assert (0 < y) by (unfold y; pose proof (pos_INR (2 * a + m)); lra). change (INR (fact 0)) with 1.
  transitivity ((-1) ^ a * (-1) ^ a * / (2 * y)); [|rewrite pow_m1_sq; ring]. field. lra.
Qed.

(** ** Integrals *)
Lemma is_RInt_val (f : R -> R) a b (I J : R) : is_RInt f a b I -> I = J -> is_RInt f a b J.
Proof. intros H <-. exact H. Qed.
Lemma is_RInt_same (f g : R -> R) a b (I : R) : (forall x, Rmin a b < x < Rmax a b -> f x = g x) -> is_RInt f a b I -> is_RInt g a b I.
Proof. intros H. apply (is_RInt_ext (V := R_NormedModule)). exact H. Qed.
Lemma is_RInt_rsum n (f : nat -> R -> R) (I : nat -> R) a b : (forall k, (k < n)%nat -> is_RInt (f k) a b (I k)) -> is_RInt (fun x => rsum n (fun k => f k x)) a b (rsum n I).
Proof.
  induction n as [|n IH]; intros H.
  - cbn [rsum]. apply (is_RInt_val _ _ _ _ _ (is_RInt_const (V := R_NormedModule) a b 0)). change (scal (b - a) 0) with ((b - a) * 0). ring.
  - cbn. apply (is_RInt_plus (V := R_NormedModule)); [apply IH; intros; apply H; lia|apply H; lia].
Qed.
Lemma is_RInt_scal_l (f : R -> R) a b c I : is_RInt f a b I -> is_RInt (fun x => c * f x) a b (c * I).
Proof. intros H. apply (is_RInt_scal (V := R_NormedModule) f a b c I H). Qed.
Lemma is_RInt_pow p : is_RInt (fun x => x ^ p) 0 1 (/ (INR p + 1)).
Proof.
  pose proof (pos_INR p). set (F := fun x : R => x ^ (S p) / (INR p + 1)).
  assert (D : forall x, is_derive F x (x ^ p)).
  { intros x. unfold F. auto_derive; [exact I|]. change (match p with O => 1 | S _ => INR p + 1 end) with (INR (S p)). rewrite S_INR. rewrite Nat.pred_succ || idtac. field. lra. }
  assert (Q : is_RInt (fun x => x ^ p) 0 1 (minus (F 1) (F 0))).
  { apply (is_RInt_derive (V := R_CompleteNormedModule) F (fun x => x ^ p)); [intros; apply D|].
    intros x _. apply (ex_derive_continuous (K := R_AbsRing) (V := R_NormedModule)). auto_derive. exact I. }
  replace (/ (INR p + 1)) with (minus (F 1) (F 0)); [exact Q|]. unfold minus, plus, opp, F; cbn -[pow INR]. rewrite pow1, pow_i by lia. field. lra.
Qed.
(** Moments of the radial polynomial *)
Lemma radial_moment a m i : is_RInt (fun x => radial a (a + m) x * x ^ (m + 2 * i) * x) 0 1 (moment a m i).
Proof.
  unfold moment, alt.
  apply (is_RInt_same (fun x => rsum (S a) (fun k => ((-1) ^ k * INR (bin a k) * INR (bin (2 * a + m - k) a)) * x ^ (2 * a + m - 2 * k + (m + 2 * i) + 1)))).
  { intros x _. rewrite radial_alt by lia. unfold alt. rewrite <- !rsum_scal_r. apply rsum_ext. intros k _.
    replace (a + (a + m) - k)%nat with (2 * a + m - k)%nat by lia. replace (a + (a + m) - 2 * k)%nat with (2 * a + m - 2 * k)%nat by lia.
    rewrite !pow_add. ring. }
  apply is_RInt_rsum. intros k Hk. pose proof (is_RInt_scal_l _ 0 1 ((-1) ^ k * INR (bin a k) * INR (bin (2 * a + m - k) a)) _ (is_RInt_pow (2 * a + m - 2 * k + (m + 2 * i) + 1))) as Q.
  apply (is_RInt_val _ _ _ _ _ Q).
  replace (2 * a + m - 2 * k + (m + 2 * i) + 1)%nat with (2 * (a + m + i - k) + 1)%nat by lia.
  assert (E : INR (2 * (a + m + i - k) + 1) + 1 = 2 * (INR (a + m + i + 1) - INR k)).
  { rewrite plus_INR, mult_INR, minus_INR by lia. rewrite (plus_INR (a + m + i) 1). simpl (INR 2). simpl (INR 1). ring. }
  rewrite E. unfold Rdiv. ring.
Qed.
Lemma radial_ortho_le a a' m : (a' <= a)%nat ->
  is_RInt (fun x => radial a (a + m) x * radial a' (a' + m) x * x) 0 1 (if (a =? a')%nat then / (2 * (INR (2 * a + m) + 1)) else 0).
Proof.
  intros H.
  assert (Q : is_RInt (fun x => radial a (a + m) x * radial a' (a' + m) x * x) 0 1 (rsum (S a') (fun k => ((-1) ^ k * INR (bin a' k) * INR (bin (2 * a' + m - k) a')) * moment a m (a' - k)))).
  { apply (is_RInt_same (fun x => rsum (S a') (fun k => ((-1) ^ k * INR (bin a' k) * INR (bin (2 * a' + m - k) a')) * (radial a (a + m) x * x ^ (m + 2 * (a' - k)) * x)))).
    { intros x _. rewrite (radial_alt a') by lia. unfold alt. rewrite <- rsum_scal_l, <- rsum_scal_r. apply rsum_ext. intros k Hk.
      replace (a' + (a' + m) - k)%nat with (2 * a' + m - k)%nat by lia. replace (a' + (a' + m) - 2 * k)%nat with (m + 2 * (a' - k))%nat by lia. ring. }
    apply is_RInt_rsum. intros k Hk. apply is_RInt_scal_l, radial_moment. }
  apply (is_RInt_val _ _ _ _ _ Q).
  destruct (Nat.eqb_spec a a') as [->|E].
  - rewrite rsum_first. rewrite bin_0, !Nat.sub_0_r. rewrite (rsum_ext a' _ (fun _ => 0)); [rewrite rsum_0|intros i Hi; rewrite moment_low by lia; ring].
    rewrite <- moment_top. simpl (pow _ 0). simpl (INR 1). ring.
  - transitivity (rsum (S a') (fun _ => 0)); [|apply rsum_0]. apply rsum_ext. intros k Hk. rewrite moment_low by lia. ring.
Qed.
Lemma radial_ortho a a' m :
  is_RInt (fun x => radial a (a + m) x * radial a' (a' + m) x * x) 0 1 (if (a =? a')%nat then / (2 * (INR (2 * a + m) + 1)) else 0).
Proof.
  destruct (Nat.le_ge_cases a' a) as [H|H]; [apply radial_ortho_le, H|].
  apply (is_RInt_same (fun x => radial a' (a' + m) x * radial a (a + m) x * x)); [intros; ring|].
  pose proof (radial_ortho_le a' a m H) as Q. rewrite Nat.eqb_sym. destruct (Nat.eqb_spec a' a) as [->|E]; [exact Q|exact Q].
Qed.

(** ** The angle *)
Lemma is_RInt_cosZ (z : Z) : is_RInt (fun t => cos (IZR z * t)) 0 (2 * PI) (if Z.eqb z 0 then 2 * PI else 0).
Proof.
  destruct (Z.eqb_spec z 0) as [->|N].
  - apply (is_RInt_same (fun _ => 1)); [intros t _; rewrite Rmult_0_l, cos_0; reflexivity|].
    apply (is_RInt_val _ _ _ _ _ (is_RInt_const (V := R_NormedModule) 0 (2 * PI) 1)). change (scal (2 * PI - 0) 1) with ((2 * PI - 0) * 1). ring.
  - apply IZR_neq in N || (apply not_0_IZR in N). set (F := fun t => sin (IZR z * t) / IZR z).
    assert (Q : is_RInt (fun t => cos (IZR z * t)) 0 (2 * PI) (minus (F (2 * PI)) (F 0))).
    { apply (is_RInt_derive (V := R_CompleteNormedModule) F (fun t => cos (IZR z * t))).
      - intros t _. unfold F. auto_derive; [repeat split; try exact I; try exact N|]; try (field; exact N).
      - intros t _. apply (ex_derive_continuous (K := R_AbsRing) (V := R_NormedModule)). auto_derive. exact I. }
    apply (is_RInt_val _ _ _ _ _ Q). change (minus (F (2 * PI)) (F 0)) with (F (2 * PI) - F 0). unfold F.
    pose proof (f_equal (@snd R R) (cis_2PI_Z z)) as E. cbn in E. rewrite (Rmult_comm (IZR z) (2 * PI)). rewrite E. rewrite Rmult_0_r, sin_0. field. exact N.
Qed.
Lemma is_RInt_sinZ (z : Z) : is_RInt (fun t => sin (IZR z * t)) 0 (2 * PI) 0.
Proof.
  destruct (Z.eq_dec z 0) as [->|N].
  - apply (is_RInt_same (fun _ => 0)); [intros t _; rewrite Rmult_0_l, sin_0; reflexivity|].
    apply (is_RInt_val _ _ _ _ _ (is_RInt_const (V := R_NormedModule) 0 (2 * PI) 0)). change (scal (2 * PI - 0) 0) with ((2 * PI - 0) * 0). ring.
  - apply IZR_neq in N || (apply not_0_IZR in N). set (F := fun t => - cos (IZR z * t) / IZR z).
    assert (Q : is_RInt (fun t => sin (IZR z * t)) 0 (2 * PI) (minus (F (2 * PI)) (F 0))).
    { apply (is_RInt_derive (V := R_CompleteNormedModule) F (fun t => sin (IZR z * t))).
      - intros t _. unfold F. auto_derive; [repeat split; try exact I; try exact N|]; try (field; exact N).
      - intros t _. apply (ex_derive_continuous (K := R_AbsRing) (V := R_NormedModule)). auto_derive. exact I. }
    apply (is_RInt_val _ _ _ _ _ Q). change (minus (F (2 * PI)) (F 0)) with (F (2 * PI) - F 0). unfold F.
    pose proof (f_equal (@fst R R) (cis_2PI_Z z)) as E. cbn in E. rewrite (Rmult_comm (IZR z) (2 * PI)). rewrite E. rewrite Rmult_0_r, cos_0. field. exact N.
Qed.
Lemma azimuthal_ortho m m' : is_RInt (fun t => azimuthal m t * azimuthal m' t) 0 (2 * PI) (if Z.eqb m m' then (if Z.eqb m 0 then 2 * PI else PI) else 0).
Proof.
  assert (L := fun f I H => is_RInt_scal_l f 0 (2 * PI) (/ 2) I H).
  unfold azimuthal. destruct (Z.ltb_spec m 0) as [S|S], (Z.ltb_spec m' 0) as [S'|S'].
  - apply (is_RInt_same (fun t => / 2 * (cos (IZR (m - m') * t) + -1 * cos (IZR (m + m') * t)))).
    { intros t _. rewrite minus_IZR, plus_IZR. rewrite Rmult_minus_distr_r, Rmult_plus_distr_r, cos_minus, cos_plus. rewrite !Ropp_mult_distr_l_reverse, !sin_neg. field. }
    eapply is_RInt_val; [apply L; apply (is_RInt_plus (V := R_NormedModule)); [apply is_RInt_cosZ|apply is_RInt_scal_l, is_RInt_cosZ]|].
    change plus with Rplus. rewrite (proj2 (Z.eqb_neq (m + m') 0)) by lia. destruct (Z.eqb_spec m m') as [->|N].
    + rewrite Z.sub_diag. rewrite (proj2 (Z.eqb_neq m' 0)) by lia. cbn [Z.eqb]. change plus with Rplus. lra.
    + rewrite (proj2 (Z.eqb_neq (m - m') 0)) by lia. change plus with Rplus. lra.
  - apply (is_RInt_same (fun t => / 2 * (sin (IZR (m' - m) * t) + -1 * sin (IZR (m + m') * t)))).
    { intros t _. rewrite minus_IZR, plus_IZR. rewrite Rmult_minus_distr_r, Rmult_plus_distr_r, sin_minus, sin_plus. rewrite !Ropp_mult_distr_l_reverse, !sin_neg. field. }
    eapply is_RInt_val; [apply L; apply (is_RInt_plus (V := R_NormedModule)); [apply is_RInt_sinZ|apply is_RInt_scal_l, is_RInt_sinZ]|].
    rewrite (proj2 (Z.eqb_neq m m')) by lia. change plus with Rplus. lra.
  - apply (is_RInt_same (fun t => / 2 * (sin (IZR (m - m') * t) + -1 * sin (IZR (m + m') * t)))).
    { intros t _. rewrite minus_IZR, plus_IZR. rewrite Rmult_minus_distr_r, Rmult_plus_distr_r, sin_minus, sin_plus. rewrite !Ropp_mult_distr_l_reverse, !sin_neg. field. }
    eapply is_RInt_val; [apply L; apply (is_RInt_plus (V := R_NormedModule)); [apply is_RInt_sinZ|apply is_RInt_scal_l, is_RInt_sinZ]|].
    rewrite (proj2 (Z.eqb_neq m m')) by lia. change plus with Rplus. lra.
  - apply (is_RInt_same (fun t => / 2 * (cos (IZR (m - m') * t) + cos (IZR (m + m') * t)))).
    { intros t _. rewrite minus_IZR, plus_IZR. rewrite Rmult_minus_distr_r, Rmult_plus_distr_r, cos_minus, cos_plus. field. }
    eapply is_RInt_val; [apply L; apply (is_RInt_plus (V := R_NormedModule)); apply is_RInt_cosZ|].
    change plus with Rplus. destruct (Z.eqb_spec m m') as [->|N].
    + rewrite Z.sub_diag. cbn [Z.eqb]. destruct (Z.eqb_spec m' 0) as [->|N0].
      * cbn [Z.eqb Z.add]. change plus with Rplus. lra.
      * rewrite (proj2 (Z.eqb_neq (m' + m') 0)) by lia. change plus with Rplus. lra.
    + rewrite (proj2 (Z.eqb_neq (m - m') 0)), (proj2 (Z.eqb_neq (m + m') 0)) by lia. change plus with Rplus. lra.
Qed.
(** ** Orthonormality *)
Lemma c61_orthonormal rank cx cy r j k (zj zk : R -> R -> R) : (rank = 1 \/ rank = 2)%nat -> 0 < r -> (0 <= j)%Z -> (0 <= k)%Z ->
  (forall rho th, 0 <= rho -> zernike rank (cx + r * (rho * cos th)) (cy + r * (rho * sin th)) (cx, cy, r) j = Ok (zj rho th)) ->
  (forall rho th, 0 <= rho -> zernike rank (cx + r * (rho * cos th)) (cy + r * (rho * sin th)) (cx, cy, r) k = Ok (zk rho th)) ->
  exists A : R -> R,
    (forall rho, 0 <= rho <= 1 -> is_RInt (fun th => zj rho th * zk rho th) 0 (2 * PI) (A rho)) /\
    is_RInt (fun rho => A rho * rho) 0 1 (if Z.eqb j k then PI else 0).
Proof.
  intros Hr Hp Hj Hk Ej Ek. destruct (pair_exists j Hj) as (m & n & P & O). destruct (pair_exists k Hk) as (m' & n' & P' & O').
  assert (Zj : forall rho th, 0 <= rho -> zj rho th = zernike_norm m n * radial (Z.to_nat ((n - Z.abs m) / 2)) (Z.to_nat ((n + Z.abs m) / 2)) rho * azimuthal m th).
  { intros rho th H. specialize (Ej rho th H). rewrite (c51_mode rank cx cy r j rho th m n) in Ej by assumption. injection Ej as E. symmetry. exact E. }
  assert (Zk : forall rho th, 0 <= rho -> zk rho th = zernike_norm m' n' * radial (Z.to_nat ((n' - Z.abs m') / 2)) (Z.to_nat ((n' + Z.abs m') / 2)) rho * azimuthal m' th).
  { intros rho th H. specialize (Ek rho th H). rewrite (c51_mode rank cx cy r k rho th m' n') in Ek by assumption. injection Ek as E. symmetry. exact E. }
  set (Rj := radial (Z.to_nat ((n - Z.abs m) / 2)) (Z.to_nat ((n + Z.abs m) / 2))) in *. set (Rk := radial (Z.to_nat ((n' - Z.abs m') / 2)) (Z.to_nat ((n' + Z.abs m') / 2))) in *.
  set (V := if Z.eqb m m' then (if Z.eqb m 0 then 2 * PI else PI) else 0).
  exists (fun rho => (zernike_norm m n * zernike_norm m' n' * (Rj rho * Rk rho)) * V). split.
  - intros rho Hrho. apply (is_RInt_same (fun th => (zernike_norm m n * zernike_norm m' n' * (Rj rho * Rk rho)) * (azimuthal m th * azimuthal m' th))).
    + intros th _. rewrite Zj, Zk by lra. ring.
    + apply is_RInt_scal_l, azimuthal_ortho.
  - destruct (Z.eq_dec m m') as [<-|Nm].
    + assert (Sp : forall m n, zernike_pair m n -> exists a, Z.to_nat ((n - Z.abs m) / 2) = a /\ Z.to_nat ((n + Z.abs m) / 2) = (a + Z.abs_nat m)%nat /\ n = Z.of_nat (2 * a + Z.abs_nat m)).
      { clear. intros m n (H0 & H1 & (h & Eh)). exists (Z.to_nat ((n - Z.abs m) / 2)).
        assert (EA : exists h, (n - Z.abs m = h * 2)%Z) by (destruct (Z.abs_spec m) as [[_ ->]|[_ ->]]; [exists h; lia|exists (h + m)%Z; lia]).
        destruct EA as (g & Eg). rewrite Eg, Z.div_mul by lia. replace (n + Z.abs m)%Z with ((g + Z.abs m) * 2)%Z by lia. rewrite Z.div_mul by lia. lia. }
      destruct (Sp m n P) as (a & Ea & Eb & En). destruct (Sp m n' P') as (a' & Ea' & Eb' & En').
      assert (Q := radial_ortho a a' (Z.abs_nat m)). assert (Ej2 : Rj = radial a (a + Z.abs_nat m)) by (unfold Rj; rewrite Ea, Eb; reflexivity).
      assert (Ek2 : Rk = radial a' (a' + Z.abs_nat m)) by (unfold Rk; rewrite Ea', Eb'; reflexivity). rewrite <- Ej2, <- Ek2 in Q.
      apply (is_RInt_same (fun rho => (zernike_norm m n * zernike_norm m n' * V) * (Rj rho * Rk rho * rho))); [intros; ring|].
      eapply is_RInt_val; [apply is_RInt_scal_l, Q|]. unfold V. rewrite Z.eqb_refl. unfold osa_index in O, O'.
      destruct (Nat.eqb_spec a a') as [<-|Na].
      * assert (n' = n) by lia. subst n'. rewrite (proj2 (Z.eqb_eq j k)) by lia. rewrite En. rewrite INR_IZR_INZ.
        assert (0 <= IZR (Z.of_nat (2 * a + Z.abs_nat m))) by (apply IZR_le; lia). set (N := IZR (Z.of_nat (2 * a + Z.abs_nat m))) in *. unfold zernike_norm.
        fold N. clearbody N. destruct (Z.eqb m 0); rewrite sqrt_sqrt by lra; field; lra.
      * destruct (Z.eqb_spec j k) as [<-|_]; [exfalso; apply Na; assert (n = n') by nia; lia|]. ring.
    + unfold V. rewrite (proj2 (Z.eqb_neq m m') Nm). destruct (Z.eqb_spec j k) as [<-|_].
      * exfalso. apply Nm. pose proof (c50_pair m n j P O) as E1. rewrite (c50_pair m' n' j P' O') in E1. congruence.
      * apply (is_RInt_same (fun _ => 0)); [intros; ring|]. apply (is_RInt_val _ _ _ _ _ (is_RInt_const (V := R_NormedModule) 0 1 0)). change (scal (1 - 0) 0) with ((1 - 0) * 0). ring.
Qed.
