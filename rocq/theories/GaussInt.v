(** The Gaussian integral and the orthogonality of the Hermite polynomials. *)
From Coquelicot Require Import Coquelicot.
From Verif Require Import PyBase CSum AnalyticModel ParaxialProofs TransShapeProofs.
Open Scope R_scope.

Ltac eqR := match goal with |- @eq _ ?a ?b => change (@eq R a b) end.
Ltac cont1 := apply (@ex_derive_continuous R_AbsRing R_NormedModule); auto_derive; auto.

Definition gG (x : R) : R := RInt (fun t => exp (- t ^ 2)) 0 x.
Definition gH (x : R) : R := RInt (fun t => exp (- (x ^ 2 * (1 + t ^ 2))) / (1 + t ^ 2)) 0 1.
Lemma one_t2 t : 1 + t ^ 2 <> 0.
Proof. pose proof (pow2_ge_0 t). lra. Qed.
Lemma gG_derive x : is_derive gG x (exp (- x ^ 2)).
Proof.
  apply (is_derive_RInt (fun t => exp (- t ^ 2)) gG 0).
  - apply filter_forall. intros y. apply (@RInt_correct R_CompleteNormedModule). smooth.
  - cont1.
Qed.
Lemma gH_derive x : is_derive gH x (RInt (fun t => - (2 * x) * exp (- (x ^ 2 * (1 + t ^ 2)))) 0 1).
Proof.
  assert (D : forall u t, is_derive (fun u => exp (- (u ^ 2 * (1 + t ^ 2))) / (1 + t ^ 2)) u (- (2 * u) * exp (- (u ^ 2 * (1 + t ^ 2))))).
  { intros u t. pose proof (one_t2 t). auto_derive; [exact I|]. change (t * (t * 1)) with (t ^ 2). change (u * (u * 1)) with (u ^ 2). field. apply one_t2. }
  replace (RInt (fun t => - (2 * x) * exp (- (x ^ 2 * (1 + t ^ 2)))) 0 1) with (RInt (fun t => Derive (fun u => exp (- (u ^ 2 * (1 + t ^ 2))) / (1 + t ^ 2)) x) 0 1).
  2:{ apply RInt_ext. intros t _. apply is_derive_unique, D. }
  apply (is_derive_RInt_param (fun u t => exp (- (u ^ 2 * (1 + t ^ 2))) / (1 + t ^ 2)) 0 1 x).
  - apply filter_forall. intros y t _. eexists. apply D.
  - intros t _. apply (continuity_2d_pt_ext (fun u v => - (2 * u) * exp (- (u ^ 2 * (1 + v ^ 2))))).
    { intros u v. symmetry. apply is_derive_unique, D. }
    assert (P2 : forall f a b, continuity_2d_pt f a b -> continuity_2d_pt (fun u v => f u v ^ 2) a b).
    { intros f a b Hf. apply (continuity_2d_pt_ext (fun u v => f u v * f u v)); [intros; ring|]. apply continuity_2d_pt_mult; exact Hf. }
    apply continuity_2d_pt_mult.
    + apply continuity_2d_pt_opp, continuity_2d_pt_mult; [apply continuity_2d_pt_const|apply continuity_2d_pt_id1].
    + apply continuity_1d_2d_pt_comp; [apply derivable_continuous_pt, derivable_pt_exp|].
      apply continuity_2d_pt_opp, continuity_2d_pt_mult; [apply P2, continuity_2d_pt_id1|].
      apply continuity_2d_pt_plus; [apply continuity_2d_pt_const|apply P2, continuity_2d_pt_id2].
  - apply filter_forall. intros y. apply (@ex_RInt_continuous R_CompleteNormedModule). intros t _. cont1. apply one_t2.
Qed.
Lemma gG_scale x : RInt (fun t => x * exp (- (x * t) ^ 2)) 0 1 = gG x.
Proof.
  unfold gG. pose proof (RInt_comp_lin (V := R_CompleteNormedModule) (fun t => exp (- t ^ 2)) x 0 0 1) as H. rewrite Rmult_0_r, Rmult_1_r, !Rplus_0_r in H.
  rewrite <- H by smooth. apply RInt_ext. intros t _. unfold scal; cbn -[pow]. unfold mult; cbn -[pow]. rewrite Rplus_0_r. reflexivity.
Qed.
Lemma gauss_const x : gG x ^ 2 + gH x = PI / 4.
Proof.
  assert (D : forall y, is_derive (fun y => gG y ^ 2 + gH y) y 0).
  { intros y. replace 0 with (2 * gG y * exp (- y ^ 2) + RInt (fun t => - (2 * y) * exp (- (y ^ 2 * (1 + t ^ 2)))) 0 1).
    - apply (is_derive_plus (fun y => gG y ^ 2) gH); [|apply gH_derive].
      replace (2 * gG y * exp (- y ^ 2)) with (INR 2 * exp (- y ^ 2) * gG y ^ Nat.pred 2) by (cbn; ring).
      apply is_derive_pow, gG_derive.
    - rewrite <- (gG_scale y).
      assert (E : RInt (fun t => - (2 * y) * exp (- (y ^ 2 * (1 + t ^ 2)))) 0 1 = - 2 * exp (- y ^ 2) * RInt (fun t => y * exp (- (y * t) ^ 2)) 0 1).
      { rewrite <- ri_scal by smooth. apply RInt_ext. intros t _. replace (- (y ^ 2 * (1 + t ^ 2))) with (- y ^ 2 + - (y * t) ^ 2) by ring. rewrite exp_plus. eqR. ring. }
      rewrite E. eqR. ring. }
  assert (C : forall y, 0 < Rabs y -> gG y ^ 2 + gH y = gG 0 ^ 2 + gH 0).
  { intros y _. destruct (MVT_gen (fun y => gG y ^ 2 + gH y) 0 y (fun _ => 0)) as (c & _ & E).
    - intros; apply D.
    - intros z _. apply continuity_pt_filterlim. apply (@ex_derive_continuous R_AbsRing R_NormedModule (fun y => gG y ^ 2 + gH y) z). exists 0. apply D.
    - lra. }
  assert (Z : gG 0 ^ 2 + gH 0 = PI / 4).
  { assert (E0 : gG 0 = 0) by exact (RInt_point 0 (fun t => exp (- t ^ 2))).
    assert (E1 : gH 0 = PI / 4); [|rewrite E0, E1; ring].
    unfold gH. transitivity (RInt (fun t => / (1 + t ^ 2)) 0 1).
    { apply RInt_ext. intros t _. replace (- (0 ^ 2 * (1 + t ^ 2))) with 0 by ring. rewrite exp_0. unfold Rdiv. apply Rmult_1_l. }
    apply is_RInt_unique. replace (PI / 4) with (atan 1 - atan 0) by (rewrite atan_1, atan_0; ring).
    apply (is_RInt_derive atan).
    - intros t _. auto_derive; [exact I|]. eqR. rewrite Rmult_1_l. reflexivity.
    - intros t _. cont1. apply one_t2. }
  destruct (Req_dec x 0) as [->|Hx]; [exact Z|]. rewrite C; [exact Z|]. apply Rabs_pos_lt, Hx.
Qed.

(** exp beats powers *)
Lemma mono0' (f f' : R -> R) : 0 <= f 0 -> (forall x, is_derive f x (f' x)) -> (forall x, 0 <= x -> 0 <= f' x) -> forall x, 0 <= x -> 0 <= f x.
Proof.
  intros H0 Hd Hp x Hx. pose proof (mono0 (fun x => f x - f 0) f') as M. cbv beta in M.
  assert (H : 0 <= f x - f 0); [|lra]. apply M; [lra| |exact Hp|exact Hx].
  intros y. replace (f' y) with (f' y - 0) by ring. apply (is_derive_minus f (fun _ => f 0)); [apply Hd|apply (@is_derive_const R_AbsRing R_NormedModule)].
Qed.
Lemma exp_ge_pow n : forall s, 0 <= s -> s ^ n / INR (fact n) <= exp s.
Proof.
  induction n as [|n IH].
  - intros s Hs. cbn. replace (1 / 1) with 1 by field. rewrite <- exp_0. destruct Hs as [Hs|<-]; [left; apply exp_increasing, Hs|lra].
  - intros s Hs. assert (H : 0 <= exp s - s ^ S n / INR (fact (S n))); [|lra].
    apply (mono0' (fun s => exp s - s ^ S n / INR (fact (S n))) (fun s => exp s - s ^ n / INR (fact n))); [| | |exact Hs].
    + rewrite exp_0. rewrite pow_i by lia. unfold Rdiv. rewrite Rmult_0_l. lra.
    + intros y. assert (Hk : INR (fact (S n)) = (INR n + 1) * INR (fact n)) by (rewrite fact_simpl, mult_INR, S_INR; reflexivity).
      rewrite Hk. pose proof (INR_fact_neq_0 n) as Hf. pose proof (pos_INR n) as Hn. set (k := INR (fact n)) in *. clearbody k.
      replace (exp y - y ^ n / k) with (exp y - INR (S n) * 1 * y ^ Nat.pred (S n) / ((INR n + 1) * k)) by (rewrite S_INR; cbn [Nat.pred]; field; split; lra).
      apply (is_derive_minus exp (fun s => s ^ S n / ((INR n + 1) * k))); [apply is_derive_exp|].
      unfold Rdiv. apply (@is_derive_scal_l R_AbsRing R_NormedModule (fun s => s ^ S n) y (INR (S n) * 1 * y ^ Nat.pred (S n)) (/ ((INR n + 1) * k))). apply is_derive_pow. apply (@is_derive_id R_AbsRing).
    + intros y Hy. specialize (IH y Hy). lra.
Qed.

(** Limits at infinity, in epsilon form. *)
Definition to_inf (f : R -> R) (l : R) : Prop := is_lim f p_infty l.
Lemma pow_exp_0 k : to_inf (fun x => (1 + x ^ 2) ^ k * exp (- x ^ 2)) 0.
Proof.
  unfold to_inf. apply (is_lim_le_le_loc (fun _ => 0) (fun x => (INR (fact (S k)) * exp 1) * / (1 + x ^ 2))).
  - exists 0. intros x Hx. pose proof (pow2_ge_0 x) as H2. assert (P : 0 < (1 + x ^ 2) ^ k) by (apply pow_lt; lra). pose proof (exp_pos (- x ^ 2)) as Pe. split.
    + apply Rmult_le_pos; lra.
    + pose proof (exp_ge_pow (S k) (1 + x ^ 2) ltac:(lra)) as B. pose proof (INR_fact_lt_0 (S k)) as Pf.
      rewrite exp_plus in B. assert (E : exp (x ^ 2) * exp (- x ^ 2) = 1) by (rewrite <- exp_plus, <- exp_0; f_equal; ring).
      apply (Rmult_le_reg_r (1 + x ^ 2)); [lra|]. rewrite (Rmult_assoc (INR (fact (S k)) * exp 1) (/ (1 + x ^ 2))), Rinv_l, Rmult_1_r by lra.
      apply (Rmult_le_compat_r (INR (fact (S k)) * exp (- x ^ 2))) in B; [|apply Rmult_le_pos; lra].
      rewrite <- tech_pow_Rmult in B. replace ((1 + x ^ 2) * (1 + x ^ 2) ^ k / INR (fact (S k)) * (INR (fact (S k)) * exp (- x ^ 2))) with ((1 + x ^ 2) ^ k * exp (- x ^ 2) * (1 + x ^ 2)) in B by (field; lra).
      eapply Rle_trans; [exact B|]. right. replace (exp 1 * exp (x ^ 2) * (INR (fact (S k)) * exp (- x ^ 2))) with (INR (fact (S k)) * exp 1 * (exp (x ^ 2) * exp (- x ^ 2))) by ring. rewrite E. ring.
  - apply is_lim_const.
  - replace (Finite 0) with (Rbar_mult (Finite (INR (fact (S k)) * exp 1)) (Finite 0)) by (cbn; f_equal; ring).
    apply is_lim_scal_l. replace (Finite 0) with (Rbar_inv p_infty) by reflexivity. apply is_lim_inv; [|discriminate].
    apply (is_lim_le_p_loc (fun x => x)); [|apply is_lim_id]. exists 0. intros x Hx. nra.
Qed.
Lemma gH_0 : to_inf gH 0.
Proof.
  unfold to_inf. apply (is_lim_le_le_loc (fun _ => 0) (fun x => exp (- x ^ 2))).
  - exists 0. intros x Hx. assert (ex : ex_RInt (fun t => exp (- (x ^ 2 * (1 + t ^ 2))) / (1 + t ^ 2)) 0 1).
    { apply (@ex_RInt_continuous R_CompleteNormedModule). intros t _. cont1. apply one_t2. }
    unfold gH. split.
    + apply RInt_ge_0; [lra|exact ex|]. intros t _. left. apply Rdiv_lt_0_compat; [apply exp_pos|]. pose proof (pow2_ge_0 t). lra.
    + replace (exp (- x ^ 2)) with (RInt (fun _ => exp (- x ^ 2)) 0 1).
      2:{ rewrite RInt_const. unfold scal; cbn -[pow]. unfold mult; cbn -[pow]. eqR. ring. }
      apply RInt_le; [lra|exact ex|apply ex_RInt_const|]. intros t _. pose proof (pow2_ge_0 t) as Ht. pose proof (pow2_ge_0 x) as Hx2.
      apply Rle_trans with (exp (- x ^ 2) / 1); [|unfold Rdiv; rewrite Rinv_1; lra].
      apply Rmult_le_compat; [left; apply exp_pos|left; apply Rinv_0_lt_compat; lra| |apply Rinv_le_contravar; lra].
      destruct (Rle_lt_or_eq_dec (- (x ^ 2 * (1 + t ^ 2))) (- x ^ 2)) as [L|E]; [nra|left; apply exp_increasing, L|rewrite E; lra].
  - apply is_lim_const.
  - apply (is_lim_ext (fun x => (1 + x ^ 2) ^ 0 * exp (- x ^ 2))); [intros; cbn; ring|]. apply pow_exp_0.
Qed.
Lemma gG_pos x : 0 <= x -> 0 <= gG x.
Proof. intros H. apply RInt_ge_0; [exact H|smooth|]. intros t _. left. apply exp_pos. Qed.
Lemma gG_lim : to_inf gG (sqrt PI / 2).
Proof.
  pose proof PI_RGT_0 as HP. unfold to_inf.
  replace (sqrt PI / 2) with (sqrt (PI / 4 - 0)).
  2:{ rewrite Rminus_0_r. unfold Rdiv. rewrite sqrt_mult by lra. f_equal. rewrite sqrt_inv by lra. replace 4 with (2 ^ 2) by ring. rewrite sqrt_pow2 by lra. reflexivity. }
  apply (is_lim_ext_loc (fun x => sqrt (PI / 4 - gH x))).
  - exists 0. intros x Hx. pose proof (gauss_const x). replace (PI / 4 - gH x) with (gG x ^ 2) by lra. apply sqrt_pow2, gG_pos. lra.
  - apply (is_lim_comp_continuous (fun x => PI / 4 - gH x) sqrt p_infty (PI / 4 - 0)).
    + apply is_lim_minus'; [apply is_lim_const|exact gH_0].
    + apply continuity_pt_filterlim. apply continuity_pt_sqrt. lra.
Qed.

(** ** Hermite polynomials *)
Lemma hermite_1 x : hermite 1 x = 2 * x.
Proof. reflexivity. Qed.
Lemma hermite_0 x : hermite 0 x = 1.
Proof. reflexivity. Qed.
Lemma pair_ind (P : nat -> Prop) : P 0%nat -> P 1%nat -> (forall n, P n -> P (S n) -> P (S (S n))) -> forall n, P n.
Proof. intros H0 H1 HS n. enough (P n /\ P (S n)) by tauto. induction n as [|n (A & B)]; split; auto. Qed.
Lemma hermite_derive n x : is_derive (hermite n) x (2 * INR n * hermite (Nat.pred n) x).
Proof.
  revert x. induction n as [| |n A B] using pair_ind; intros x.
  - cbn [INR]. rewrite Rmult_0_r, Rmult_0_l. apply (is_derive_ext (fun _ => 1)); [intros; reflexivity|]. apply (@is_derive_const R_AbsRing R_NormedModule).
  - cbn [INR Nat.pred]. rewrite hermite_0. apply (is_derive_ext (fun x => 2 * x)); [intros; reflexivity|]. auto_derive; [exact I|ring].
  - apply (is_derive_ext (fun x => 2 * x * hermite (S n) x - 2 * INR (S n) * hermite n x)); [intros; symmetry; apply hermite_SS|].
    replace (2 * INR (S (S n)) * hermite (Nat.pred (S (S n))) x) with ((2 * hermite (S n) x + 2 * x * (2 * INR (S n) * hermite n x)) - 2 * INR (S n) * (2 * INR n * hermite (Nat.pred n) x)).
    + apply (is_derive_minus (fun x => 2 * x * hermite (S n) x) (fun x => 2 * INR (S n) * hermite n x)).
      * replace (2 * hermite (S n) x + 2 * x * (2 * INR (S n) * hermite n x)) with (plus (mult 2 (hermite (S n) x)) (mult (2 * x) (2 * INR (S n) * hermite n x))) by reflexivity.
        apply (is_derive_mult (fun x => 2 * x) (hermite (S n)) x 2 (2 * INR (S n) * hermite n x)); [auto_derive; [exact I|ring]|exact (B x)|intros; apply Rmult_comm].
      * apply (is_derive_scal (hermite n) x (2 * INR (S n))). exact (A x).
    + cbn [Nat.pred]. destruct n as [|n].
      * cbn [INR]. rewrite hermite_1, hermite_0. ring.
      * cbn [Nat.pred]. rewrite (hermite_SS n). rewrite !S_INR. ring.
Qed.
Lemma hermite_step n x : 2 * x * hermite n x - 2 * INR n * hermite (Nat.pred n) x = hermite (S n) x.
Proof. destruct n as [|n]; [cbn [INR]; rewrite hermite_0, hermite_1; ring|]. cbn [Nat.pred]. symmetry. apply hermite_SS. Qed.
Lemma hermite_bound n : exists A k, 0 <= A /\ forall x, Rabs (hermite n x) <= A * (1 + x ^ 2) ^ k.
Proof.
  induction n as [| |n (A & k & HA & Ha) (B & l & HB & Hb)] using pair_ind.
  - exists 1, 0%nat. split; [lra|]. intros x. rewrite hermite_0, Rabs_R1. cbn. lra.
  - exists 1, 1%nat. split; [lra|]. intros x. rewrite hermite_1, pow_1. pose proof (pow2_ge_0 (x - 1)). pose proof (pow2_ge_0 (x + 1)). apply Rabs_le. lra.
  - exists (B + 2 * INR (S n) * A), (S (k + l))%nat. pose proof (pos_INR (S n)) as HN. split; [apply Rplus_le_le_0_compat; [lra|]; apply Rmult_le_pos; lra|].
    intros x. rewrite hermite_SS. assert (G : 1 <= 1 + x ^ 2) by (pose proof (pow2_ge_0 x); lra).
    eapply Rle_trans; [apply Rabs_triang|]. rewrite Rabs_Ropp, !Rabs_mult. rewrite Rmult_plus_distr_r. apply Rplus_le_compat.
    + rewrite (Rabs_pos_eq 2) by lra. apply Rle_trans with ((1 + x ^ 2) * (B * (1 + x ^ 2) ^ l)).
      * apply Rmult_le_compat; [apply Rmult_le_pos; [lra|apply Rabs_pos]|apply Rabs_pos| |apply Hb]. pose proof (pow2_ge_0 (x - 1)). pose proof (pow2_ge_0 (x + 1)). unfold Rabs. destruct (Rcase_abs x); lra.
      * replace ((1 + x ^ 2) * (B * (1 + x ^ 2) ^ l)) with (B * (1 + x ^ 2) ^ S l) by (cbn [pow]; ring). apply Rmult_le_compat_l; [exact HB|]. apply Rle_pow; [exact G|lia].
    + rewrite (Rabs_pos_eq 2), (Rabs_pos_eq (INR (S n))) by lra. rewrite (Rmult_assoc (2 * INR (S n))). apply Rmult_le_compat_l; [lra|]. eapply Rle_trans; [apply Ha|]. apply Rmult_le_compat_l; [exact HA|]. apply Rle_pow; [exact G|lia].
Qed.
Lemma hermite_ex_derive n x : ex_derive (hermite n) x.
Proof. eexists. apply hermite_derive. Qed.

(** The integral of H_m H_n exp(-x^2) over [-L, L]. *)
Definition hint (m n : nat) (L : R) : R := RInt (fun x => hermite m x * hermite n x * exp (- x ^ 2)) (- L) L.
Lemma hint_cont m n x : continuous (fun x => hermite m x * hermite n x * exp (- x ^ 2)) x.
Proof.
  apply (@ex_derive_continuous R_AbsRing R_NormedModule). apply @ex_derive_mult; [apply @ex_derive_mult; apply hermite_ex_derive|]. auto_derive. exact I.
Qed.
Lemma hint_ex m n a b : ex_RInt (fun x => hermite m x * hermite n x * exp (- x ^ 2)) a b.
Proof. apply (@ex_RInt_continuous R_CompleteNormedModule). intros x _. apply hint_cont. Qed.
Lemma dmul (f g : R -> R) x df dg : is_derive f x df -> is_derive g x dg -> is_derive (fun x => f x * g x) x (df * g x + f x * dg).
Proof. intros Hf Hg. apply (is_derive_mult f g x df dg Hf Hg). intros; apply Rmult_comm. Qed.
Definition hbnd (m n : nat) (x : R) : R := hermite m x * hermite n x * exp (- x ^ 2).
Lemma hint_rec m n L : hint m (S n) L = (hbnd m n (- L) - hbnd m n L) + 2 * INR m * hint (Nat.pred m) n L.
Proof.
  assert (D : is_RInt (fun x => hermite m x * hermite (S n) x * exp (- x ^ 2) - 2 * INR m * (hermite (Nat.pred m) x * hermite n x * exp (- x ^ 2))) (- L) L
                ((fun x => - hbnd m n x) L - (fun x => - hbnd m n x) (- L))).
  { apply (is_RInt_derive (fun x => - hbnd m n x)).
    - intros x _. replace (hermite m x * hermite (S n) x * exp (- x ^ 2) - 2 * INR m * (hermite (Nat.pred m) x * hermite n x * exp (- x ^ 2)))
        with (- ((2 * INR m * hermite (Nat.pred m) x * hermite n x + hermite m x * (2 * INR n * hermite (Nat.pred n) x)) * exp (- x ^ 2) + hermite m x * hermite n x * (- (2 * x) * exp (- x ^ 2)))).
      + apply (is_derive_opp (hbnd m n)). unfold hbnd. apply (dmul (fun x => hermite m x * hermite n x) (fun x => exp (- x ^ 2))).
        * apply dmul; apply hermite_derive.
        * auto_derive; [exact I|]. change (x * (x * 1)) with (x ^ 2). eqR. ring.
      + rewrite <- (hermite_step n x). eqR. ring.
    - intros x _. apply @continuous_minus; [apply hint_cont|]. apply @continuous_scal_r. apply hint_cont. }
  apply (@is_RInt_unique R_CompleteNormedModule) in D. rewrite ri_minus in D; [|apply hint_ex|apply (@ex_RInt_scal R_NormedModule), hint_ex].
  rewrite ri_scal in D by apply hint_ex. unfold hint. cbv beta in D. lra.
Qed.
Lemma hbnd_0 m n : to_inf (hbnd m n) 0 /\ to_inf (fun x => hbnd m n (- x)) 0.
Proof.
  destruct (hermite_bound m) as (A & k & HA & Ha). destruct (hermite_bound n) as (B & l & HB & Hb).
  assert (G : forall x, Rabs (hbnd m n x) <= A * B * ((1 + x ^ 2) ^ (k + l) * exp (- x ^ 2))).
  { intros x. unfold hbnd. rewrite !Rabs_mult, (Rabs_pos_eq (exp _)) by (left; apply exp_pos). rewrite <- Rmult_assoc. apply Rmult_le_compat_r; [left; apply exp_pos|].
    rewrite pow_add. replace (A * B * ((1 + x ^ 2) ^ k * (1 + x ^ 2) ^ l)) with ((A * (1 + x ^ 2) ^ k) * (B * (1 + x ^ 2) ^ l)) by ring.
    apply Rmult_le_compat; auto using Rabs_pos. }
  assert (Z : to_inf (fun x => A * B * ((1 + x ^ 2) ^ (k + l) * exp (- x ^ 2))) 0).
  { unfold to_inf. replace (Finite 0) with (Rbar_mult (Finite (A * B)) (Finite 0)) by (cbn; f_equal; ring). apply is_lim_scal_l, pow_exp_0. }
  assert (Z' : to_inf (fun x => - (A * B * ((1 + x ^ 2) ^ (k + l) * exp (- x ^ 2)))) 0).
  { unfold to_inf. replace (Finite 0) with (Rbar_opp (Finite 0)) by (cbn; f_equal; ring). apply is_lim_opp, Z. }
  split; eapply is_lim_le_le_loc; [|exact Z'|exact Z| |exact Z'|exact Z]; exists 0; intros x _.
  - pose proof (G x) as Q. apply Rabs_le_between in Q. exact Q.
  - pose proof (G (- x)) as Q. apply Rabs_le_between in Q. replace ((- x) ^ 2) with (x ^ 2) in Q by ring. exact Q.
Qed.
Lemma hint_00 : to_inf (hint 0 0) (sqrt PI).
Proof.
  unfold to_inf. apply (is_lim_ext (fun L => gG L - gG (- L))).
  - intros L. unfold hint, gG. assert (E : ex_RInt (fun t => exp (- t ^ 2)) (- L) 0) by smooth. assert (E' : ex_RInt (fun t => exp (- t ^ 2)) 0 L) by smooth.
    transitivity (RInt (fun t => exp (- t ^ 2)) (- L) L); [|apply RInt_ext; intros x _; rewrite hermite_0; eqR; ring].
    rewrite <- (RInt_Chasles _ _ _ _ E E'). rewrite <- (opp_RInt_swap _ _ _ E). unfold plus, opp; cbn -[pow]. eqR. ring.
  - assert (O : forall L, gG (- L) = - gG L).
    { intros L. unfold gG. assert (E : ex_RInt (fun t => exp (- t ^ 2)) (-1 * 0 + 0) (-1 * L + 0)) by smooth.
      pose proof (RInt_comp_lin (fun t => exp (- t ^ 2)) (-1) 0 0 L E) as H. replace (-1 * 0 + 0) with 0 in H by ring. replace (-1 * L + 0) with (- L) in H by ring. rewrite <- H.
      rewrite <- ri_opp by smooth. apply RInt_ext. intros t _. unfold scal; cbn -[pow]. unfold mult; cbn -[pow]. replace ((-1 * t + 0) ^ 2) with (t ^ 2) by ring. eqR. ring. }
    apply (is_lim_ext (fun L => gG L + gG L)); [intros L; rewrite O; ring|]. replace (sqrt PI) with (sqrt PI / 2 + sqrt PI / 2) by lra.
    apply is_lim_plus'; apply gG_lim.
Qed.
Lemma hint_sym m n L : hint m n L = hint n m L.
Proof. unfold hint. apply RInt_ext. intros x _. eqR. ring. Qed.
Lemma hint_lim n : forall m, to_inf (hint m n) (if Nat.eqb m n then 2 ^ n * INR (fact n) * sqrt PI else 0).
Proof.
  assert (R1 : forall n, to_inf (hint 0 (S n)) 0).
  { intros k. unfold to_inf. apply (is_lim_ext (fun L => hbnd 0 k (- L) - hbnd 0 k L)); [intros L; rewrite hint_rec; cbn [INR]; ring|].
    replace 0 with (0 - 0) by ring. apply is_lim_minus'; apply hbnd_0. }
  induction n as [|n IH]; intros [|m].
  - cbn [Nat.eqb]. replace (2 ^ 0 * INR (fact 0) * sqrt PI) with (sqrt PI) by (cbn; ring). exact hint_00.
  - cbn [Nat.eqb]. unfold to_inf. apply (is_lim_ext (hint 0 (S m))); [intros; apply hint_sym|]. apply R1.
  - exact (R1 n).
  - cbn [Nat.eqb]. unfold to_inf. apply (is_lim_ext (fun L => (hbnd (S m) n (- L) - hbnd (S m) n L) + 2 * INR (S m) * hint m n L)); [intros L; rewrite hint_rec; reflexivity|].
    replace (if Nat.eqb m n then 2 ^ S n * INR (fact (S n)) * sqrt PI else 0) with ((0 - 0) + 2 * INR (S m) * (if Nat.eqb m n then 2 ^ n * INR (fact n) * sqrt PI else 0)).
    + apply is_lim_plus'; [apply is_lim_minus'; apply hbnd_0|]. apply (is_lim_scal_l (hint m n) (2 * INR (S m)) p_infty (Finite _)), IH.
    + destruct (Nat.eqb_spec m n) as [->|]; [|ring]. rewrite fact_simpl, mult_INR. cbn [pow]. ring.
Qed.
