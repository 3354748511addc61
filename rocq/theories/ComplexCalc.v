(** Derivatives of complex-valued functions of a real variable. *)
From Verif Require Import PyBase CSum AnalyticModel ParaxialSpec.
From Coquelicot Require Import Coquelicot.
Open Scope R_scope.

Lemma der_eq (f : R -> R) (x l l' : R) : is_derive f x l -> l = l' -> is_derive f x l'.
Proof. intros H <-. exact H. Qed.
Lemma der_const (c : R) x : is_derive (fun _ => c) x 0.
Proof. apply (is_derive_const c x). Qed.
Lemma der_id x : is_derive (fun t : R => t) x 1.
Proof. apply (is_derive_id x). Qed.
Lemma der_plus (f g : R -> R) (x a b : R) : is_derive f x a -> is_derive g x b -> is_derive (fun t => f t + g t) x (a + b).
Proof. intros. apply (is_derive_plus f g x a b); assumption. Qed.
Lemma der_minus (f g : R -> R) (x a b : R) : is_derive f x a -> is_derive g x b -> is_derive (fun t => f t - g t) x (a - b).
Proof. intros. apply (is_derive_minus f g x a b); assumption. Qed.
Lemma der_opp (f : R -> R) (x a : R) : is_derive f x a -> is_derive (fun t => - f t) x (- a).
Proof. intros. apply (is_derive_opp f x a); assumption. Qed.
Lemma der_mult (f g : R -> R) (x a b : R) : is_derive f x a -> is_derive g x b -> is_derive (fun t => f t * g t) x (a * g x + f x * b).
Proof. intros H1 H2. apply (is_derive_mult f g x a b H1 H2). intros n m. apply Rmult_comm. Qed.
Lemma der_scal c (f : R -> R) (x a : R) : is_derive f x a -> is_derive (fun t => c * f t) x (c * a).
Proof. intros H. eapply der_eq; [apply der_mult; [apply der_const|exact H]|]. cbn beta. ring. Qed.
Lemma der_comp (f g : R -> R) (x a b : R) : is_derive f (g x) a -> is_derive g x b -> is_derive (fun t => f (g t)) x (b * a).
Proof. intros H1 H2. apply (is_derive_comp f g x a b H1 H2). Qed.
Lemma der_inv (f : R -> R) (x a : R) : is_derive f x a -> f x <> 0 -> is_derive (fun t => / f t) x (- a / f x ^ 2).
Proof. intros H Hn. apply (is_derive_inv f x a H Hn). Qed.
Lemma der_pow (f : R -> R) (x a : R) n : is_derive f x a -> is_derive (fun t => f t ^ n) x (INR n * a * f x ^ pred n).
Proof. intros H. apply is_derive_pow, H. Qed.
Lemma der_exp (f : R -> R) (x a : R) : is_derive f x a -> is_derive (fun t => exp (f t)) x (a * exp (f x)).
Proof. intros H. apply (der_comp exp f x (exp (f x)) a); [apply is_derive_exp|exact H]. Qed.
Lemma der_cos (f : R -> R) (x a : R) : is_derive f x a -> is_derive (fun t => cos (f t)) x (a * - sin (f x)).
Proof. intros H. apply (der_comp cos f x (- sin (f x)) a); [apply is_derive_cos|exact H]. Qed.
Lemma der_sin (f : R -> R) (x a : R) : is_derive f x a -> is_derive (fun t => sin (f t)) x (a * cos (f x)).
Proof. intros H. apply (der_comp sin f x (cos (f x)) a); [apply is_derive_sin|exact H]. Qed.
Lemma der_rsum n (f : nat -> R -> R) (l : nat -> R) x : (forall i, (i < n)%nat -> is_derive (f i) x (l i)) ->
  is_derive (fun t => rsum n (fun i => f i t)) x (rsum n l).
Proof.
  induction n; intros H; cbn [rsum]; [apply der_const|]. apply der_plus; [apply IHn; intros; apply H; lia|apply H; lia].
Qed.

Lemma dC_eq f x l l' : is_derive_C f x l -> l = l' -> is_derive_C f x l'.
Proof. intros H <-. exact H. Qed.
Lemma dC_ext f g x l : (forall t, f t = g t) -> is_derive_C f x l -> is_derive_C g x l.
Proof. intros E (H1 & H2). split; [apply (is_derive_ext (fun t => fst (f t)))|apply (is_derive_ext (fun t => snd (f t)))]; try assumption; intros t; rewrite E; reflexivity. Qed.
Lemma dC_const c x : is_derive_C (fun _ => c) x (RtoC 0).
Proof. split; cbn [RtoC fst snd]; [apply (der_const (fst c))|apply (der_const (snd c))]. Qed.
Lemma dC_real (f : R -> R) (x l : R) : is_derive f x l -> is_derive_C (fun t => RtoC (f t)) x (RtoC l).
Proof. intros H. split; [exact H|apply (der_const 0)]. Qed.
Lemma dC_imag (f : R -> R) (x l : R) : is_derive f x l -> is_derive_C (fun t => (0, f t)) x (0, l).
Proof. intros H. split; [apply (der_const 0)|exact H]. Qed.
Lemma dC_pair (f g : R -> R) (x l m : R) : is_derive f x l -> is_derive g x m -> is_derive_C (fun t => (f t, g t)) x (l, m).
Proof. intros. split; assumption. Qed.
Lemma dC_plus f g x a b : is_derive_C f x a -> is_derive_C g x b -> is_derive_C (fun t => Cplus (f t) (g t)) x (Cplus a b).
Proof. intros (H1 & H2) (G1 & G2). split; apply der_plus; assumption. Qed.
Lemma dC_opp f x a : is_derive_C f x a -> is_derive_C (fun t => Copp (f t)) x (Copp a).
Proof. intros (H1 & H2). split; apply der_opp; assumption. Qed.
Lemma dC_mult f g x a b : is_derive_C f x a -> is_derive_C g x b -> is_derive_C (fun t => Cmult (f t) (g t)) x (Cplus (Cmult a (g x)) (Cmult (f x) b)).
Proof.
  intros (H1 & H2) (G1 & G2). split; cbn [Cmult Cplus fst snd].
  - eapply der_eq; [apply der_minus; apply der_mult; eassumption|]. cbn beta. ring.
  - eapply der_eq; [apply der_plus; apply der_mult; eassumption|]. cbn beta. ring.
Qed.
Lemma dC_scal c f x a : is_derive_C f x a -> is_derive_C (fun t => Cmult c (f t)) x (Cmult c a).
Proof. intros H. eapply dC_eq; [apply dC_mult; [apply dC_const|exact H]|]. cbn beta. ring. Qed.
Lemma dC_cexp f x a : is_derive_C f x a -> is_derive_C (fun t => cexp (f t)) x (Cmult a (cexp (f x))).
Proof.
  intros (H1 & H2). unfold cexp, cis, Re, Im. split; cbn [Cmult RtoC fst snd].
  - eapply der_eq; [apply der_minus; [apply der_mult; [apply der_exp; exact H1|apply der_cos; exact H2]|apply der_mult; [apply der_const|apply der_sin; exact H2]]|].
    cbn beta. ring.
  - eapply der_eq; [apply der_plus; [apply der_mult; [apply der_exp; exact H1|apply der_sin; exact H2]|apply der_mult; [apply der_const|apply der_cos; exact H2]]|].
    cbn beta. ring.
Qed.
Lemma dC_pow f x a n : is_derive_C f x a -> is_derive_C (fun t => cpow (f t) n) x (Cmult (Cmult (RtoC (INR n)) a) (cpow (f x) (pred n))).
Proof.
  intros H. induction n as [|n IH]; cbn [cpow].
  - eapply dC_eq; [apply dC_const|]. simpl. ring.
  - eapply dC_eq; [apply dC_mult; [exact H|exact IH]|]. cbn beta. cbn [pred]. rewrite S_INR, RtoC_plus.
    destruct n as [|n]; cbn [pred cpow]; [simpl; ring|]. ring.
Qed.
Lemma dC_inv f x a : is_derive_C f x a -> f x <> RtoC 0 -> is_derive_C (fun t => Cinv (f t)) x (Copp (Cmult a (Cmult (Cinv (f x)) (Cinv (f x))))).
Proof.
  intros (H1 & H2) Hn.
  assert (Hd : fst (f x) ^ 2 + snd (f x) ^ 2 <> 0).
  { intros E. apply Hn. assert (E1 : fst (f x) = 0) by nra. assert (E2 : snd (f x) = 0) by nra. apply injective_projections; assumption. }
  assert (Hm : is_derive (fun t => fst (f t) ^ 2 + snd (f t) ^ 2) x (2 * (fst a * fst (f x) + snd a * snd (f x)))).
  { eapply der_eq; [apply der_plus; apply der_pow; eassumption|]. cbn [pred pow INR]. ring. }
  pose proof (der_inv _ _ _ Hm Hd) as Hi. cbn beta in Hi. unfold Cinv. split; cbn [fst snd].
  - unfold Rdiv. eapply der_eq; [apply der_mult; [exact H1|exact Hi]|]. cbn [Copp Cmult fst snd]. field. exact Hd.
  - unfold Rdiv. eapply der_eq; [apply der_mult; [apply der_opp; exact H2|exact Hi]|]. cbn [Copp Cmult fst snd]. field. exact Hd.
Qed.
Lemma dC_unique f x a b : is_derive_C f x a -> is_derive_C f x b -> a = b.
Proof. intros (H1 & H2) (G1 & G2). apply is_derive_unique in H1, H2, G1, G2. apply injective_projections; congruence. Qed.
