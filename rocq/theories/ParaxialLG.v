(** Laguerre-Gaussian profiles and the paraxial wave equation. *)
From Verif Require Import PyBase CSum NumPy NpMath NpMathProofs EnergyProofs FrequencyProofs AnalyticModel AnalyticProofs LGProofs ParaxialSpec ComplexCalc ParaxialProofs.
From Coq Require Import Arith.Factorial.
From Coquelicot Require Import Coquelicot.
Open Scope R_scope.

(** ** Homogeneous Laguerre polynomials  M(rho, a) = a^p L_p^k(rho / a) *)
Definition lc (p k i : nat) : R := (-1) ^ i * (INR (fact (p + k)) / (INR (fact (p - i)) * INR (fact (k + i)))) / INR (fact i).
Definition Mp (p k : nat) (r a : R) : R := rsum (S p) (fun i => lc p k i * (r ^ i * a ^ (p - i))).
Definition Mp1 (p k : nat) (r a : R) : R := rsum (S p) (fun i => lc p k i * (INR i * r ^ pred i * a ^ (p - i))).
Definition Mp2 (p k : nat) (r a : R) : R := rsum (S p) (fun i => lc p k i * (INR i * (INR (pred i) * r ^ pred (pred i)) * a ^ (p - i))).
Definition Mpa (p k : nat) (r a : R) : R := rsum (S p) (fun i => lc p k i * (r ^ i * (INR (p - i) * a ^ pred (p - i)))).
Lemma fact_neq0 n : INR (fact n) <> 0.
Proof. apply INR_fact_neq_0. Qed.
Lemma Mp_laguerre p k r a : a <> 0 -> Mp p k r a = a ^ p * genlaguerre p k (r / a).
Proof.
  intros Ha. unfold Mp, genlaguerre. rewrite <- rsum_scal_l. apply rsum_ext. intros i Hi. unfold lc.
  replace (a ^ p) with (a ^ i * a ^ (p - i)) by (rewrite <- pow_add; f_equal; lia).
  unfold Rdiv. rewrite Rpow_mult_distr, pow_inv. field. repeat split; try apply fact_neq0. apply pow_nonzero, Ha.
Qed.
Lemma Mp_dr p k r a : is_derive (fun t => Mp p k t a) r (Mp1 p k r a).
Proof.
  unfold Mp, Mp1. apply (der_rsum (S p) (fun i t => lc p k i * (t ^ i * a ^ (p - i)))). intros i Hi. cbn beta.
  eapply der_eq; [apply (der_scal (lc p k i) (fun t => t ^ i * a ^ (p - i))); apply (der_mult (fun t => t ^ i) (fun _ => a ^ (p - i))); [apply (der_pow (fun t => t)), der_id|apply (der_const (a ^ (p - i)))]|].
  cbn beta. ring.
Qed.
Lemma Mp1_dr p k r a : is_derive (fun t => Mp1 p k t a) r (Mp2 p k r a).
Proof.
  unfold Mp1, Mp2. apply (der_rsum (S p) (fun i t => lc p k i * (INR i * t ^ pred i * a ^ (p - i)))). intros i Hi. cbn beta.
  eapply der_eq; [apply (der_scal (lc p k i) (fun t => INR i * t ^ pred i * a ^ (p - i))); apply (der_mult (fun t => INR i * t ^ pred i) (fun _ => a ^ (p - i))); [apply (der_scal (INR i) (fun t => t ^ pred i)), (der_pow (fun t => t)), der_id|apply (der_const (a ^ (p - i)))]|].
  cbn beta. ring.
Qed.
Lemma Mp_da p k r a : is_derive (fun t => Mp p k r t) a (Mpa p k r a).
Proof.
  unfold Mp, Mpa. apply (der_rsum (S p) (fun i t => lc p k i * (r ^ i * t ^ (p - i)))). intros i Hi. cbn beta.
  eapply der_eq; [apply (der_scal (lc p k i) (fun t => r ^ i * t ^ (p - i))); apply (der_scal (r ^ i) (fun t => t ^ (p - i))), (der_pow (fun t => t)), der_id|].
  cbn beta. ring.
Qed.
Lemma lc_step p k j : (j < p)%nat -> lc p k (S j) * (INR (S j) * (INR (S j) + INR k)) = - (INR (p - j) * lc p k j).
Proof.
  intros H. unfold lc. replace (p - j)%nat with (S (p - S j)) by lia. replace (k + S j)%nat with (S (k + j)) by lia.
  rewrite !fact_simpl, !mult_INR. replace (INR (S j) + INR k) with (INR (S (k + j))) by (rewrite !S_INR, plus_INR; ring).
  cbn [pow]. field. repeat split; try apply fact_neq0; apply not_0_INR; lia.
Qed.
(** r M'' + (k+1) M' = sum_j lc_(j+1) (j+1)(j+1+k) r^j a^(p-j-1) *)
Lemma Mp_Q p k r a : r * Mp2 p k r a + (INR k + 1) * Mp1 p k r a = - rsum p (fun j => INR (p - j) * lc p k j * (r ^ j * a ^ (p - S j))).
Proof.
  unfold Mp1, Mp2. rewrite <- !rsum_scal_l, <- rsum_plus. rewrite rsum_first.
  match goal with |- ?A + _ = _ => replace A with 0 by (simpl; ring) end.
  rewrite Rplus_0_l. replace (- rsum p _) with ((-1) * rsum p (fun j => INR (p - j) * lc p k j * (r ^ j * a ^ (p - S j)))) by ring.
  rewrite <- rsum_scal_l. apply rsum_ext. intros j Hj. cbn [pred].
  transitivity (lc p k (S j) * (INR (S j) * (INR (S j) + INR k)) * (r ^ j * a ^ (p - S j))).
  - destruct j as [|j]; [simpl; ring|]. cbn [pred]. rewrite !S_INR. cbn [pow]. ring.
  - rewrite lc_step by exact Hj. ring.
Qed.
Lemma Mp_heat p k r a : Mpa p k r a = - (r * Mp2 p k r a + (INR k + 1) * Mp1 p k r a).
Proof.
  rewrite Mp_Q. unfold Mpa. cbn [rsum]. rewrite Nat.sub_diag. cbn [INR]. rewrite Ropp_involutive.
  replace (lc p k p * (r ^ p * (0 * a ^ pred 0))) with 0 by ring. rewrite Rplus_0_r. apply rsum_ext. intros j Hj.
  replace (pred (p - j)) with (p - S j)%nat by lia. ring.
Qed.
Lemma Mp_ode p k r a : a * (r * Mp2 p k r a + (INR k + 1) * Mp1 p k r a) = r * Mp1 p k r a - INR p * Mp p k r a.
Proof.
  rewrite Mp_Q. unfold Mp, Mp1. rewrite <- !rsum_scal_l, <- rsum_minus.
  replace (a * - rsum p (fun j => INR (p - j) * lc p k j * (r ^ j * a ^ (p - S j)))) with ((- a) * rsum p (fun j => INR (p - j) * lc p k j * (r ^ j * a ^ (p - S j)))) by ring.
  rewrite <- rsum_scal_l. cbn [rsum].
  replace (r * (lc p k p * (INR p * r ^ pred p * a ^ (p - p))) - INR p * (lc p k p * (r ^ p * a ^ (p - p)))) with 0.
  - rewrite Rplus_0_r. apply rsum_ext. intros j Hj. rewrite minus_INR by lia. replace (p - j)%nat with (S (p - S j)) by lia. cbn [pow].
    destruct j as [|j]; [simpl; ring|]. cbn [pred pow]. ring.
  - destruct p as [|p]; [simpl; ring|]. cbn [pred pow]. ring.
Qed.

(** ** Radial factor *)
Definition er (z r : R) : C := cexp (Cmult (RtoC (- r / 2)) (Di z)).
Definition f0 p k z r : C := Cmult (RtoC (Mp p k r (1 + z ^ 2))) (er z r).
Definition f1 p k z r : C := Cmult (Cminus (RtoC (Mp1 p k r (1 + z ^ 2))) (Cmult (Cmult (RtoC (/ 2)) (Di z)) (RtoC (Mp p k r (1 + z ^ 2))))) (er z r).
Definition f2 p k z r : C :=
  Cmult (Cplus (Cminus (RtoC (Mp2 p k r (1 + z ^ 2))) (Cmult (Di z) (RtoC (Mp1 p k r (1 + z ^ 2)))))
               (Cmult (Cmult (Cmult (RtoC (/ 2)) (RtoC (/ 2))) (Cmult (Di z) (Di z))) (RtoC (Mp p k r (1 + z ^ 2))))) (er z r).
Definition fz p k z r : C :=
  Cmult (Cminus (Cmult (RtoC (2 * z)) (RtoC (Mpa p k r (1 + z ^ 2))))
                (Cmult (Cmult (Cmult Ci (RtoC (/ 2 * r))) (Cmult (Di z) (Di z))) (RtoC (Mp p k r (1 + z ^ 2))))) (er z r).
Lemma half2 : Cplus (RtoC (/ 2)) (RtoC (/ 2)) = RtoC 1.
Proof. rewrite <- RtoC_plus. f_equal. field. Qed.
Lemma er_dr z r : is_derive_C (er z) r (Cmult (Copp (Cmult (RtoC (/ 2)) (Di z))) (er z r)).
Proof.
  unfold er. apply (dC_cexp (fun t => Cmult (RtoC (- t / 2)) (Di z))). eapply dC_eq.
  - apply (dC_mult (fun t => RtoC (- t / 2)) (fun _ => Di z)); [apply dC_real|apply dC_const].
    apply (der_mult (fun t => - t) (fun _ => / 2)); [apply (der_opp (fun t => t)), der_id|apply (der_const (/ 2))].
  - cbn beta. replace (- (1) * / 2 + - r * 0) with (- / 2) by field. rewrite RtoC_opp. ring.
Qed.
Lemma er_dz z r : is_derive_C (fun t => er t r) z (Cmult (Copp (Cmult (Cmult Ci (RtoC (/ 2 * r))) (Cmult (Di z) (Di z)))) (er z r)).
Proof.
  unfold er. apply (dC_cexp (fun t => Cmult (RtoC (- r / 2)) (Di t))). eapply dC_eq.
  - apply (dC_scal (RtoC (- r / 2)) Di), Di_dz.
  - replace (- r / 2) with (- (/ 2 * r)) by field. rewrite RtoC_opp. ring.
Qed.
Lemma f0_dr p k z r : is_derive_C (f0 p k z) r (f1 p k z r).
Proof.
  unfold f0. eapply dC_eq; [apply (dC_mult (fun t => RtoC (Mp p k t (1 + z ^ 2))) (er z)); [apply dC_real, Mp_dr|apply er_dr]|]. unfold f1. ring.
Qed.
Lemma f1_dr p k z r : is_derive_C (f1 p k z) r (f2 p k z r).
Proof.
  unfold f1. eapply dC_eq.
  - apply (dC_mult (fun t => Cminus (RtoC (Mp1 p k t (1 + z ^ 2))) (Cmult (Cmult (RtoC (/ 2)) (Di z)) (RtoC (Mp p k t (1 + z ^ 2))))) (er z)); [|apply er_dr].
    apply (dC_plus (fun t => RtoC (Mp1 p k t (1 + z ^ 2))) (fun t => Copp (Cmult (Cmult (RtoC (/ 2)) (Di z)) (RtoC (Mp p k t (1 + z ^ 2)))))); [apply dC_real, Mp1_dr|].
    apply dC_opp, dC_scal, dC_real, Mp_dr.
  - unfold f2. transitivity (Cmult (Cplus (Cminus (RtoC (Mp2 p k r (1 + z ^ 2))) (Cmult (Cmult (Cplus (RtoC (/ 2)) (RtoC (/ 2))) (Di z)) (RtoC (Mp1 p k r (1 + z ^ 2)))))
       (Cmult (Cmult (Cmult (RtoC (/ 2)) (RtoC (/ 2))) (Cmult (Di z) (Di z))) (RtoC (Mp p k r (1 + z ^ 2))))) (er z r)); [ring|]. rewrite half2. ring.
Qed.
Lemma f0_dz p k z r : is_derive_C (fun t => f0 p k t r) z (fz p k z r).
Proof.
  unfold f0. eapply dC_eq.
  - apply (dC_mult (fun t => RtoC (Mp p k r (1 + t ^ 2))) (fun t => er t r)); [|apply er_dz]. apply dC_real.
    apply (der_comp (fun a => Mp p k r a) (fun t => 1 + t ^ 2)); [apply Mp_da|].
    apply (der_plus (fun _ => 1) (fun t => t ^ 2)); [apply (der_const 1)|apply (der_pow (fun t => t)), der_id].
  - unfold fz. cbn beta. replace (0 + INR 2 * 1 * z ^ pred 2) with (2 * z) by (simpl; ring). rewrite (RtoC_mult (2 * z)). ring.
Qed.
Lemma f_paraxial p k z r :
  Cminus (Cplus (Cmult (RtoC (2 * r)) (f2 p k z r)) (Cmult (RtoC (2 * (INR k + 1))) (f1 p k z r))) (Cmult Ci (fz p k z r)) =
  Copp (Cmult (Cmult (RtoC (2 * INR p + INR k + 1)) (Di z)) (f0 p k z r)).
Proof.
  unfold f0, f1, f2, fz. rewrite Mp_heat. set (m0 := Mp p k r (1 + z ^ 2)). set (m1 := Mp1 p k r (1 + z ^ 2)). set (m2 := Mp2 p k r (1 + z ^ 2)).
  pose proof (Mp_ode p k r (1 + z ^ 2)) as Ho. fold m0 m1 m2 in Ho. set (Q := r * m2 + (INR k + 1) * m1) in *.
  apply (f_equal RtoC) in Ho. unfold Rminus in Ho. rewrite RtoC_plus, RtoC_opp, !RtoC_mult in Ho.
  assert (E : Cmult (Cplus (RtoC 1) (Cmult Ci (RtoC z))) (RtoC Q) = Cmult (Di z) (Cminus (Cmult (RtoC r) (RtoC m1)) (Cmult (RtoC (INR p)) (RtoC m0)))).
  { rewrite <- Di_a. unfold Cminus. rewrite <- Ho. ring. }
  assert (EQ : RtoC Q = Cplus (Cmult (RtoC r) (RtoC m2)) (Cmult (Cplus (RtoC (INR k)) (RtoC 1)) (RtoC m1))) by (unfold Q; rewrite RtoC_plus, !RtoC_mult, RtoC_plus; reflexivity).
  assert (Ei : Cmult Ci Ci = Copp (RtoC 1)) by (unfold Cmult, Ci, RtoC, Copp; cbn [fst snd]; f_equal; ring).
  rewrite RtoC_opp, !RtoC_plus, !RtoC_mult, !RtoC_plus.
  pose proof half2 as Hh. set (h := RtoC (/ 2)) in *. rewrite RtoC_2. set (D := Di z) in *. set (e := er z r).
  set (R0 := RtoC r) in *. set (Z0 := RtoC z) in *. set (k0 := RtoC (INR k)) in *. set (p0 := RtoC (INR p)) in *.
  set (q := RtoC Q) in *. set (u0 := RtoC m0) in *. set (u1 := RtoC m1) in *. set (u2 := RtoC m2) in *. set (o := RtoC 1) in *.
  (* collect *)
  transitivity (Cmult (Cplus (Cplus (Cmult (Cplus o o) (Cmult (Cplus o (Cmult Ci Z0)) q))
      (Cmult (Copp (Cplus o o)) (Cmult D (Cmult R0 u1))))
      (Cminus (Cmult (Cmult R0 (Cmult (Cmult D D) u0)) (Cplus (Cmult (Cplus h h) h) (Cmult h (Cmult Ci Ci)))) (Cmult (Cmult (Cplus k0 o) (Cplus h h)) (Cmult D u0)))) e).
  - rewrite EQ. unfold o. ring.
  - rewrite Ei, Hh, E. unfold o. ring.
Qed.

(** ** The corrected profile *)
Definition pos (s x y : R) : C := (x, s * y).
Definition lgv (s : R) (p k : nat) (b2 : R) (z x y : R) : C :=
  Cmult (cpow (pos s x y) k) (Cmult (cpow (Di z) (S (2 * p + k))) (f0 p k z (b2 * (x ^ 2 + y ^ 2)))).
Lemma dC_comp f (g : R -> R) x l m : is_derive_C f (g x) l -> is_derive g x m -> is_derive_C (fun t => f (g t)) x (Cmult (RtoC m) l).
Proof.
  intros (H1 & H2) Hg. split.
  - eapply der_eq; [apply (der_comp (fun s => fst (f s)) g); [exact H1|exact Hg]|]. simpl. ring.
  - eapply der_eq; [apply (der_comp (fun s => snd (f s)) g); [exact H2|exact Hg]|]. simpl. ring.
Qed.
Definition lgx (w : C) (q : R) (s : R) p k b2 z x y : C := (* first derivative along a direction: d pos = w, d rho = 2 b2 q *)
  Cplus (Cmult (Cmult (Cmult (RtoC (INR k)) w) (cpow (pos s x y) (pred k))) (f0 p k z (b2 * (x ^ 2 + y ^ 2))))
        (Cmult (cpow (pos s x y) k) (Cmult (RtoC (2 * b2 * q)) (f1 p k z (b2 * (x ^ 2 + y ^ 2))))).
Definition lgxx (w : C) (q : R) (s : R) p k b2 z x y : C :=
  Cplus (Cplus (Cmult (Cmult (Cmult (Cmult (RtoC (INR k)) w) (Cmult (RtoC (INR (pred k))) w)) (cpow (pos s x y) (pred (pred k)))) (f0 p k z (b2 * (x ^ 2 + y ^ 2))))
    (Cmult (Cmult (Cmult (RtoC 2) (Cmult (Cmult (RtoC (INR k)) w) (cpow (pos s x y) (pred k)))) (RtoC (2 * b2 * q))) (f1 p k z (b2 * (x ^ 2 + y ^ 2)))))
    (Cmult (cpow (pos s x y) k) (Cplus (Cmult (Cmult (RtoC (2 * b2 * q)) (RtoC (2 * b2 * q))) (f2 p k z (b2 * (x ^ 2 + y ^ 2)))) (Cmult (RtoC (2 * b2)) (f1 p k z (b2 * (x ^ 2 + y ^ 2)))))).
Lemma pos_dx s x y : is_derive_C (fun t => pos s t y) x (RtoC 1).
Proof. apply (dC_pair (fun t => t) (fun _ => s * y)); [apply der_id|apply (der_const (s * y))]. Qed.
Lemma pos_dy s x y : is_derive_C (fun t => pos s x t) y (0, s).
Proof. apply (dC_pair (fun _ => x) (fun t => s * t)); [apply (der_const x)|]. eapply der_eq; [apply (der_scal s (fun t => t)), der_id|ring]. Qed.
Lemma rho_dx b2 x y : is_derive (fun t => b2 * (t ^ 2 + y ^ 2)) x (2 * b2 * x).
Proof.
  eapply der_eq; [apply (der_scal b2 (fun t => t ^ 2 + y ^ 2)), (der_plus (fun t => t ^ 2) (fun _ => y ^ 2)); [apply (der_pow (fun t => t)), der_id|apply (der_const (y ^ 2))]|].
  simpl. ring.
Qed.
Lemma rho_dy b2 x y : is_derive (fun t => b2 * (x ^ 2 + t ^ 2)) y (2 * b2 * y).
Proof.
  eapply der_eq; [apply (der_scal b2 (fun t => x ^ 2 + t ^ 2)), (der_plus (fun _ => x ^ 2) (fun t => t ^ 2)); [apply (der_const (x ^ 2))|apply (der_pow (fun t => t)), der_id]|].
  simpl. ring.
Qed.
(** First and second derivatives along a curve with d pos/dt = w constant, d rho/dt = 2 b2 q(t), q' = 1. *)
Lemma dir1 (P : R -> C) (rho : R -> R) p k z t w m : is_derive_C P t w -> is_derive rho t m ->
  is_derive_C (fun s => Cmult (cpow (P s) k) (f0 p k z (rho s))) t
    (Cplus (Cmult (Cmult (Cmult (RtoC (INR k)) w) (cpow (P t) (pred k))) (f0 p k z (rho t))) (Cmult (cpow (P t) k) (Cmult (RtoC m) (f1 p k z (rho t))))).
Proof.
  intros HP Hr. apply (dC_mult (fun s => cpow (P s) k) (fun s => f0 p k z (rho s))); [apply dC_pow, HP|]. apply (dC_comp (f0 p k z) rho); [apply f0_dr|exact Hr].
Qed.
Lemma dir2 (P : R -> C) (rho q : R -> R) b p k z t w : is_derive_C P t w -> is_derive rho t (b * q t) -> is_derive q t 1 ->
  is_derive_C (fun s => Cplus (Cmult (Cmult (Cmult (RtoC (INR k)) w) (cpow (P s) (pred k))) (f0 p k z (rho s))) (Cmult (cpow (P s) k) (Cmult (RtoC (b * q s)) (f1 p k z (rho s))))) t
  (Cplus (Cplus (Cmult (Cmult (Cmult (Cmult (RtoC (INR k)) w) (Cmult (RtoC (INR (pred k))) w)) (cpow (P t) (pred (pred k)))) (f0 p k z (rho t)))
    (Cmult (Cmult (Cmult (RtoC 2) (Cmult (Cmult (RtoC (INR k)) w) (cpow (P t) (pred k)))) (RtoC (b * q t))) (f1 p k z (rho t))))
    (Cmult (cpow (P t) k) (Cplus (Cmult (Cmult (RtoC (b * q t)) (RtoC (b * q t))) (f2 p k z (rho t))) (Cmult (RtoC b) (f1 p k z (rho t)))))).
Proof.
  intros HP Hr Hq. eapply dC_eq.
  - apply (dC_plus (fun s => Cmult (Cmult (Cmult (RtoC (INR k)) w) (cpow (P s) (pred k))) (f0 p k z (rho s))) (fun s => Cmult (cpow (P s) k) (Cmult (RtoC (b * q s)) (f1 p k z (rho s))))).
    + apply (dC_mult (fun s => Cmult (Cmult (RtoC (INR k)) w) (cpow (P s) (pred k))) (fun s => f0 p k z (rho s))); [apply dC_scal, dC_pow, HP|].
      apply (dC_comp (f0 p k z) rho); [apply f0_dr|exact Hr].
    + apply (dC_mult (fun s => cpow (P s) k) (fun s => Cmult (RtoC (b * q s)) (f1 p k z (rho s)))); [apply dC_pow, HP|].
      apply (dC_mult (fun s => RtoC (b * q s)) (fun s => f1 p k z (rho s))); [apply dC_real, (der_scal b q), Hq|].
      apply (dC_comp (f1 p k z) rho); [apply f1_dr|exact Hr].
  - cbn beta. rewrite Rmult_1_r, RtoC_2. ring.
Qed.

Lemma lgv_paraxial s p k w0 l zf : s * s = 1 -> 0 < w0 -> 0 < l ->
  paraxial (2 * PI / l) (fun x y z => lgv s p k (2 / w0 ^ 2) ((zf - z) * (l / (PI * w0 ^ 2))) x y).
Proof.
  intros Hs Hw Hl. pose proof PI_RGT_0 as HP. set (b2 := 2 / w0 ^ 2). set (b := l / (PI * w0 ^ 2)). set (ze := fun z => (zf - z) * b).
  set (N := (2 * p + k)%nat). set (PD := fun z => cpow (Di (ze z)) (S N)).
  exists (fun x y z => Cmult (PD z) (lgx (RtoC 1) x s p k b2 (ze z) x y)).
  exists (fun x y z => Cmult (PD z) (lgxx (RtoC 1) x s p k b2 (ze z) x y)).
  exists (fun x y z => Cmult (PD z) (lgx (0, s) y s p k b2 (ze z) x y)).
  exists (fun x y z => Cmult (PD z) (lgxx (0, s) y s p k b2 (ze z) x y)).
  exists (fun x y z => Cmult (RtoC (- b)) (Cmult (cpow (pos s x y) k) (Cplus
     (Cmult (Cmult (Cmult (RtoC (INR (S N))) Ci) (cpow (Di (ze z)) (S (S N)))) (f0 p k (ze z) (b2 * (x ^ 2 + y ^ 2))))
     (Cmult (PD z) (fz p k (ze z) (b2 * (x ^ 2 + y ^ 2))))))).
  assert (Hre : forall x y z, Cmult (PD z) (Cmult (cpow (pos s x y) k) (f0 p k (ze z) (b2 * (x ^ 2 + y ^ 2)))) = lgv s p k b2 (ze z) x y).
  { intros x y z. unfold lgv, PD. fold N. ring. }
  split; [|split; [|split; [|split; [|split]]]]; intros x y z.
  - eapply dC_ext; [intros t; apply Hre|]. apply dC_scal. unfold lgx.
    apply (dir1 (fun t => pos s t y) (fun t => b2 * (t ^ 2 + y ^ 2))); [apply pos_dx|apply rho_dx].
  - apply dC_scal. unfold lgx, lgxx. apply (dir2 (fun t => pos s t y) (fun t => b2 * (t ^ 2 + y ^ 2)) (fun t => t)); [apply pos_dx|apply rho_dx|apply der_id].
  - eapply dC_ext; [intros t; apply Hre|]. apply dC_scal. unfold lgx.
    apply (dir1 (fun t => pos s x t) (fun t => b2 * (x ^ 2 + t ^ 2))); [apply pos_dy|apply rho_dy].
  - apply dC_scal. unfold lgx, lgxx. apply (dir2 (fun t => pos s x t) (fun t => b2 * (x ^ 2 + t ^ 2)) (fun t => t)); [apply pos_dy|apply rho_dy|apply der_id].
  - apply (dC_affine (fun t => lgv s p k b2 t x y) b zf z). unfold lgv. apply dC_scal.
    apply (dC_mult (fun t => cpow (Di t) (S N)) (fun t => f0 p k t (b2 * (x ^ 2 + y ^ 2)))); [apply Dpow_dz|apply f0_dz].
  - cbv beta. set (zz := ze z). assert (EP : PD z = cpow (Di zz) (S N)) by reflexivity. rewrite EP. cbn [cpow]. set (D := Di zz). set (DN := cpow D N).
    pose proof (f_paraxial p k zz (b2 * (x ^ 2 + y ^ 2))) as G. fold D in G. unfold lgxx.
    set (F0 := f0 p k zz _) in *. set (F1 := f1 p k zz _) in *. set (F2 := f2 p k zz _) in *. set (Fz := fz p k zz _) in *.
    assert (Ek : Cmult (Cmult (RtoC (2 * (2 * PI / l))) Ci) (RtoC (- b)) = Copp (Cmult (RtoC (2 * b2)) Ci)).
    { unfold b, b2, Cmult, Copp, Ci, RtoC; cbn [fst snd]. f_equal; field; repeat split; lra. }
    rewrite (Cmult_assoc (Cmult (RtoC (2 * (2 * PI / l))) Ci)), Ek.
    assert (Ew : Cmult (0, s) (0, s) = Copp (RtoC 1)).
    { unfold Cmult, Copp, RtoC; cbn [fst snd]. f_equal; [rewrite Hs; ring|ring]. }
    assert (Ei : Cmult Ci Ci = Copp (RtoC 1)) by (unfold Cmult, Ci, RtoC, Copp; cbn [fst snd]; f_equal; ring).
    assert (Epos : Cplus (RtoC x) (Cmult (0, s) (RtoC y)) = pos s x y) by (unfold pos, Cplus, Cmult, RtoC; cbn [fst snd]; f_equal; ring).
    assert (EN : RtoC (INR (S N)) = RtoC (2 * INR p + INR k + 1)) by (f_equal; unfold N; rewrite S_INR, plus_INR, mult_INR; simpl; ring).
    rewrite EN.
    assert (Ec : Cmult (RtoC (INR k)) (Cmult (cpow (pos s x y) (pred k)) (pos s x y)) = Cmult (RtoC (INR k)) (cpow (pos s x y) k)).
    { destruct k as [|k']; [simpl; ring|]. cbn [pred cpow]. ring. }
    set (W := (0, s)) in *. set (P0 := cpow (pos s x y) k) in *. set (P1 := cpow (pos s x y) (pred k)) in *. set (P2 := cpow (pos s x y) (pred (pred k))) in *.
    set (kk := RtoC (INR k)) in *. set (k1 := RtoC (INR (pred k))).
    set (TN := RtoC (2 * INR p + INR k + 1)) in *.
    rewrite !RtoC_mult, RtoC_plus in G. replace (x ^ 2) with (x * x) in G by ring. replace (y ^ 2) with (y * y) in G by ring. rewrite !RtoC_mult, RtoC_plus in G. fold kk in G.
    rewrite !RtoC_mult. rewrite RtoC_2 in *. set (B := RtoC b2) in *. set (X := RtoC x) in *. set (Y := RtoC y) in *. set (o := RtoC 1) in *.
    (* sum of the second derivatives *)
    transitivity (Cmult (Cmult D DN) (Cplus
       (Cplus (Cmult (Cmult (Cmult kk k1) (Cmult P2 F0)) (Cplus o (Cmult W W)))
              (Cmult (Cmult (Cmult (Cplus o o) (Cplus o o)) (Cmult B F1)) (Cmult kk (Cmult P1 (Cplus X (Cmult W Y))))))
       (Cplus (Cmult P0 (Cplus (Cmult (Cmult (Cmult (Cplus o o) (Cplus o o)) (Cmult B B)) (Cmult (Cplus (Cmult X X) (Cmult Y Y)) F2)) (Cmult (Cmult (Cmult (Cplus o o) (Cplus o o)) B) F1)))
              (Cminus (Cmult (Cmult (Cmult (Cplus o o) B) P0) (Cmult (Cmult TN D) (Cmult (Copp (Cmult Ci Ci)) F0))) (Cmult (Cmult (Cmult (Cplus o o) B) P0) (Cmult Ci Fz)))))).
    + unfold o. ring.
    + rewrite Ew, Ei, Epos, Ec.
      transitivity (Cmult (Cmult (Cmult D DN) (Cmult (Cmult (Cplus o o) B) P0)) (Cplus (Cmult (Cmult TN D) F0)
        (Cminus (Cplus (Cmult (Cmult (Cplus o o) (Cmult B (Cplus (Cmult X X) (Cmult Y Y)))) F2) (Cmult (Cmult (Cplus o o) (Cplus kk o)) F1)) (Cmult Ci Fz)))).
      * unfold o. ring.
      * rewrite G. unfold o. ring.
Qed.

(** ** The profile as coded *)
Definition lg_sign (m : Z) : R := if Z.ltb 0 m then - (1) else 1.
Definition lg_corr (m : Z) (z : R) : C :=
  Cmult (RtoC (Cmod (dd z) ^ Z.abs_nat m)) (cis ((INR (Z.abs_nat m) - IZR m) * angle (dd z))).
Lemma lg_sign_sq m : lg_sign m * lg_sign m = 1.
Proof. unfold lg_sign. destruct (Z.ltb 0 m); ring. Qed.
Lemma lg_form w0 p m z x y : 0 < w0 -> lg_trans_at w0 p m z x y = Cmult (lg_corr m z) (lgv (lg_sign m) p (Z.abs_nat m) (2 / w0 ^ 2) z x y).
Proof.
  intros Hw. rewrite lg_split. unfold lg_radial, lgv, lg_corr. fold (dd z). cbv zeta. set (k := Z.abs_nat m).
  assert (Ep : (if Z.ltb 0 m then ((x, - y) : C) else ((x, y) : C)) = pos (lg_sign m) x y).
  { unfold pos, lg_sign. destruct (Z.ltb 0 m); f_equal; ring. }
  rewrite Ep, cexp_gouy, gauss_exp_Di by lra. pose proof (Cmod_dd_pos z) as Hm.
  replace (- (IZR (2 * Z.of_nat p + m) * angle (dd z))) with ((INR k - IZR m) * angle (dd z) + - (INR (2 * p + k) * angle (dd z))).
  2:{ rewrite plus_IZR, mult_IZR, <- INR_IZR_INZ, plus_INR, mult_INR. simpl (INR 2). ring. }
  rewrite cis_plus, cis_gouy. unfold f0, er. rewrite <- Cmod_dd_sq. rewrite Mp_laguerre by (apply pow_nonzero; lra).
  replace (2 * (x ^ 2 + y ^ 2) / (w0 * Cmod (dd z)) ^ 2) with (2 / w0 ^ 2 * (x ^ 2 + y ^ 2) / Cmod (dd z) ^ 2) by (field; split; lra).
  replace (- (2 / w0 ^ 2 * (x ^ 2 + y ^ 2)) / 2) with (- (x ^ 2 + y ^ 2) / w0 ^ 2) by (field; lra).
  rewrite (RtoC_mult ((Cmod (dd z) ^ 2) ^ p)). rewrite <- pow_mult. rewrite (pow_add (Cmod (dd z))), (RtoC_mult (Cmod (dd z) ^ (2 * p))).
  cbn [cpow]. unfold Cdiv. rewrite Cmult_1_l. fold (Di z). ring.
Qed.
Lemma Cmod_lg_corr m z : Cmod (lg_corr m z) = sqrt (1 + z ^ 2) ^ Z.abs_nat m.
Proof.
  unfold lg_corr. rewrite Cmod_mult, Cmod_cis, Cmod_R, Rmult_1_r. pose proof (Cmod_ge_0 (dd z)). rewrite Rabs_pos_eq by (apply pow_le; assumption).
  f_equal. apply Cmod_dfac.
Qed.
Lemma lg_corr_0 z : lg_corr 0 z = RtoC 1.
Proof. unfold lg_corr. cbn [Z.abs_nat pow INR]. replace ((0 - 0) * angle (dd z)) with 0 by ring. rewrite cis_0. ring. Qed.

(** C58, m = 0: the profile itself solves the equation. *)
Lemma lg0_paraxial w0 p l zf : 0 < w0 -> 0 < l ->
  paraxial (2 * PI / l) (fun x y z => lg_trans_at w0 p 0 ((zf - z) * (l / (PI * w0 ^ 2))) x y).
Proof.
  intros Hw Hl. eapply paraxial_ext; [|apply (lgv_paraxial (lg_sign 0) p 0 w0 l zf (lg_sign_sq 0) Hw Hl)].
  intros x y z. cbn beta. rewrite lg_form, lg_corr_0 by exact Hw. cbn [Z.abs_nat]. ring.
Qed.
(** Any m: up to a factor that depends on z only. *)
Lemma lg_paraxial_upto w0 p m l zf : 0 < w0 -> 0 < l ->
  exists (c : R -> C) v, paraxial (2 * PI / l) v /\ c zf = RtoC 1 /\
    (forall z, Cmod (c z) = sqrt (1 + ((zf - z) * (l / (PI * w0 ^ 2))) ^ 2) ^ Z.abs_nat m) /\
    forall x y z, lg_trans_at w0 p m ((zf - z) * (l / (PI * w0 ^ 2))) x y = Cmult (c z) (v x y z).
Proof.
  intros Hw Hl. exists (fun z => lg_corr m ((zf - z) * (l / (PI * w0 ^ 2)))). eexists. split; [apply (lgv_paraxial (lg_sign m) p (Z.abs_nat m) w0 l zf (lg_sign_sq m) Hw Hl)|].
  split; [|split].
  - replace ((zf - zf) * (l / (PI * w0 ^ 2))) with 0 by ring. unfold lg_corr.
    assert (Ed : dd 0 = RtoC 1) by (unfold dd, RtoC; f_equal; ring). rewrite Ed, Cmod_1, pow1.
    assert (E2 : angle (RtoC 1) = 0). { rewrite <- (angle_unique 1 0); [f_equal; rewrite cis_0; ring|lra|pose proof PI_RGT_0; lra]. }
    rewrite E2, Rmult_0_r, cis_0. ring.
  - intros z. apply Cmod_lg_corr.
  - intros x y z. cbn beta. apply lg_form, Hw.
Qed.
(** If c(z) v and v both solve the equation, c is constant where v does not vanish. *)
Lemma paraxial_factor k (c : R -> C) v c' x y z : k <> 0 -> paraxial k v -> paraxial k (fun x y z => Cmult (c z) (v x y z)) ->
  is_derive_C c z c' -> Cmult c' (v x y z) = RtoC 0.
Proof.
  intros Hk (vx & vxx & vy & vyy & vz & V1 & V2 & V3 & V4 & V5 & V6) (ux & uxx & uy & uyy & uz & U1 & U2 & U3 & U4 & U5 & U6) Hc.
  assert (E1 : forall x y z, ux x y z = Cmult (c z) (vx x y z)) by (intros; eapply dC_unique; [apply U1|apply dC_scal, V1]).
  assert (E3 : forall x y z, uy x y z = Cmult (c z) (vy x y z)) by (intros; eapply dC_unique; [apply U3|apply dC_scal, V3]).
  assert (E2 : uxx x y z = Cmult (c z) (vxx x y z)).
  { eapply dC_unique; [apply U2|]. eapply dC_ext; [intros t; symmetry; apply E1|]. apply dC_scal, V2. }
  assert (E4 : uyy x y z = Cmult (c z) (vyy x y z)).
  { eapply dC_unique; [apply U4|]. eapply dC_ext; [intros t; symmetry; apply E3|]. apply dC_scal, V4. }
  assert (E5 : uz x y z = Cplus (Cmult c' (v x y z)) (Cmult (c z) (vz x y z))).
  { eapply dC_unique; [apply U5|]. apply (dC_mult c (fun t => v x y t)); [exact Hc|apply V5]. }
  pose proof (U6 x y z) as H. rewrite E2, E4, E5 in H. pose proof (V6 x y z) as H'.
  assert (X : Cmult (Cmult (RtoC (2 * k)) Ci) (Cmult c' (v x y z)) = RtoC 0).
  { rewrite <- H. transitivity (Cplus (Cmult (Cmult (RtoC (2 * k)) Ci) (Cmult c' (v x y z))) (Cmult (c z) (RtoC 0))); [ring|]. rewrite <- H'. ring. }
  apply Cmult_integral in X as [X|X]; [|exact X]. exfalso. apply Hk. apply (f_equal snd) in X. simpl in X. lra.
Qed.
(** REFUTED for m > 0: the factor (w0/w)^m is missing, so that the profile does not evolve like a beam. *)
Lemma lg_not_paraxial w0 m l zf : 0 < w0 -> 0 < l -> (0 < m)%Z ->
  ~ paraxial (2 * PI / l) (fun x y z => lg_trans_at w0 0 m ((zf - z) * (l / (PI * w0 ^ 2))) x y).
Proof.
  intros Hw Hl Hm H. pose proof PI_RGT_0 as HP. set (b := l / (PI * w0 ^ 2)) in *.
  assert (Hb : 0 < b) by (unfold b; apply Rdiv_lt_0_compat; [lra|]; apply Rmult_lt_0_compat; [lra|apply pow_lt; lra]).
  set (k := Z.abs_nat m). assert (Hk : (1 <= k)%nat) by (unfold k; lia).
  set (v := fun x y z => lgv (lg_sign m) 0 k (2 / w0 ^ 2) ((zf - z) * b) x y).
  set (c := fun z => RtoC (sqrt (1 + ((zf - z) * b) ^ 2) ^ k)).
  assert (Hcv : forall x y z, lg_trans_at w0 0 m ((zf - z) * b) x y = Cmult (c z) (v x y z)).
  { intros x y z. rewrite lg_form by exact Hw. unfold v, c. fold k. f_equal. unfold lg_corr. fold k.
    replace ((INR k - IZR m) * angle (dd ((zf - z) * b))) with 0 by (unfold k; rewrite INR_abs_nat by exact Hm; ring). rewrite cis_0, Cmult_1_r.
    do 2 f_equal. apply Cmod_dfac. }
  set (z1 := zf - / b). assert (Ez : (zf - z1) * b = 1) by (unfold z1; field; lra).
  assert (Hs : 0 < sqrt (1 + 1 ^ 2)) by (apply sqrt_lt_R0; lra).
  assert (Hc : exists c', is_derive_C c z1 (RtoC c') /\ c' <> 0).
  { eexists. split.
    - apply dC_real. apply (der_pow (fun z => sqrt (1 + ((zf - z) * b) ^ 2))).
      apply (der_comp sqrt (fun z => 1 + ((zf - z) * b) ^ 2)).
      + cbn beta. rewrite Ez. apply (is_derive_sqrt (fun t => t) (1 + 1 ^ 2) 1); [apply der_id|clear; cbn; lra].
      + apply (der_plus (fun _ => 1) (fun z => ((zf - z) * b) ^ 2)); [apply (der_const 1)|]. apply (der_pow (fun z => (zf - z) * b)).
        apply (der_mult (fun t => zf - t) (fun _ => b)); [apply (der_minus (fun _ => zf) (fun t => t)); [apply (der_const zf)|apply der_id]|apply (der_const b)].
    - cbn beta. rewrite Ez. cbn [pred]. repeat apply Rmult_integral_contrapositive_currified.
      + apply not_0_INR. lia.
      + replace (0 + INR 2 * ((0 - 1) * b + (zf - z1) * 0) * 1 ^ 1) with (- (2 * b)) by (simpl; ring). lra.
      + apply R1_neq_R0.
      + apply Rinv_neq_0_compat. lra.
      + apply pow_nonzero. lra. }
  destruct Hc as (c' & Hc & Hn).
  assert (Hz : Cmult (RtoC c') (v 1 0 z1) = RtoC 0).
  { apply (paraxial_factor (2 * PI / l) c v (RtoC c') 1 0 z1).
    - apply Rgt_not_eq, Rdiv_lt_0_compat; lra.
    - apply (lgv_paraxial (lg_sign m) 0 k w0 l zf (lg_sign_sq m) Hw Hl).
    - eapply paraxial_ext; [|exact H]. intros; apply Hcv.
    - exact Hc. }
  apply Cmult_integral in Hz as [Hz|Hz]; [apply RtoC_inj in Hz; contradiction|]. revert Hz. unfold v, lgv. rewrite Ez.
  assert (Hpow : forall w n, w <> RtoC 0 -> cpow w n <> RtoC 0).
  { intros w n Hw0. induction n; cbn [cpow]; [apply RtoC_neq0; lra|apply Cmult_neq_0; assumption]. }
  assert (HD : Di 1 <> RtoC 0).
  { intros E. pose proof (Di_dd 1) as X. rewrite E in X. rewrite Cmult_0_l in X. apply RtoC_inj in X. lra. }
  generalize (cexp_neq0 (Cmult (RtoC (- (2 / w0 ^ 2 * (1 ^ 2 + 0 ^ 2)) / 2)) (Di 1))). intros He.
  assert (HM : RtoC (Mp 0 k (2 / w0 ^ 2 * (1 ^ 2 + 0 ^ 2)) (1 + 1 ^ 2)) <> RtoC 0).
  { unfold Mp. cbn [rsum]. apply RtoC_neq0. unfold lc. cbn [Nat.add Nat.sub pow fact].
    replace (k + 0)%nat with k by lia. simpl (INR 1). replace (0 + _) with 1; [lra|]. field. apply fact_neq0. }
  assert (HP1 : cpow (pos (lg_sign m) 1 0) k <> RtoC 0).
  { apply Hpow. unfold pos. intros E. apply (f_equal fst) in E. simpl in E. lra. }
  pose proof (Hpow _ (S (2 * 0 + k)) HD) as HP2.
  intros E. apply Cmult_integral in E as [E|E]; [exact (HP1 E)|].
  apply Cmult_integral in E as [E|E]; [exact (HP2 E)|]. unfold f0 in E.
  apply Cmult_integral in E as [E|E]; [exact (HM E)|exact (He E)].
Qed.

(** ** C58: the statements about the profile classes.  u z is the profile constructed with z_foc = zf - z. *)
Lemma zfoc_family (w0 l zf z : R) : (zf - z) * l / (PI * w0 ^ 2) = (zf - z) * (l / (PI * w0 ^ 2)).
Proof. unfold Rdiv. ring. Qed.
Lemma c58_gaussian w0 l zf (u : R -> R -> R -> C) : 0 < w0 -> 0 < l -> (forall z, gaussian_transverse w0 (Some l) (zf - z) = Ok (u z)) ->
  paraxial (2 * PI / l) (fun x y z => u z x y).
Proof.
  intros Hw Hl H. eapply paraxial_ext; [|apply (gauss_paraxial w0 l zf Hw Hl)]. intros x y z. cbn beta. specialize (H z).
  unfold gaussian_transverse in H. rewrite z_foc_ok in H. cbn [bind] in H. rewrite zfoc_family in H. injection H as <-. reflexivity.
Qed.
Lemma c58_hermite w0 nx ny l zf (u : R -> R -> R -> C) : 0 < w0 -> 0 < l -> (forall z, hg_transverse w0 nx ny (Some l) (zf - z) = Ok (u z)) ->
  paraxial (2 * PI / l) (fun x y z => u z x y).
Proof.
  intros Hw Hl H. eapply paraxial_ext; [|apply (hg_paraxial w0 nx ny l zf Hw Hl)]. intros x y z. cbn beta. specialize (H z).
  unfold hg_transverse in H. rewrite z_foc_ok in H. cbn [bind] in H. rewrite zfoc_family in H. injection H as <-. reflexivity.
Qed.
Lemma lg_family w0 p m l zf (u : R -> R -> R -> C) : (forall z, lg_transverse w0 p m (Some l) (zf - z) = Ok (u z)) ->
  forall x y z, lg_trans_at w0 p m ((zf - z) * (l / (PI * w0 ^ 2))) x y = u z x y.
Proof.
  intros H x y z. specialize (H z).
  unfold lg_transverse in H. rewrite z_foc_ok in H. cbn [bind] in H. rewrite zfoc_family in H. injection H as <-. reflexivity.
Qed.
Lemma c58_laguerre w0 p l zf (u : R -> R -> R -> C) : 0 < w0 -> 0 < l -> (forall z, lg_transverse w0 p 0 (Some l) (zf - z) = Ok (u z)) ->
  paraxial (2 * PI / l) (fun x y z => u z x y).
Proof. intros Hw Hl H. eapply paraxial_ext; [apply (lg_family _ _ _ _ _ _ H)|apply (lg0_paraxial w0 p l zf Hw Hl)]. Qed.
Lemma c58_laguerre_upto w0 p m l zf (u : R -> R -> R -> C) : 0 < w0 -> 0 < l -> (forall z, lg_transverse w0 p m (Some l) (zf - z) = Ok (u z)) ->
  exists (c : R -> C) v, paraxial (2 * PI / l) v /\ c zf = RtoC 1 /\
    (forall z, Cmod (c z) = sqrt (1 + ((zf - z) * (l / (PI * w0 ^ 2))) ^ 2) ^ Z.abs_nat m) /\
    forall x y z, u z x y = Cmult (c z) (v x y z).
Proof.
  intros Hw Hl H. destruct (lg_paraxial_upto w0 p m l zf Hw Hl) as (c & v & Hv & H1 & H2 & H3). exists c, v.
  split; [exact Hv|]. split; [exact H1|]. split; [exact H2|]. intros x y z. rewrite <- H3. symmetry. apply (lg_family _ _ _ _ _ _ H).
Qed.
Lemma c58_refuted w0 m l zf (u : R -> R -> R -> C) : 0 < w0 -> 0 < l -> (0 < m)%Z -> (forall z, lg_transverse w0 0 m (Some l) (zf - z) = Ok (u z)) ->
  ~ paraxial (2 * PI / l) (fun x y z => u z x y).
Proof.
  intros Hw Hl Hm H X. apply (lg_not_paraxial w0 m l zf Hw Hl Hm). eapply paraxial_ext; [|exact X]. intros x y z. symmetry. apply (lg_family _ _ _ _ _ _ H).
Qed.
