(** Gaussian and Hermite-Gaussian profiles solve the paraxial wave equation. *)
From Verif Require Import PyBase CSum NumPy NpMath NpMathProofs EnergyProofs FrequencyProofs AnalyticModel AnalyticProofs LGProofs ParaxialSpec ComplexCalc.
From Coquelicot Require Import Coquelicot.
Open Scope R_scope.

(** ** Homogeneous Hermite polynomials  K_n(xi, s^2) = s^n H_n(xi / s) *)
Fixpoint K (n : nat) (xi a : R) : R :=
  match n with
  | O => 1
  | S m => match m with O => 2 * xi | S k => 2 * xi * K m xi a - 2 * INR m * a * K k xi a end
  end.
Lemma K_SS n xi a : K (S (S n)) xi a = 2 * xi * K (S n) xi a - 2 * INR (S n) * a * K n xi a.
Proof. reflexivity. Qed.
Definition K1 (n : nat) (xi a : R) : R := 2 * INR n * K (pred n) xi a.
Definition K2 (n : nat) (xi a : R) : R := 4 * INR n * INR (pred n) * K (pred (pred n)) xi a.
Lemma nat_ind2 (P : nat -> Prop) : P 0%nat -> P 1%nat -> (forall n, P n -> P (S n) -> P (S (S n))) -> forall n, P n.
Proof. intros H0 H1 H n. assert (P n /\ P (S n)) as [X _]; [|exact X]. induction n as [|n [A B]]; auto. Qed.
Lemma hermite_SS n x : hermite (S (S n)) x = 2 * x * hermite (S n) x - 2 * INR (S n) * hermite n x.
Proof. unfold hermite. cbn [hermite2]. destruct (hermite2 n x) as (a, b). reflexivity. Qed.
Lemma K_hermite s xi : s <> 0 -> forall n, K n xi (s ^ 2) = s ^ n * hermite n (xi / s).
Proof.
  intros Hs. apply nat_ind2.
  - unfold hermite. cbn. ring.
  - unfold hermite. cbn. field. exact Hs.
  - intros n A B. rewrite K_SS, hermite_SS, A, B. cbn [pow]. field. exact Hs.
Qed.
Lemma K_dxi a : forall n xi, is_derive (fun t => K n t a) xi (K1 n xi a).
Proof.
  apply (nat_ind2 (fun n => forall xi, is_derive (fun t => K n t a) xi (K1 n xi a))).
  - intros xi. eapply der_eq; [apply (der_const 1)|]. unfold K1. simpl. ring.
  - intros xi. eapply der_eq; [apply (der_scal 2 (fun t => t)); apply der_id|]. unfold K1. simpl. ring.
  - intros n A B xi. 
    eapply der_eq.
    + apply (der_minus (fun t => 2 * t * K (S n) t a) (fun t => 2 * INR (S n) * a * K n t a)).
      * apply (der_mult (fun t => 2 * t) (fun t => K (S n) t a)); [apply (der_scal 2 (fun t => t)), der_id|apply B].
      * apply (der_scal (2 * INR (S n) * a) (fun t => K n t a)), A.
    + unfold K1. cbn [pred]. destruct n as [|n]; [simpl; ring|]. rewrite (K_SS n). cbn [pred]. rewrite !S_INR. ring.
Qed.
Lemma K1_dxi a n xi : is_derive (fun t => K1 n t a) xi (K2 n xi a).
Proof. unfold K1. eapply der_eq; [apply (der_scal (2 * INR n) (fun t => K (pred n) t a)), K_dxi|]. unfold K1, K2. ring. Qed.
Lemma K_da xi : forall n a, is_derive (fun t => K n xi t) a (- / 4 * K2 n xi a).
Proof.
  apply (nat_ind2 (fun n => forall a, is_derive (fun t => K n xi t) a (- / 4 * K2 n xi a))).
  - intros a. eapply der_eq; [apply (der_const 1)|]. unfold K2. simpl. ring.
  - intros a. eapply der_eq; [apply (der_const (2 * xi))|]. unfold K2. simpl. ring.
  - intros n A B a. eapply der_eq.
    + apply (der_minus (fun t => 2 * xi * K (S n) xi t) (fun t => 2 * INR (S n) * t * K n xi t)).
      * apply (der_scal (2 * xi) (fun t => K (S n) xi t)), B.
      * apply (der_mult (fun t => 2 * INR (S n) * t) (fun t => K n xi t)); [apply (der_scal (2 * INR (S n)) (fun t => t)), der_id|apply A].
    + unfold K2. cbn [pred]. destruct n as [|[|n]]; [simpl; field|simpl; field|]. cbn [pred]. rewrite (K_SS n). rewrite !S_INR. field.
Qed.
(** Hermite's equation. *)
Lemma K_ode n xi a : a * K2 n xi a = 2 * xi * K1 n xi a - 2 * INR n * K n xi a.
Proof.
  unfold K1, K2. destruct n as [|[|n]]; cbn [pred]; [simpl; ring|simpl; ring|]. rewrite (K_SS n). rewrite !S_INR. ring.
Qed.

(** ** One transverse direction *)
Lemma RtoC_2 : RtoC 2 = Cplus (RtoC 1) (RtoC 1).
Proof. rewrite <- RtoC_plus. reflexivity. Qed.
Definition dd (z : R) : C := (1, - z).
Definition Di (z : R) : C := Cinv (dd z).
Definition eg (z xi : R) : C := cexp (Cmult (RtoC (- xi ^ 2 / 2)) (Di z)).
Definition g0 n z xi : C := Cmult (RtoC (K n xi (1 + z ^ 2))) (eg z xi).
Definition g1 n z xi : C :=
  Cmult (Cminus (RtoC (K1 n xi (1 + z ^ 2))) (Cmult (Cmult (RtoC xi) (Di z)) (RtoC (K n xi (1 + z ^ 2))))) (eg z xi).
Definition g2 n z xi : C :=
  let k0 := RtoC (K n xi (1 + z ^ 2)) in let k1 := RtoC (K1 n xi (1 + z ^ 2)) in let k2 := RtoC (K2 n xi (1 + z ^ 2)) in
  Cmult (Cplus (Cminus (Cminus k2 (Cmult (Cmult (RtoC (2 * xi)) (Di z)) k1)) (Cmult (Di z) k0)) (Cmult (Cmult (Cmult (RtoC (xi ^ 2)) (Di z)) (Di z)) k0)) (eg z xi).
Definition gz n z xi : C :=
  let k0 := RtoC (K n xi (1 + z ^ 2)) in let k2 := RtoC (K2 n xi (1 + z ^ 2)) in
  Cmult (Cminus (Cmult (RtoC (- z / 2)) k2) (Cmult (Cmult (Cmult Ci (RtoC (xi ^ 2 / 2))) (Cmult (Di z) (Di z))) k0)) (eg z xi).
Lemma dd_neq0 z : dd z <> RtoC 0.
Proof. apply dfac_neq0. Qed.
Lemma Di_dd z : Cmult (Di z) (dd z) = RtoC 1.
Proof. unfold Di. rewrite Cmult_comm. apply Cinv_r, dd_neq0. Qed.
Lemma Di_a z : Cmult (RtoC (1 + z ^ 2)) (Di z) = Cplus (RtoC 1) (Cmult Ci (RtoC z)).
Proof.
  assert (E : RtoC (1 + z ^ 2) = Cmult (Cplus (RtoC 1) (Cmult Ci (RtoC z))) (dd z)).
  { unfold dd, Cplus, Cmult, Ci, RtoC; cbn [fst snd]. f_equal; ring. }
  rewrite E, <- Cmult_assoc, (Cmult_comm (dd z)), Di_dd. ring.
Qed.
Lemma Di_dz z : is_derive_C Di z (Cmult Ci (Cmult (Di z) (Di z))).
Proof.
  unfold Di at 1. eapply dC_eq; [apply (dC_inv dd z (0, - 1)); [|apply dd_neq0]|].
  - apply (dC_pair (fun _ => 1) (fun t => - t)); [apply (der_const 1)|]. apply (der_opp (fun t => t)), der_id.
  - fold (Di z). set (D := Di z). destruct D as (u, v). unfold Copp, Cmult, Ci; cbn [fst snd]. f_equal; ring.
Qed.
Lemma eg_dxi z xi : is_derive_C (eg z) xi (Cmult (Copp (Cmult (RtoC xi) (Di z))) (eg z xi)).
Proof.
  unfold eg. apply (dC_cexp (fun t => Cmult (RtoC (- t ^ 2 / 2)) (Di z))). eapply dC_eq.
  - apply (dC_mult (fun t => RtoC (- t ^ 2 / 2)) (fun _ => Di z)); [apply dC_real|apply dC_const].
    apply (der_mult (fun t => - t ^ 2) (fun _ => / 2)); [apply (der_opp (fun t => t ^ 2)), (der_pow (fun t => t)), der_id|apply (der_const (/ 2))].
  - cbn beta. cbn [pred pow INR]. replace (- ((1 + 1) * 1 * (xi * 1)) * / 2 + - (xi * (xi * 1)) * 0) with (- xi) by field. rewrite RtoC_opp. ring.
Qed.
Lemma eg_dz z xi : is_derive_C (fun t => eg t xi) z (Cmult (Copp (Cmult (Cmult Ci (RtoC (xi ^ 2 / 2))) (Cmult (Di z) (Di z)))) (eg z xi)).
Proof.
  unfold eg. apply (dC_cexp (fun t => Cmult (RtoC (- xi ^ 2 / 2)) (Di t))). eapply dC_eq.
  - apply (dC_scal (RtoC (- xi ^ 2 / 2)) Di), Di_dz.
  - replace (- xi ^ 2 / 2) with (- (xi ^ 2 / 2)) by field. rewrite RtoC_opp. ring.
Qed.
Lemma g0_dxi n z xi : is_derive_C (g0 n z) xi (g1 n z xi).
Proof.
  unfold g0. eapply dC_eq; [apply (dC_mult (fun t => RtoC (K n t (1 + z ^ 2))) (eg z)); [apply dC_real, K_dxi|apply eg_dxi]|].
  unfold g1. ring.
Qed.
Lemma g1_dxi n z xi : is_derive_C (g1 n z) xi (g2 n z xi).
Proof.
  unfold g1. eapply dC_eq.
  - apply (dC_mult (fun t => Cminus (RtoC (K1 n t (1 + z ^ 2))) (Cmult (Cmult (RtoC t) (Di z)) (RtoC (K n t (1 + z ^ 2))))) (eg z)); [|apply eg_dxi].
    apply (dC_plus (fun t => RtoC (K1 n t (1 + z ^ 2))) (fun t => Copp (Cmult (Cmult (RtoC t) (Di z)) (RtoC (K n t (1 + z ^ 2)))))); [apply dC_real, K1_dxi|].
    apply dC_opp. apply (dC_mult (fun t => Cmult (RtoC t) (Di z)) (fun t => RtoC (K n t (1 + z ^ 2)))); [|apply dC_real, K_dxi].
    apply (dC_mult (fun t => RtoC t) (fun _ => Di z)); [apply (dC_real (fun t => t)), der_id|apply dC_const].
  - unfold g2. cbv zeta. replace (xi ^ 2) with (xi * xi) by ring. rewrite !RtoC_mult, RtoC_2. ring.
Qed.
Lemma g0_dz n z xi : is_derive_C (fun t => g0 n t xi) z (gz n z xi).
Proof.
  unfold g0. eapply dC_eq.
  - apply (dC_mult (fun t => RtoC (K n xi (1 + t ^ 2))) (fun t => eg t xi)); [|apply eg_dz]. apply dC_real.
    apply (der_comp (fun a => K n xi a) (fun t => 1 + t ^ 2)); [apply K_da|].
    apply (der_plus (fun _ => 1) (fun t => t ^ 2)); [apply (der_const 1)|apply (der_pow (fun t => t)), der_id].
  - unfold gz. cbv zeta. cbn [pred pow INR].
    replace ((0 + (1 + 1) * 1 * (z * 1)) * (- / 4 * K2 n xi (1 + z * (z * 1)))) with (- z / 2 * K2 n xi (1 + z * (z * 1))) by field.
    rewrite (RtoC_mult (- z / 2)). ring.
Qed.
(** The one-dimensional equation. *)
Lemma g_paraxial n z xi : Cminus (g2 n z xi) (Cmult (Cmult (RtoC 2) Ci) (gz n z xi)) = Copp (Cmult (Cmult (RtoC (2 * INR n + 1)) (Di z)) (g0 n z xi)).
Proof.
  unfold g2, gz, g0. cbv zeta. set (k0 := K n xi (1 + z ^ 2)). set (k1 := K1 n xi (1 + z ^ 2)). set (k2 := K2 n xi (1 + z ^ 2)).
  pose proof (K_ode n xi (1 + z ^ 2)) as Ho. fold k0 k1 k2 in Ho. apply (f_equal RtoC) in Ho.
  unfold Rminus in Ho. rewrite RtoC_plus, RtoC_opp, !RtoC_mult in Ho.
  assert (E : Cmult (Cplus (RtoC 1) (Cmult Ci (RtoC z))) (RtoC k2) = Cmult (Di z) (Cminus (Cmult (Cmult (RtoC 2) (RtoC xi)) (RtoC k1)) (Cmult (Cmult (RtoC 2) (RtoC (INR n))) (RtoC k0)))).
  { rewrite <- Di_a. unfold Cminus. rewrite <- Ho. ring. }
  assert (Ei : Cmult Ci Ci = RtoC (-1)) by (unfold Cmult, Ci, RtoC; cbn [fst snd]; f_equal; ring).
  replace (- z / 2) with (- (/ 2) * z) by field. replace (xi ^ 2 / 2) with (/ 2 * xi ^ 2) by field.
  rewrite RtoC_plus, !RtoC_mult, RtoC_opp.
  assert (Eh : Cmult (RtoC 2) (RtoC (/ 2)) = RtoC 1) by (rewrite <- RtoC_mult; f_equal; field).
  set (h := RtoC (/ 2)) in *. set (x2 := RtoC (xi ^ 2)). set (D := Di z) in *. set (e := eg z xi).
  assert (Em : RtoC (-1) = Copp (RtoC 1)) by (rewrite <- RtoC_opp; f_equal). 
  transitivity (Cmult (Cplus (Cplus (Cminus (Cminus (RtoC k2) (Cmult (Cmult (Cmult (RtoC 2) (RtoC xi)) D) (RtoC k1))) (Cmult D (RtoC k0))) (Cmult (Cmult (RtoC 2) h) (Cmult (Cmult Ci (RtoC z)) (RtoC k2))))
    (Cmult (Cmult (Cmult x2 (Cmult D D)) (RtoC k0)) (Cplus (RtoC 1) (Cmult (Cmult (RtoC 2) h) (Cmult Ci Ci))))) e).
  { ring. }
  rewrite Ei, Eh, Em.
  transitivity (Cmult (Cplus (Cmult (Cplus (RtoC 1) (Cmult Ci (RtoC z))) (RtoC k2)) (Cminus (Copp (Cmult (Cmult (Cmult (RtoC 2) (RtoC xi)) D) (RtoC k1))) (Cmult D (RtoC k0)))) e); [ring|].
  rewrite E. ring.
Qed.

(** ** Hermite-Gaussian profiles *)
Definition hg_cst (w0 : R) (nx ny : nat) : R :=
  sqrt (2 / PI) * sqrt (1 / (2 ^ nx * INR (fact nx) * w0)) * sqrt (1 / (2 ^ ny * INR (fact ny) * w0)).
Lemma Cmod_dd_sq z : Cmod (dd z) ^ 2 = 1 + z ^ 2.
Proof. rewrite Cmod_sq. apply dfac_norm2. Qed.
Lemma Cmod_dd_pos z : 0 < Cmod (dd z).
Proof. apply Cmod_gt_0, dd_neq0. Qed.
Lemma cis_mpsi z : cis (- angle (dd z)) = Cmult (RtoC (Cmod (dd z))) (Di z).
Proof.
  pose proof (angle_polar (dd z)) as H.
  assert (E : Cmult (cis (- angle (dd z))) (dd z) = RtoC (Cmod (dd z))).
  { rewrite <- H at 2. replace (Cmult (cis (- angle (dd z))) (Cmult (RtoC (Cmod (dd z))) (cis (angle (dd z))))) with
      (Cmult (RtoC (Cmod (dd z))) (Cmult (cis (angle (dd z))) (cis (- angle (dd z))))) by ring. rewrite cis_mul_opp. ring. }
  rewrite <- E. rewrite <- Cmult_assoc, (Cmult_comm (dd z)), Di_dd. ring.
Qed.
Lemma cexp_gouy X (t : R) (q : R) : cexp (Cminus X (Cmult (Cmult Ci (RtoC q)) (RtoC t))) = Cmult (cexp X) (cis (- (q * t))).
Proof.
  rewrite <- cexp_imag, <- cexp_plus. f_equal. unfold Cminus. f_equal. unfold Cmult, Ci, RtoC, Copp; cbn [fst snd]. f_equal; ring.
Qed.
Lemma cpow_add z m n : cpow z (m + n) = Cmult (cpow z m) (cpow z n).
Proof. induction m; cbn [cpow Nat.add]; [ring|]. rewrite IHm. ring. Qed.
Lemma cis_gouy z n : cis (- (INR n * angle (dd z))) = Cmult (RtoC (Cmod (dd z) ^ n)) (cpow (Di z) n).
Proof.
  replace (- (INR n * angle (dd z))) with (INR n * - angle (dd z)) by ring. rewrite <- cpow_cis, cis_mpsi, cpow_mult, cpow_RtoC. reflexivity.
Qed.
Lemma sqrt2_sq : sqrt 2 ^ 2 = 2.
Proof. rewrite <- Rsqr_pow2. apply Rsqr_sqrt. lra. Qed.
Lemma gauss_exp_Di w0 z s : w0 <> 0 -> Cdiv (RtoC (- s)) (Cmult (RtoC (w0 ^ 2)) (dd z)) = Cmult (RtoC (- s / w0 ^ 2)) (Di z).
Proof.
  intros Hw. pose proof (pow_nonzero w0 2 Hw) as Hw2. unfold Cdiv. 
  assert (Hn : Cmult (RtoC (w0 ^ 2)) (dd z) <> RtoC 0) by (apply Cmult_neq_0; [apply RtoC_neq0; exact Hw2|apply dd_neq0]).
  assert (E : Cinv (Cmult (RtoC (w0 ^ 2)) (dd z)) = Cmult (RtoC (/ w0 ^ 2)) (Di z)).
  { apply (f_equal (Cmult (Cmult (RtoC (/ w0 ^ 2)) (Di z)))) in Hn || idtac.
    rewrite <- (Cmult_1_l (Cinv _)).
    replace (RtoC 1) with (Cmult (Cmult (RtoC (/ w0 ^ 2)) (Di z)) (Cmult (RtoC (w0 ^ 2)) (dd z))).
    - rewrite <- Cmult_assoc, Cinv_r by exact Hn. ring.
    - replace (Cmult (Cmult (RtoC (/ w0 ^ 2)) (Di z)) (Cmult (RtoC (w0 ^ 2)) (dd z))) with (Cmult (Cmult (RtoC (/ w0 ^ 2)) (RtoC (w0 ^ 2))) (Cmult (Di z) (dd z))) by ring.
      rewrite Di_dd, <- RtoC_mult, Rinv_l by exact Hw2. ring. }
  rewrite E, Cmult_assoc, <- RtoC_mult. reflexivity.
Qed.
Lemma hg_form w0 nx ny z x y : 0 < w0 -> hg_trans_at w0 nx ny z x y =
  Cmult (RtoC (hg_cst w0 nx ny)) (Cmult (cpow (Di z) (S (nx + ny))) (Cmult (g0 nx z (sqrt 2 / w0 * x)) (g0 ny z (sqrt 2 / w0 * y)))).
Proof.
  intros Hw. unfold hg_trans_at. fold (dd z). cbv zeta. rewrite cexp_gouy, gauss_exp_Di by lra. rewrite cis_gouy.
  unfold g0, eg. rewrite <- Cmod_dd_sq. pose proof (Cmod_dd_pos z) as Hm.
  rewrite !K_hermite by lra.
  replace (sqrt 2 * x / (w0 * Cmod (dd z))) with (sqrt 2 / w0 * x / Cmod (dd z)) by (field; split; lra).
  replace (sqrt 2 * y / (w0 * Cmod (dd z))) with (sqrt 2 / w0 * y / Cmod (dd z)) by (field; split; lra).
  fold (hg_cst w0 nx ny).
  set (hx := hermite nx _). set (hy := hermite ny _).
  assert (Ee : cexp (Cmult (RtoC (- (x ^ 2 + y ^ 2) / w0 ^ 2)) (Di z)) =
    Cmult (cexp (Cmult (RtoC (- (sqrt 2 / w0 * x) ^ 2 / 2)) (Di z))) (cexp (Cmult (RtoC (- (sqrt 2 / w0 * y) ^ 2 / 2)) (Di z)))).
  { rewrite <- cexp_plus. f_equal. rewrite <- Cmult_plus_distr_r, <- RtoC_plus. do 2 f_equal.
    unfold Rdiv. rewrite !Rpow_mult_distr, sqrt2_sq. field. lra. }
  rewrite Ee. unfold Cdiv. rewrite Cmult_1_l. fold (Di z). rewrite !RtoC_mult. rewrite pow_add, RtoC_mult. cbn [cpow].
  replace (Cmult (Cmult (RtoC (hg_cst w0 nx ny)) (RtoC hx)) (RtoC hy)) with (Cmult (Cmult (RtoC (hg_cst w0 nx ny)) (RtoC hx)) (RtoC hy)) by reflexivity.
  ring.
Qed.

Lemma dC_lin f q x l : is_derive_C f (q * x) l -> is_derive_C (fun t => f (q * t)) x (Cmult (RtoC q) l).
Proof.
  intros (H1 & H2).
  assert (Hq : is_derive (fun t => q * t) x q) by (eapply der_eq; [apply (der_scal q (fun t => t)), der_id|ring]).
  split.
  - eapply der_eq; [apply (der_comp (fun s => fst (f s)) (fun t => q * t)); [exact H1|exact Hq]|]. simpl. ring.
  - eapply der_eq; [apply (der_comp (fun s => snd (f s)) (fun t => q * t)); [exact H2|exact Hq]|]. simpl. ring.
Qed.
Lemma dC_affine f b zf z l : is_derive_C f ((zf - z) * b) l -> is_derive_C (fun t => f ((zf - t) * b)) z (Cmult (RtoC (- b)) l).
Proof.
  intros (H1 & H2).
  assert (Hq : is_derive (fun t => (zf - t) * b) z (- b)).
  { eapply der_eq; [apply (der_mult (fun t => zf - t) (fun _ => b)); [apply (der_minus (fun _ => zf) (fun t => t)); [apply (der_const zf)|apply der_id]|apply (der_const b)]|]. cbn beta. ring. }
  split.
  - eapply der_eq; [apply (der_comp (fun s => fst (f s)) (fun t => (zf - t) * b)); [exact H1|exact Hq]|]. simpl. ring.
  - eapply der_eq; [apply (der_comp (fun s => snd (f s)) (fun t => (zf - t) * b)); [exact H2|exact Hq]|]. simpl. ring.
Qed.
Lemma Dpow_dz n z : is_derive_C (fun t => cpow (Di t) n) z (Cmult (Cmult (RtoC (INR n)) Ci) (cpow (Di z) (S n))).
Proof.
  eapply dC_eq; [apply (dC_pow Di z _ n (Di_dz z))|]. destruct n as [|n]; cbn [pred cpow]; [simpl; ring|]. ring.
Qed.

Lemma hg_paraxial w0 nx ny l zf : 0 < w0 -> 0 < l ->
  paraxial (2 * PI / l) (fun x y z => hg_trans_at w0 nx ny ((zf - z) * (l / (PI * w0 ^ 2))) x y).
Proof.
  intros Hw Hl. pose proof PI_RGT_0 as HP. set (q := sqrt 2 / w0). set (b := l / (PI * w0 ^ 2)). set (c := RtoC (hg_cst w0 nx ny)).
  set (P := fun z => cpow (Di ((zf - z) * b)) (S (nx + ny))). set (ze := fun z => (zf - z) * b).
  exists (fun x y z => Cmult (Cmult (Cmult c (P z)) (g0 ny (ze z) (q * y))) (Cmult (RtoC q) (g1 nx (ze z) (q * x)))).
  exists (fun x y z => Cmult (Cmult (Cmult c (P z)) (g0 ny (ze z) (q * y))) (Cmult (RtoC q) (Cmult (RtoC q) (g2 nx (ze z) (q * x))))).
  exists (fun x y z => Cmult (Cmult (Cmult c (P z)) (g0 nx (ze z) (q * x))) (Cmult (RtoC q) (g1 ny (ze z) (q * y)))).
  exists (fun x y z => Cmult (Cmult (Cmult c (P z)) (g0 nx (ze z) (q * x))) (Cmult (RtoC q) (Cmult (RtoC q) (g2 ny (ze z) (q * y))))).
  exists (fun x y z => Cmult (RtoC (- b)) (Cmult c (Cplus (Cmult (Cmult (Cmult (RtoC (INR (S (nx + ny)))) Ci) (cpow (Di (ze z)) (S (S (nx + ny))))) (Cmult (g0 nx (ze z) (q * x)) (g0 ny (ze z) (q * y))))
     (Cmult (P z) (Cplus (Cmult (gz nx (ze z) (q * x)) (g0 ny (ze z) (q * y))) (Cmult (g0 nx (ze z) (q * x)) (gz ny (ze z) (q * y)))))))).
  split; [|split; [|split; [|split; [|split]]]]; intros x y z.
  - eapply dC_ext; [intros t; symmetry; apply (hg_form w0 nx ny _ t y Hw)|]. fold q b. fold (ze z). fold c.
    eapply dC_ext; [|apply dC_scal; apply (dC_lin (g0 nx (ze z)) q x), g0_dxi]. intros t. cbn beta. unfold P, ze. ring.
  - apply dC_scal, dC_scal. apply (dC_lin (g1 nx (ze z)) q x), g1_dxi.
  - eapply dC_ext; [intros t; symmetry; apply (hg_form w0 nx ny _ x t Hw)|]. fold q b. fold (ze z). fold c.
    eapply dC_ext; [|apply dC_scal; apply (dC_lin (g0 ny (ze z)) q y), g0_dxi]. intros t. cbn beta. unfold P, ze. ring.
  - apply dC_scal, dC_scal. apply (dC_lin (g1 ny (ze z)) q y), g1_dxi.
  - eapply dC_ext; [intros t; symmetry; apply (hg_form w0 nx ny _ x y Hw)|]. fold q c.
    eapply (dC_affine (fun s => Cmult c (Cmult (cpow (Di s) (S (nx + ny))) (Cmult (g0 nx s (q * x)) (g0 ny s (q * y))))) b zf z).
    apply dC_scal. apply (dC_mult (fun s => cpow (Di s) (S (nx + ny))) (fun s => Cmult (g0 nx s (q * x)) (g0 ny s (q * y)))); [apply Dpow_dz|].
    apply (dC_mult (fun s => g0 nx s (q * x)) (fun s => g0 ny s (q * y))); apply g0_dz.
  - cbv beta. set (s := ze z). assert (EP : P z = cpow (Di s) (S (nx + ny))) by reflexivity. rewrite EP. cbn [cpow]. set (D := Di s). set (N := cpow D (nx + ny)).
    pose proof (g_paraxial nx s (q * x)) as Gx. pose proof (g_paraxial ny s (q * y)) as Gy. fold D in Gx, Gy.
    set (x0 := g0 nx s (q * x)) in *. set (y0 := g0 ny s (q * y)) in *. set (x2 := g2 nx s (q * x)) in *. set (y2 := g2 ny s (q * y)) in *.
    set (xz := gz nx s (q * x)) in *. set (yz := gz ny s (q * y)) in *.
    assert (Ex : x2 = Cminus (Cmult (Cmult (RtoC 2) Ci) xz) (Cmult (Cmult (RtoC (2 * INR nx + 1)) D) x0)).
    { transitivity (Cplus (Cminus x2 (Cmult (Cmult (RtoC 2) Ci) xz)) (Cmult (Cmult (RtoC 2) Ci) xz)); [ring|]. rewrite Gx. ring. }
    assert (Ey : y2 = Cminus (Cmult (Cmult (RtoC 2) Ci) yz) (Cmult (Cmult (RtoC (2 * INR ny + 1)) D) y0)).
    { transitivity (Cplus (Cminus y2 (Cmult (Cmult (RtoC 2) Ci) yz)) (Cmult (Cmult (RtoC 2) Ci) yz)); [ring|]. rewrite Gy. ring. }
    rewrite Ex, Ey.
    assert (Ek : Cmult (Cmult (RtoC (2 * (2 * PI / l))) Ci) (RtoC (- b)) = Copp (Cmult (Cmult (RtoC 2) Ci) (Cmult (RtoC q) (RtoC q)))).
    { rewrite <- RtoC_mult. replace (q * q) with (2 / w0 ^ 2).
      - unfold b, Cmult, Copp, Ci, RtoC; cbn [fst snd]. f_equal; field; repeat split; lra.
      - unfold q. replace (sqrt 2 / w0 * (sqrt 2 / w0)) with (sqrt 2 ^ 2 / w0 ^ 2) by (field; lra). rewrite sqrt2_sq. reflexivity. }
    rewrite (Cmult_assoc (Cmult (RtoC (2 * (2 * PI / l))) Ci)), Ek.
    assert (En : RtoC (INR (S (nx + ny))) = Cplus (Cplus (RtoC (INR nx)) (RtoC (INR ny))) (RtoC 1)) by (rewrite S_INR, plus_INR, !RtoC_plus; reflexivity).
    rewrite En. rewrite !RtoC_plus, !RtoC_mult.
    assert (Ei : Cmult Ci Ci = Copp (RtoC 1)) by (unfold Cmult, Ci, RtoC, Copp; cbn [fst snd]; f_equal; ring).
    match goal with |- ?L = _ => transitivity (Cmult (Cmult (Cmult (RtoC q) (RtoC q)) (Cmult c (Cmult (Cmult D N) (Cmult (Cmult D x0) y0))))
       (Cmult (Cmult (RtoC 2) (Cplus (Cplus (RtoC (INR nx)) (RtoC (INR ny))) (RtoC 1))) (Copp (Cplus (RtoC 1) (Cmult Ci Ci))))) end.
    + rewrite RtoC_2. ring.
    + rewrite Ei. ring.
Qed.

(** ** Gaussian profiles *)
Lemma gauss_hg w0 z x y : 0 < w0 -> gaussian_trans_at w0 z x y = Cmult (RtoC (/ hg_cst w0 0 0)) (hg_trans_at w0 0 0 z x y).
Proof.
  intros Hw. pose proof PI_RGT_0 as HP. rewrite hg_form by exact Hw. unfold gaussian_trans_at. fold (dd z). cbv zeta. rewrite gauss_exp_Di by lra.
  assert (Hc : hg_cst w0 0 0 <> 0).
  { unfold hg_cst. assert (0 < sqrt (2 / PI)) by (apply sqrt_lt_R0, Rdiv_lt_0_compat; lra).
    assert (0 < sqrt (1 / (2 ^ 0 * INR (fact 0) * w0))) by (apply sqrt_lt_R0; simpl; apply Rdiv_lt_0_compat; lra).
    apply Rgt_not_eq. apply Rmult_lt_0_compat; [apply Rmult_lt_0_compat|]; assumption. }
  unfold g0, eg. cbn [K cpow Nat.add]. rewrite Cmult_assoc, <- RtoC_mult, Rinv_l by exact Hc. rewrite !Cmult_1_l, Cmult_1_r.
  unfold Cdiv. fold (Di z). rewrite Cmult_comm. f_equal. rewrite <- cexp_plus. f_equal. rewrite <- Cmult_plus_distr_r, <- RtoC_plus. do 2 f_equal.
  unfold Rdiv. rewrite !Rpow_mult_distr, sqrt2_sq. field. lra.
Qed.
Lemma paraxial_scal k u c : paraxial k u -> paraxial k (fun x y z => Cmult c (u x y z)).
Proof.
  intros (ux & uxx & uy & uyy & uz & H1 & H2 & H3 & H4 & H5 & H6).
  exists (fun x y z => Cmult c (ux x y z)), (fun x y z => Cmult c (uxx x y z)), (fun x y z => Cmult c (uy x y z)), (fun x y z => Cmult c (uyy x y z)), (fun x y z => Cmult c (uz x y z)).
  do 5 (split; [intros; apply dC_scal; auto|]). intros x y z. transitivity (Cmult c (RtoC 0)); [|ring]. rewrite <- (H6 x y z). ring.
Qed.
Lemma paraxial_plus k u v : paraxial k u -> paraxial k v -> paraxial k (fun x y z => Cplus (u x y z) (v x y z)).
Proof.
  intros (ux & uxx & uy & uyy & uz & H1 & H2 & H3 & H4 & H5 & H6) (vx & vxx & vy & vyy & vz & G1 & G2 & G3 & G4 & G5 & G6).
  exists (fun x y z => Cplus (ux x y z) (vx x y z)), (fun x y z => Cplus (uxx x y z) (vxx x y z)), (fun x y z => Cplus (uy x y z) (vy x y z)),
    (fun x y z => Cplus (uyy x y z) (vyy x y z)), (fun x y z => Cplus (uz x y z) (vz x y z)).
  do 5 (split; [intros; apply dC_plus; auto|]). intros x y z. transitivity (Cplus (RtoC 0) (RtoC 0)); [|ring]. rewrite <- (H6 x y z) at 1. rewrite <- (G6 x y z). ring.
Qed.
Lemma paraxial_ext k u v : (forall x y z, u x y z = v x y z) -> paraxial k u -> paraxial k v.
Proof.
  intros E (ux & uxx & uy & uyy & uz & H1 & H2 & H3 & H4 & H5 & H6). exists ux, uxx, uy, uyy, uz.
  split; [|split; [|split; [|split; [|split]]]]; try assumption; intros x y z.
  - eapply dC_ext; [|apply H1]. intros; apply E.
  - eapply dC_ext; [|apply H3]. intros; apply E.
  - eapply dC_ext; [|apply H5]. intros; apply E.
Qed.
Lemma gauss_paraxial w0 l zf : 0 < w0 -> 0 < l ->
  paraxial (2 * PI / l) (fun x y z => gaussian_trans_at w0 ((zf - z) * (l / (PI * w0 ^ 2))) x y).
Proof.
  intros Hw Hl. eapply paraxial_ext; [|apply paraxial_scal; apply (hg_paraxial w0 0 0 l zf Hw Hl)]. intros x y z. symmetry. apply gauss_hg, Hw.
Qed.
