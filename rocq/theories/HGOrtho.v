(** Proofs of C77: the Hermite-Gauss modes are orthonormal in every plane. *)
From Coquelicot Require Import Coquelicot.
From Verif Require Import PyBase CSum NpMath AnalyticModel AnalyticProofs ParaxialProofs TransShapeProofs GaussInt ModeOrthoSpec.
Open Scope R_scope.

(** A separable function. *)
Lemma square_separable (f : R -> R -> C) (k1 k2 : R) (a b : R -> R) L :
  (forall x y, f x y = (k1 * (a x * b y), k2 * (a x * b y))) -> (forall p q, ex_RInt a p q) -> (forall p q, ex_RInt b p q) ->
  square_int f L = (k1 * (RInt a (- L) L * RInt b (- L) L), k2 * (RInt a (- L) L * RInt b (- L) L)).
Proof.
  intros Hf Ha Hb.
  assert (H : forall k, RInt (fun y => RInt (fun x => k * (a x * b y)) (- L) L) (- L) L = k * (RInt a (- L) L * RInt b (- L) L)).
  { intros k. transitivity (RInt (fun y => (k * RInt a (- L) L) * b y) (- L) L).
    - apply RInt_ext. intros y _. transitivity (RInt (fun x => (k * b y) * a x) (- L) L); [apply RInt_ext; intros x _; eqR; ring|]. rewrite ri_scal by apply Ha. eqR. ring.
    - rewrite ri_scal by apply Hb. eqR. ring. }
  unfold square_int. f_equal; rewrite <- H; apply RInt_ext; intros y _; apply RInt_ext; intros x _; rewrite Hf; reflexivity.
Qed.

Definition hphi (w : R) (n m : nat) (x : R) : R := hermite n (sqrt 2 * x / w) * hermite m (sqrt 2 * x / w) * exp (- (sqrt 2 * x / w) ^ 2).
Lemma sqrt2_pos : 0 < sqrt 2.
Proof. apply sqrt_lt_R0. lra. Qed.
Lemma hphi_ex w n m a b : ex_RInt (hphi w n m) a b.
Proof.
  apply (@ex_RInt_continuous R_CompleteNormedModule). intros x _.
  apply (continuous_comp (fun x => sqrt 2 * x / w) (fun x => hermite n x * hermite m x * exp (- x ^ 2))); [|apply hint_cont].
  cont1.
Qed.
Lemma hphi_int w n m L : 0 < w -> RInt (hphi w n m) (- L) L = w / sqrt 2 * hint n m (sqrt 2 * L / w).
Proof.
  intros Hw. pose proof sqrt2_pos as H2. set (k := sqrt 2 / w). assert (Hk : 0 < k) by (apply Rdiv_lt_0_compat; assumption).
  unfold hint. replace (- (sqrt 2 * L / w)) with (k * - L + 0) by (unfold k; field; lra). replace (sqrt 2 * L / w) with (k * L + 0) by (unfold k; field; lra).
  rewrite <- (RInt_comp_lin (fun x => hermite n x * hermite m x * exp (- x ^ 2))) by apply hint_ex.
  rewrite <- ri_scal.
  - apply RInt_ext. intros x _. unfold hphi, scal; cbn -[pow]. unfold mult; cbn -[pow]. replace (sqrt 2 * x / w) with (k * x + 0) by (unfold k; field; lra).
    eqR. set (e := hermite n (k * x + 0) * hermite m (k * x + 0) * exp (- (k * x + 0) ^ 2)). unfold k. field. split; lra.
  - apply (@ex_RInt_continuous R_CompleteNormedModule). intros x _. unfold scal; cbn -[pow]. unfold mult; cbn -[pow].
    apply (continuous_scal_r (K := R_AbsRing) (V := R_NormedModule) k).
    apply (continuous_comp (fun x => k * x + 0) (fun x => hermite n x * hermite m x * exp (- x ^ 2))); [|apply hint_cont]. cont1.
Qed.
Lemma lim_scaled f l k : 0 < k -> to_inf f l -> to_inf (fun L => f (k * L)) l.
Proof.
  intros Hk Hf. unfold to_inf in *. apply (is_lim_comp f (fun L => k * L) p_infty (Finite l) p_infty); [exact Hf| |exists 0; intros; discriminate].
  replace p_infty with (Rbar_mult (Finite k) p_infty) at 2.
  - apply is_lim_scal_l, is_lim_id.
  - cbn. destruct (Rle_dec 0 k) as [H|H]; [|lra]. destruct (Rle_lt_or_eq_dec 0 k H); [reflexivity|lra].
Qed.
Lemma hphi_lim w n m : 0 < w -> to_inf (fun L => RInt (hphi w n m) (- L) L) (w / sqrt 2 * (if Nat.eqb n m then 2 ^ m * INR (fact m) * sqrt PI else 0)).
Proof.
  intros Hw. pose proof sqrt2_pos as H2. unfold to_inf. apply (is_lim_ext (fun L => w / sqrt 2 * hint n m (sqrt 2 / w * L))).
  - intros L. rewrite hphi_int by exact Hw. do 2 f_equal. field. lra.
  - apply (is_lim_scal_l _ _ _ (Finite _)). apply (lim_scaled (hint n m)); [apply Rdiv_lt_0_compat; assumption|]. apply hint_lim.
Qed.

(** The product of two modes is separable. *)
Lemma cexp_conj_mul (a b c : R) : Cmult (cexp (a, b)) (Cconj (cexp (a, c))) = Cmult (RtoC (exp (2 * a))) (cis (b - c)).
Proof.
  unfold cexp. cbn [Re Im fst snd]. replace (2 * a) with (a + a) by ring. rewrite exp_plus. unfold cis, Cmult, Cconj, RtoC. cbn [fst snd]. rewrite cos_minus, sin_minus. f_equal; ring.
Qed.
Definition hnorm (w0 : R) (n : nat) : R := sqrt (1 / (2 ^ n * INR (fact n) * w0)).
Lemma hg_product w0 nx ny mx my z x y : 0 < w0 ->
  let w := w0 * Cmod ((1, - z) : C) in let th := (INR (mx + my) - INR (nx + ny)) * angle ((1, - z) : C) in
  let k := (2 / PI) * (hnorm w0 nx * hnorm w0 mx) * (hnorm w0 ny * hnorm w0 my) / (1 + z ^ 2) in
  Cmult (hg_trans_at w0 nx ny z x y) (Cconj (hg_trans_at w0 mx my z x y)) =
  (k * cos th * (hphi w nx mx x * hphi w ny my y), k * sin th * (hphi w nx mx x * hphi w ny my y)).
Proof.
  intros Hw0. cbn zeta. set (d := (1, - z) : C). set (w := w0 * Cmod d). set (psi := angle d).
  pose proof PI_RGT_0 as HP. assert (Hq : 0 < 1 + z ^ 2) by (pose proof (pow2_ge_0 z); lra).
  assert (Md : Cmod d ^ 2 = 1 + z ^ 2) by (replace (Cmod d ^ 2) with (Cnorm2 d) by (rewrite Cnorm2_Cmod; ring); unfold d, Cnorm2; cbn [fst snd]; ring).
  assert (Wp : w ^ 2 = w0 ^ 2 * (1 + z ^ 2)) by (unfold w; rewrite Rpow_mult_distr, Md; reflexivity).
  assert (Hd : Cmult (Cdiv (RtoC 1) d) (Cconj (Cdiv (RtoC 1) d)) = RtoC (/ (1 + z ^ 2))).
  { rewrite <- Cnorm2_conj, Cnorm2_Cmod. rewrite Cmod_div by (intros E; apply (f_equal fst) in E; exact (R1_neq_R0 E)). rewrite Cmod_1. rewrite <- Md. f_equal. field. intros E; rewrite E in Md; lra. }
  assert (He : forall n, Cminus (Cdiv (RtoC (- (x ^ 2 + y ^ 2))) (Cmult (RtoC (w0 ^ 2)) d)) (Cmult (Cmult Ci (RtoC n)) (RtoC psi)) =
     (- (x ^ 2 + y ^ 2) / w ^ 2, - (x ^ 2 + y ^ 2) * z / w ^ 2 - n * psi)).
  { intros n. rewrite Wp. unfold d, Cminus, Cplus, Copp, Cdiv, Cmult, Cinv, RtoC, Ci. cbn [fst snd]. f_equal; (field; repeat split; try lra).
    all: replace ((w0 ^ 2) ^ 2 + (w0 ^ 2 * - z) ^ 2) with ((w0 ^ 2) ^ 2 * (1 + z ^ 2)) by ring; apply Rmult_integral_contrapositive_currified; [apply pow_nonzero, pow_nonzero|]; lra. }
  unfold hg_trans_at. cbn zeta. fold d. fold w. fold psi. rewrite !He. fold (hnorm w0 nx) (hnorm w0 ny) (hnorm w0 mx) (hnorm w0 my).
  set (s := sqrt (2 / PI)). assert (Hs : s * s = 2 / PI) by (apply sqrt_sqrt; left; apply Rdiv_lt_0_compat; lra).
  set (A := s * hnorm w0 nx * hnorm w0 ny * hermite nx (sqrt 2 * x / w) * hermite ny (sqrt 2 * y / w)).
  set (B := s * hnorm w0 mx * hnorm w0 my * hermite mx (sqrt 2 * x / w) * hermite my (sqrt 2 * y / w)).
  set (ea := cexp _). set (eb := cexp _).
  replace (Cmult (Cmult (Cmult (RtoC A) ea) (Cdiv (RtoC 1) d)) (Cconj (Cmult (Cmult (RtoC B) eb) (Cdiv (RtoC 1) d))))
    with (Cmult (Cmult (RtoC (A * B)) (Cmult ea (Cconj eb))) (Cmult (Cdiv (RtoC 1) d) (Cconj (Cdiv (RtoC 1) d)))).
  2:{ rewrite !Cconj_mult. replace (Cconj (RtoC B)) with (RtoC B) by (unfold Cconj, RtoC; cbn; f_equal; ring). rewrite RtoC_mult. ring. }
  rewrite Hd. unfold ea, eb. rewrite cexp_conj_mul.
  replace (- (x ^ 2 + y ^ 2) * z / w ^ 2 - INR (nx + ny) * psi - (- (x ^ 2 + y ^ 2) * z / w ^ 2 - INR (mx + my) * psi)) with ((INR (mx + my) - INR (nx + ny)) * psi) by ring.
  set (th := (INR (mx + my) - INR (nx + ny)) * psi).
  assert (W0 : w <> 0) by (intros E; rewrite E in Wp; nra).
  replace (exp (2 * (- (x ^ 2 + y ^ 2) / w ^ 2))) with (exp (- (sqrt 2 * x / w) ^ 2) * exp (- (sqrt 2 * y / w) ^ 2)).
  2:{ rewrite <- exp_plus. f_equal. unfold Rdiv. rewrite !Rpow_mult_distr, pow2_sqrt by lra. rewrite pow_inv. field. exact W0. }
  unfold hphi. unfold cis, Cmult, RtoC. cbn [fst snd]. unfold A, B.
  f_equal; rewrite <- Hs; field; lra.
Qed.
Lemma hnorm_sq w0 n : 0 < w0 -> hnorm w0 n * hnorm w0 n = / (2 ^ n * INR (fact n) * w0).
Proof.
  intros H. unfold hnorm. pose proof (INR_fact_lt_0 n). assert (0 < 2 ^ n) by (apply pow_lt; lra). rewrite sqrt_sqrt; [unfold Rdiv; ring|].
  left. apply Rdiv_lt_0_compat; [lra|]. apply Rmult_lt_0_compat; [apply Rmult_lt_0_compat|]; assumption.
Qed.
Lemma c77_hermite w0 nx ny mx my z : 0 < w0 ->
  overlap (hg_trans_at w0 nx ny z) (hg_trans_at w0 mx my z) (if andb (Nat.eqb nx mx) (Nat.eqb ny my) then RtoC 1 else RtoC 0).
Proof.
  intros Hw0. unfold overlap, plane_int. set (d := (1, - z) : C). set (w := w0 * Cmod d).
  assert (Hq : 0 < 1 + z ^ 2) by (pose proof (pow2_ge_0 z); lra).
  assert (Md : Cmod d ^ 2 = 1 + z ^ 2) by (replace (Cmod d ^ 2) with (Cnorm2 d) by (rewrite Cnorm2_Cmod; ring); unfold d, Cnorm2; cbn [fst snd]; ring).
  assert (Wp : w ^ 2 = w0 ^ 2 * (1 + z ^ 2)) by (unfold w; rewrite Rpow_mult_distr, Md; reflexivity).
  assert (Hw : 0 < w) by (apply Rmult_lt_0_compat; [exact Hw0|]; pose proof (Cmod_ge_0 d); destruct (Req_dec (Cmod d) 0) as [E|E]; [rewrite E in Md; lra|lra]).
  set (th := (INR (mx + my) - INR (nx + ny)) * angle d). set (k := (2 / PI) * (hnorm w0 nx * hnorm w0 mx) * (hnorm w0 ny * hnorm w0 my) / (1 + z ^ 2)).
  assert (S : forall L, square_int (fun x y => Cmult (hg_trans_at w0 nx ny z x y) (Cconj (hg_trans_at w0 mx my z x y))) L =
    (k * cos th * (RInt (hphi w nx mx) (- L) L * RInt (hphi w ny my) (- L) L), k * sin th * (RInt (hphi w nx mx) (- L) L * RInt (hphi w ny my) (- L) L))).
  { intros L. apply square_separable; [|apply hphi_ex|apply hphi_ex]. intros x y. apply hg_product, Hw0. }
  set (lx := w / sqrt 2 * (if Nat.eqb nx mx then 2 ^ mx * INR (fact mx) * sqrt PI else 0)).
  set (ly := w / sqrt 2 * (if Nat.eqb ny my then 2 ^ my * INR (fact my) * sqrt PI else 0)).
  assert (G : forall q v, q * (lx * ly) = v -> is_lim (fun L => q * (RInt (hphi w nx mx) (- L) L * RInt (hphi w ny my) (- L) L)) p_infty v).
  { intros q v <-. apply (is_lim_scal_l _ q p_infty (Finite (lx * ly))). apply (is_lim_mult _ _ p_infty (Finite lx) (Finite ly)); [apply hphi_lim, Hw|apply hphi_lim, Hw|exact I]. }
  assert (V : (k * cos th * (lx * ly), k * sin th * (lx * ly)) = (if andb (Nat.eqb nx mx) (Nat.eqb ny my) then RtoC 1 else RtoC 0)).
  { unfold lx, ly. destruct (Nat.eqb_spec nx mx) as [<-|]; [|cbn [andb]; unfold RtoC; f_equal; ring].
    destruct (Nat.eqb_spec ny my) as [<-|]; [|cbn [andb]; unfold RtoC; f_equal; ring]. cbn [andb].
    assert (T : th = 0) by (unfold th; ring). rewrite T, cos_0, sin_0. unfold RtoC. f_equal; [|ring]. unfold k. rewrite !hnorm_sq by exact Hw0.
    pose proof PI_RGT_0 as HP. pose proof (INR_fact_neq_0 nx) as F1. pose proof (INR_fact_neq_0 ny) as F2. assert (P1 : 2 ^ nx <> 0) by (apply pow_nonzero; lra). assert (P2 : 2 ^ ny <> 0) by (apply pow_nonzero; lra).
    pose proof (sqrt_sqrt PI ltac:(lra)) as SP. pose proof (sqrt_sqrt 2 ltac:(lra)) as S2. pose proof sqrt2_pos as S0.
    set (sp := sqrt PI) in *. set (s2 := sqrt 2) in *. rewrite <- SP.
    transitivity (2 * (w ^ 2) / (w0 ^ 2 * (1 + z ^ 2) * (s2 * s2))); [field; repeat split; try lra; intros E; rewrite E in SP; lra|].
    rewrite S2, Wp. field. split; lra. }
  split.
  - apply (is_lim_ext (fun L => k * cos th * (RInt (hphi w nx mx) (- L) L * RInt (hphi w ny my) (- L) L))); [intros L; rewrite S; reflexivity|]. apply G. exact (f_equal fst V).
  - apply (is_lim_ext (fun L => k * sin th * (RInt (hphi w nx mx) (- L) L * RInt (hphi w ny my) (- L) L))); [intros L; rewrite S; reflexivity|]. apply G. exact (f_equal snd V).
Qed.
