(** C50, C51. *)
From Verif Require Import PyBase CSum NumPy NpMath NpMathProofs AnalysisModel ZernikeModel ZernikeSpec.
Open Scope R_scope.

(** ** Indices *)
Lemma py_ceil_unique x (n : Z) : IZR n - 1 < x <= IZR n -> py_ceil x = n.
Proof.
  intros H. unfold py_ceil. pose proof (Rfloor_bounds (- x)) as B. set (f := Rfloor (- x)) in *. clearbody f.
  assert (f < - n + 1)%Z by (apply lt_IZR; rewrite plus_IZR, opp_IZR; lra).
  assert (- n < f + 1)%Z by (apply lt_IZR; rewrite plus_IZR, opp_IZR; lra). lia.
Qed.
Lemma pair_range m n j : zernike_pair m n -> osa_index m n j -> (0 <= j /\ (n * (n + 1) <= 2 * j <= n * (n + 3)))%Z.
Proof. unfold zernike_pair, osa_index. intros (H1 & H2 & _) E. assert (0 <= n * n)%Z by nia. split; [nia|]. split; nia. Qed.
Lemma c50_pair m n j : zernike_pair m n -> osa_index m n j -> get_zernike_nm j = (m, n).
Proof.
  intros HP E. destruct (pair_range m n j HP E) as (J0 & J1 & J2). destruct HP as (N0 & _ & _). unfold osa_index in E.
  assert (H : py_ceil ((-3 + sqrt (9 + 8 * IZR j)) / 2) = n).
  { apply py_ceil_unique. apply IZR_le in J1, J2. rewrite !mult_IZR, !plus_IZR in J1. rewrite !mult_IZR, !plus_IZR in J2. apply IZR_le in N0.
    set (N := IZR n) in *. set (J := IZR j) in *. clearbody N J.
    assert (U : sqrt (9 + 8 * J) <= 2 * N + 3).
    { rewrite <- (sqrt_pow2 (2 * N + 3)) by lra. apply sqrt_le_1_alt. nra. }
    assert (V : 2 * N + 1 < sqrt (9 + 8 * J)).
    { rewrite <- (sqrt_pow2 (2 * N + 1)) by lra. apply sqrt_lt_1_alt. split; nra. }
    lra. }
  unfold get_zernike_nm. rewrite H. f_equal. lia.
Qed.
Lemma pair_exists j : (0 <= j)%Z -> exists m n, zernike_pair m n /\ osa_index m n j.
Proof.
  intros H. assert (Q : exists n : nat, (Z.of_nat n * (Z.of_nat n + 1) <= 2 * j < (Z.of_nat n + 1) * (Z.of_nat n + 2))%Z).
  { pattern j. apply natlike_ind; [exists 0%nat; lia| |exact H]. intros x Hx (n & L1 & L2).
    destruct (Z_lt_le_dec (2 * (Z.succ x)) ((Z.of_nat n + 1) * (Z.of_nat n + 2))) as [D|D]; [exists n; lia|exists (S n); rewrite Nat2Z.inj_succ; nia]. }
  destruct Q as (n & L1 & L2). set (z := Z.of_nat n) in *. assert (0 <= z)%Z by lia. clearbody z.
  assert (PP : forall y, (exists k, y * (y + 1) = 2 * k)%Z).
  { intros y. destruct (Z.Even_or_Odd y) as [(k & ->)|(k & ->)]; [exists (k * (2 * k + 1))%Z|exists ((2 * k + 1) * (k + 1))%Z]; ring. }
  exists (2 * j - z * (z + 2))%Z, z. split; [|unfold osa_index; ring]. split; [assumption|]. split.
  - apply Z.abs_le. destruct (PP z) as (k & Ek). destruct (PP (z + 1)%Z) as (k' & Ek'). split; nia.
  - destruct (PP z) as (k & Ek). exists (k - j + z)%Z. nia.
Qed.
Lemma c50_result j : (0 <= j)%Z -> zernike_pair (fst (get_zernike_nm j)) (snd (get_zernike_nm j)) /\ osa_index (fst (get_zernike_nm j)) (snd (get_zernike_nm j)) j.
Proof. intros H. destruct (pair_exists j H) as (m & n & HP & E). rewrite (c50_pair m n j HP E). auto. Qed.
Lemma c50_injective j j' : (0 <= j)%Z -> (0 <= j')%Z -> get_zernike_nm j = get_zernike_nm j' -> j = j'.
Proof. intros H H' E. destruct (c50_result j H) as (_ & O). destruct (c50_result j' H') as (_ & O'). rewrite E in O. unfold osa_index in *. lia. Qed.
Lemma c50_onto m n : zernike_pair m n -> exists j, (0 <= j)%Z /\ get_zernike_nm j = (m, n).
Proof.
  intros HP. pose proof HP as (H0 & H1 & (k & Ek)).
  assert (PP : exists k, (n * (n + 1) = 2 * k)%Z).
  { destruct (Z.Even_or_Odd n) as [(h & ->)|(h & ->)]; [exists (h * (2 * h + 1))%Z|exists ((2 * h + 1) * (h + 1))%Z]; ring. }
  destruct PP as (h & Eh). assert (O : osa_index m n (h - k + n)) by (unfold osa_index; nia).
  exists (h - k + n)%Z. split; [apply (pair_range _ _ _ HP O)|]. apply c50_pair; assumption.
Qed.

(** ** Radial part *)
Lemma py_fact_nat k : py_fact (Z.of_nat k) = Ok (INR (fact k)).
Proof. unfold py_fact. destruct (Z.ltb_spec (Z.of_nat k) 0); [lia|]. rewrite Nat2Z.id. reflexivity. Qed.
Lemma rmn_loop_eq a b rho c : (a <= b)%nat -> (c <= S a)%nat -> rmn_loop (Z.of_nat (a + b)) (Z.of_nat (b - a)) rho c =
  Ok (rsum c (fun k => (-1) ^ k * INR (fact (a + b - k)) / (INR (fact k) * INR (fact (b - k)) * INR (fact (a - k))) * rho ^ (a + b - 2 * k))).
Proof.
  intros Hab. induction c as [|c IH]; intros Hc; [reflexivity|]. cbn [rmn_loop rsum]. rewrite IH by lia. cbn [bind]. unfold rmn_term. cbn zeta.
  replace (Z.of_nat (a + b) - Z.of_nat c)%Z with (Z.of_nat (a + b - c)) by lia. rewrite !py_fact_nat. cbn [bind].
  replace ((Z.of_nat (a + b) + Z.of_nat (b - a)) / 2 - Z.of_nat c)%Z with (Z.of_nat (b - c)).
  2:{ replace (Z.of_nat (a + b) + Z.of_nat (b - a))%Z with (Z.of_nat b * 2)%Z by lia. rewrite Z.div_mul by lia. lia. }
  rewrite py_fact_nat. cbn [bind].
  replace ((Z.of_nat (a + b) - Z.of_nat (b - a)) / 2 - Z.of_nat c)%Z with (Z.of_nat (a - c)).
  2:{ replace (Z.of_nat (a + b) - Z.of_nat (b - a))%Z with (Z.of_nat a * 2)%Z by lia. rewrite Z.div_mul by lia. lia. }
  rewrite py_fact_nat. cbn [bind]. replace (Z.of_nat (a + b) - 2 * Z.of_nat c)%Z with (Z.of_nat (a + b - 2 * c)) by lia. rewrite <- pow_powerRZ. reflexivity.
Qed.
Lemma fact_pos k : 0 < INR (fact k). Proof. apply lt_0_INR. apply lt_O_fact. Qed.
Lemma radial_00 rho : radial 0 0 rho = 1.
Proof. unfold radial. cbn. field. Qed.
Lemma c51_radial rank a b rho : (rank = 1 \/ rank = 2)%nat -> (a <= b)%nat -> RmnGenerator rank (Z.of_nat (a + b)) (Z.of_nat (b - a)) rho = Ok (radial a b rho).
Proof.
  intros Hr Hab. unfold RmnGenerator.
  assert (Er : orb (rank =? 1)%nat (rank =? 2)%nat = true) by (destruct Hr as [-> | -> ]; reflexivity). rewrite Er. cbn [negb].
  destruct (Z.eqb_spec (Z.of_nat (a + b)) 0) as [E|E].
  - assert (a = 0)%nat by lia. assert (b = 0)%nat by lia. subst. rewrite radial_00. reflexivity.
  - replace (Z.of_nat (a + b) - Z.of_nat (b - a))%Z with (Z.of_nat a * 2)%Z by lia. rewrite Z.mod_mul, Z.div_mul by lia. cbn [Z.eqb].
    destruct (Z.ltb_spec (Z.of_nat a + 1) 0); [lia|]. replace (Z.to_nat (Z.of_nat a + 1)) with (S a) by lia. apply rmn_loop_eq; lia.
Qed.
Lemma c51_odd rank n m rho : (rank = 1 \/ rank = 2)%nat -> (0 < n)%Z -> Z.Odd (n - m) -> RmnGenerator rank n m rho = Ok 0.
Proof.
  intros Hr Hn (k & Ek). unfold RmnGenerator. assert (Er : orb (rank =? 1)%nat (rank =? 2)%nat = true) by (destruct Hr as [-> | -> ]; reflexivity). rewrite Er. cbn [negb].
  destruct (Z.eqb_spec n 0); [lia|]. rewrite Ek. replace (2 * k + 1)%Z with (1 + k * 2)%Z by ring. rewrite Z.mod_add by lia. reflexivity.
Qed.
Lemma c51_rank rank n m rho : (rank <> 1 /\ rank <> 2)%nat -> RmnGenerator rank n m rho = Err ValueError.
Proof. intros [H1 H2]. unfold RmnGenerator. rewrite (proj2 (Nat.eqb_neq _ _) H1), (proj2 (Nat.eqb_neq _ _) H2). reflexivity. Qed.
(** Value at the edge *)
Fixpoint bin (n k : nat) : nat := match n, k with _, O => 1 | O, S _ => 0 | S n, S k => bin n k + bin n (S k) end.
Lemma bin_0 n : bin n 0 = 1%nat. Proof. destruct n; reflexivity. Qed.
Lemma bin_gt n : forall k, (n < k)%nat -> bin n k = 0%nat.
Proof. induction n as [|n IH]; intros [|k] H; try lia; [reflexivity|]. cbn. rewrite !IH by lia. reflexivity. Qed.
Lemma bin_fact k : forall i, (bin (i + k) i * (fact i * fact k) = fact (i + k))%nat.
Proof.
  induction k as [|k IHk]; intros i.
  - rewrite Nat.add_0_r. cbn [fact]. rewrite Nat.mul_1_r. assert (E : bin i i = 1%nat) by (induction i as [|i IH]; [reflexivity|]; cbn; rewrite IH, bin_gt by lia; reflexivity). rewrite E. lia.
  - induction i as [|i IHi]; [cbn [Nat.add fact]; rewrite bin_0; lia|].
    cbn [Nat.add bin]. change (fact (S (i + S k))) with (S (i + S k) * fact (i + S k))%nat.
    assert (E1 := IHi). assert (E2 := IHk (S i)). cbn [Nat.add] in E2. replace (S (i + k)) with (i + S k)%nat in E2 by lia.
    change (fact (S i)) with (S i * fact i)%nat in *. change (fact (S k)) with (S k * fact k)%nat in *.
    replace (S (i + S k))%nat with (S i + S k)%nat by lia. rewrite (Nat.mul_add_distr_r (S i)). rewrite <- E1 at 1. rewrite <- E2. ring.
Qed.
Lemma bin_INR n k : (k <= n)%nat -> INR (bin n k) = INR (fact n) / (INR (fact k) * INR (fact (n - k))).
Proof.
  intros H. pose proof (bin_fact (n - k) k) as E. replace (k + (n - k))%nat with n in E by lia. apply (f_equal INR) in E. rewrite !mult_INR in E.
  pose proof (fact_pos k). pose proof (fact_pos (n - k)). rewrite <- E. field. lra.
Qed.
(** Alternating sums: sum_k (-1)^k C(a,k) f(k) is the a-th difference of f. *)
Definition alt (a : nat) (f : nat -> R) : R := rsum (S a) (fun k => (-1) ^ k * INR (bin a k) * f k).
Lemma alt_S a f : alt (S a) f = alt a (fun k => f k - f (S k)).
Proof.
  unfold alt. rewrite rsum_first. rewrite bin_0. simpl pow at 1.
  rewrite (rsum_ext (S a) (fun i => (-1) ^ S i * INR (bin (S a) (S i)) * f (S i)) (fun i => (-1) ^ S i * INR (bin a (S i)) * f (S i) + - ((-1) ^ i * INR (bin a i) * f (S i)))).
  2:{ intros i _. cbn [bin]. rewrite plus_INR. simpl pow. ring. }
  rewrite rsum_plus. rewrite (rsum_ext (S a) (fun k => (-1) ^ k * INR (bin a k) * (f k - f (S k))) (fun k => (-1) ^ k * INR (bin a k) * f k + - ((-1) ^ k * INR (bin a k) * f (S k)))) by (intros; ring).
  rewrite rsum_plus. rewrite (rsum_first a (fun k => (-1) ^ k * INR (bin a k) * f k)). rewrite bin_0.
  cbn [rsum]. rewrite (bin_gt a (S a)) by lia. simpl (INR 0). simpl (pow _ 0). ring.
Qed.
Lemma alt_ext a f g : (forall k, (k <= a)%nat -> f k = g k) -> alt a f = alt a g.
Proof. intros H. unfold alt. apply rsum_ext. intros k Hk. rewrite H by lia. reflexivity. Qed.
Lemma bin_diff x k d : (k < x)%nat -> INR (bin (x - k) (S d)) - INR (bin (x - S k) (S d)) = INR (bin (x - S k) d).
Proof. intros H. replace (x - k)%nat with (S (x - S k)) by lia. cbn [bin]. rewrite plus_INR. ring. Qed.
Lemma alt_bin a : forall x, (a <= x)%nat -> alt a (fun k => INR (bin (x - k) a)) = 1.
Proof.
  induction a as [|a IH]; intros x H.
  - unfold alt. cbn [rsum]. rewrite !bin_0. simpl. ring.
  - rewrite alt_S. rewrite <- (IH (x - 1)%nat) by lia. apply alt_ext. intros k Hk. rewrite bin_diff by lia.
    replace (x - 1 - k)%nat with (x - S k)%nat by lia. reflexivity.
Qed.
Lemma radial_alt a b rho : (a <= b)%nat -> radial a b rho = alt a (fun k => INR (bin (a + b - k) a) * rho ^ (a + b - 2 * k)).
Proof.
  intros H. unfold radial, alt. apply rsum_ext. intros k Hk. rewrite (bin_INR a k), (bin_INR (a + b - k) a) by lia.
  replace (a + b - k - a)%nat with (b - k)%nat by lia. pose proof (fact_pos k). pose proof (fact_pos a). pose proof (fact_pos (a - k)). pose proof (fact_pos (b - k)). field. lra.
Qed.
Lemma c51_edge rank n m rho : (rank = 1 \/ rank = 2)%nat -> zernike_pair m n -> (0 <= m)%Z -> rho = 1 -> RmnGenerator rank n m rho = Ok 1.
Proof.
  intros Hr (H0 & H1 & (k & Ek)) Hm ->. set (a := Z.to_nat k). set (b := Z.to_nat (n - k)).
  replace n with (Z.of_nat (a + b)) by lia. replace m with (Z.of_nat (b - a)) by lia. rewrite c51_radial by (assumption || lia).
  f_equal. rewrite radial_alt by lia. transitivity (alt a (fun k => INR (bin (a + b - k) a))); [|apply alt_bin; lia]. apply alt_ext. intros i _. rewrite pow1. ring.
Qed.
(** Parity *)
Lemma c51_parity rank n m rho : (rank = 1 \/ rank = 2)%nat -> zernike_pair m n -> (0 <= m)%Z ->
  exists v, RmnGenerator rank n m rho = Ok v /\ RmnGenerator rank n m (- rho) = Ok ((-1) ^ Z.to_nat m * v).
Proof.
  intros Hr (H0 & H1 & (k & Ek)) Hm. set (a := Z.to_nat k). set (b := Z.to_nat (n - k)).
  replace n with (Z.of_nat (a + b)) by lia. replace m with (Z.of_nat (b - a)) by lia. rewrite !c51_radial by (assumption || lia).
  exists (radial a b rho). split; [reflexivity|]. f_equal. unfold radial. rewrite <- rsum_scal_l. apply rsum_ext. intros i Hi.
  replace (- rho) with (-1 * rho) by ring. rewrite Rpow_mult_distr. rewrite Nat2Z.id.
  assert (E : (-1) ^ (a + b - 2 * i) = (-1) ^ (b - a)).
  { replace (a + b - 2 * i)%nat with ((b - a) + 2 * (a - i))%nat by lia. rewrite pow_add, pow_mult. replace ((-1) ^ 2) with 1 by ring. rewrite pow1. ring. }
  rewrite E. ring.
Qed.
(** ** The modes *)
Lemma sqrt_polar rho th : 0 <= rho -> sqrt ((rho * cos th) ^ 2 + (rho * sin th) ^ 2) = rho.
Proof.
  intros H. replace ((rho * cos th) ^ 2 + (rho * sin th) ^ 2) with (rho ^ 2 * ((sin th)² + (cos th)²)) by (unfold Rsqr; ring).
  rewrite sin2_cos2, Rmult_1_r. apply sqrt_pow2. exact H.
Qed.
Lemma cis_Zmul m a b : cis a = cis b -> cis (IZR m * a) = cis (IZR m * b).
Proof.
  intros H. destruct (cis_inj _ _ H) as (z & Hz).
  replace (IZR m * a) with (IZR m * b + 2 * PI * IZR (m * z)) by (rewrite mult_IZR; replace a with (b + 2 * PI * IZR z) by lra; ring). apply cis_period.
Qed.
Lemma azimuthal_cis m a b : cis a = cis b -> azimuthal m a = azimuthal m b.
Proof.
  intros H. pose proof (cis_Zmul m _ _ H) as E. unfold azimuthal. destruct (Z.ltb m 0).
  - apply (f_equal (@snd R R)) in E. unfold cis in E. cbn in E. replace (- IZR m * a) with (- (IZR m * a)) by ring. replace (- IZR m * b) with (- (IZR m * b)) by ring. rewrite !sin_neg, E. reflexivity.
  - apply (f_equal (@fst R R)) in E. unfold cis in E. cbn in E. exact E.
Qed.
Lemma radial_zero a b : (a < b)%nat -> radial a b 0 = 0.
Proof. intros H. unfold radial. transitivity (rsum (S a) (fun _ => 0)); [|apply rsum_0]. apply rsum_ext. intros k Hk. rewrite pow_i by lia. ring. Qed.
Lemma c51_mode rank cx cy r j rho th m n : (rank = 1 \/ rank = 2)%nat -> 0 < r -> 0 <= rho -> zernike_pair m n -> osa_index m n j ->
  zernike rank (cx + r * (rho * cos th)) (cy + r * (rho * sin th)) (cx, cy, r) j =
  Ok (zernike_norm m n * radial (Z.to_nat ((n - Z.abs m) / 2)) (Z.to_nat ((n + Z.abs m) / 2)) rho * azimuthal m th).
Proof.
  intros Hr Hp Hrho HP E. unfold zernike. rewrite (c50_pair m n j HP E). destruct HP as (H0 & H1 & (k & Ek)).
  assert (EA : exists h, (n - Z.abs m = 2 * h)%Z) by (destruct (Z.abs_spec m) as [[_ ->]|[_ ->]]; [exists k; lia|exists (k + m)%Z; lia]).
  destruct EA as (h & Eh). replace ((n - Z.abs m) / 2)%Z with h by (rewrite Eh, Z.mul_comm, Z.div_mul by lia; reflexivity).
  replace ((n + Z.abs m) / 2)%Z with (n - h)%Z by (replace (n + Z.abs m)%Z with ((n - h) * 2)%Z by lia; rewrite Z.div_mul by lia; reflexivity).
  set (a := Z.to_nat h). set (b := Z.to_nat (n - h)).
  replace (cx + r * (rho * cos th) - cx) with (r * rho * cos th) by ring. replace (cy + r * (rho * sin th) - cy) with (r * rho * sin th) by ring.
  assert (0 <= r * rho) by (apply Rmult_le_pos; lra). rewrite sqrt_polar by assumption. replace (r * rho / r) with rho by (field; lra).
  replace n with (Z.of_nat (a + b)) at 1 by lia. replace (Z.abs m) with (Z.of_nat (b - a)) by lia. rewrite c51_radial by (assumption || lia). cbn [bind]. f_equal.
  set (t := angle (r * rho * cos th, r * rho * sin th)).
  assert (ER : (if Z.ltb m 0 then radial a b rho * sin (- IZR m * t) else radial a b rho * cos (IZR m * t)) = radial a b rho * azimuthal m th).
  { transitivity (radial a b rho * azimuthal m t); [unfold azimuthal; destruct (Z.ltb m 0); reflexivity|].
    destruct (Rle_lt_or_eq_dec _ _ Hrho) as [L|L].
    - f_equal. apply azimuthal_cis. unfold t. replace (r * rho * cos th, r * rho * sin th) with (Cmult (RtoC (r * rho)) (cis th)).
      + apply cis_angle. apply Rmult_lt_0_compat; assumption.
      + unfold cis. apply injective_projections; cbn; ring.
    - destruct (Z.eq_dec m 0) as [->|Hm]; [unfold azimuthal; cbn; rewrite !Rmult_0_l; reflexivity|]. rewrite <- L, radial_zero by lia. ring. }
  rewrite ER. unfold zernike_norm. destruct (Z.eqb_spec n 0) as [Z0|Z0].
  - assert (m = 0)%Z by lia. subst m n. cbn [Z.eqb]. rewrite Rplus_0_l, sqrt_1. ring.
  - destruct (Z.eqb m 0); ring.
Qed.
(** Dependence on the pupil *)
Lemma angle_scale s z : 0 < s -> angle (Cmult (RtoC s) z) = angle z.
Proof.
  intros Hs. destruct (Req_dec (Cmod z) 0) as [E|E].
  - apply Cmod_eq_0 in E. rewrite E. rewrite Cmult_0_r. reflexivity.
  - pose proof (Cmod_ge_0 z). rewrite <- (angle_polar z) at 1. rewrite Cmult_assoc, <- RtoC_mult. apply angle_unique; [|apply angle_range]. apply Rmult_lt_0_compat; lra.
Qed.
Lemma c51_scaling rank x y cx cy r j : 0 < r -> zernike rank x y (cx, cy, r) j = zernike rank ((x - cx) / r) ((y - cy) / r) (0, 0, 1) j.
Proof.
  intros Hr. unfold zernike.
  assert (E1 : sqrt ((x - cx) ^ 2 + (y - cy) ^ 2) / r = sqrt (((x - cx) / r - 0) ^ 2 + ((y - cy) / r - 0) ^ 2) / 1).
  { replace (((x - cx) / r - 0) ^ 2 + ((y - cy) / r - 0) ^ 2) with (((x - cx) ^ 2 + (y - cy) ^ 2) / r ^ 2) by (field; lra).
    rewrite sqrt_div_alt by nra. rewrite sqrt_pow2 by lra. field. lra. }
  assert (E2 : angle ((x - cx) / r - 0, (y - cy) / r - 0) = angle (x - cx, y - cy)).
  { rewrite <- (angle_scale r) by exact Hr. f_equal. apply injective_projections; cbn; field; lra. }
  rewrite E1, E2. reflexivity.
Qed.
