From Coq Require Import Lra Lia Psatz.
From Coquelicot Require Import Coquelicot.
From Verif Require Import PyBase CSum NumPy NpMath GridProofs LaserSpec AnalyticModel DataModel SpeckleModel ModesModel ModesSpec MomentProofs ModesProofs ConvergeProofs HGConvSpec HGConv EnergyProofs.
Open Scope R_scope.

(** ** Weighted means and variances on a grid. *)
Lemma weighted_le N M I g h : (forall i j, (i < N)%nat -> (j < M)%nat -> I i j * g i j <= I i j * h i j) -> weighted N M I g <= weighted N M I h.
Proof. intros H. apply rsum_le. intros j Hj. apply rsum_le. intros i Hi. apply H; assumption. Qed.
Lemma weighted_scal N M I g c : weighted N M I (fun i j => c * g i j) = c * weighted N M I g.
Proof.
  unfold weighted. rewrite <- rsum_scal_l. apply rsum_ext. intros j _. rewrite <- rsum_scal_l. apply rsum_ext. intros i _. ring.
Qed.
Lemma weighted_const N M I c : weighted N M I (fun _ _ => c) = c * weighted N M I (fun _ _ => 1).
Proof. rewrite <- weighted_scal. unfold weighted. apply rsum_ext. intros j _. apply rsum_ext. intros i _. ring. Qed.
Section D4.
Context (N M : nat) (I pix : nat -> nat -> R) (L : R).
Context (HI : forall i j, (i < N)%nat -> (j < M)%nat -> 0 <= I i j) (HT : 0 < weighted N M I (fun _ _ => 1)).
Context (HP : forall i j, (i < N)%nat -> (j < M)%nat -> 0 <= pix i j <= L).
Lemma mean_in : 0 <= weighted N M I pix / weighted N M I (fun _ _ => 1) <= L.
Proof.
  set (T := weighted N M I (fun _ _ => 1)) in *. assert (A : 0 <= weighted N M I pix).
  { apply rsum_nonneg. intros j Hj. apply rsum_nonneg. intros i Hi. apply Rmult_le_pos; [apply HI; assumption | apply HP; assumption]. }
  assert (B : weighted N M I pix <= L * T).
  { unfold T. rewrite <- weighted_const. apply weighted_le. intros i j Hi Hj. apply Rmult_le_compat_l; [apply HI; assumption | apply HP; assumption]. }
  split; [apply Rdiv_le_0_compat; assumption|]. apply (Rmult_le_reg_r T); [exact HT|]. replace (weighted N M I pix / T * T) with (weighted N M I pix) by (field; lra). exact B.
Qed.
Lemma d4_upper : d4_width N M I pix <= 4 * L.
Proof.
  unfold d4_width. cbn zeta. pose proof mean_in as Hm. set (T := weighted N M I (fun _ _ => 1)) in *. set (mean := weighted N M I pix / T) in *.
  apply Rmult_le_compat_l; [lra|]. rewrite <- (sqrt_pow2 L) by lra. apply sqrt_le_1_alt.
  apply (Rmult_le_reg_r T); [exact HT|]. unfold Rdiv. rewrite Rmult_assoc, Rinv_l, Rmult_1_r by lra. unfold T. rewrite <- weighted_const. apply weighted_le.
  intros i j Hi Hj. apply Rmult_le_compat_l; [apply HI; assumption|]. specialize (HP i j Hi Hj). rewrite <- !Rsqr_pow2. apply Rsqr_le_abs_1.
  rewrite (Rabs_right L) by lra. apply Rabs_le. lra.
Qed.
Lemma d4_nonneg : 0 <= d4_width N M I pix.
Proof. unfold d4_width. cbn zeta. apply Rmult_le_pos; [lra | apply sqrt_pos]. Qed.
End D4.

(** ** Lower bounds for integrals of non-negative functions. *)
Lemma RInt_sub_lower (F : R -> R) a u v e : - a <= u -> u <= v -> v <= a -> (forall s t, - a <= s <= a -> - a <= t <= a -> ex_RInt F s t) ->
  (forall x, - a <= x <= a -> 0 <= F x) -> (forall x, u <= x <= v -> e <= F x) -> (v - u) * e <= RInt F (- a) a.
Proof.
  intros Hu Huv Hv He Hp Hl. rewrite <- (RInt_Chasles F (- a) u a) by (apply He; lra). rewrite <- (RInt_Chasles F u v a) by (apply He; lra).
  change (@plus _) with Rplus.
  assert (P1 : 0 <= RInt F (- a) u) by (apply RInt_ge_0; [lra | apply He; lra | intros x Hx; apply Hp; lra]).
  assert (P2 : 0 <= RInt F v a) by (apply RInt_ge_0; [lra | apply He; lra | intros x Hx; apply Hp; lra]).
  assert (P3 : RInt (fun _ => e) u v <= RInt F u v) by (apply RInt_le; [lra | apply ex_RInt_const | apply He; lra | intros x Hx; apply Hl; lra]).
  rewrite RInt_const in P3. change (scal (v - u) e) with ((v - u) * e) in P3. lra.
Qed.
Lemma RInt2_sub_lower K (f : R -> R -> R) a u v u' v' e : 0 < a -> 0 <= K -> lip2 K (- a) a (- a) a f -> - a <= u -> u <= v -> v <= a -> - a <= u' -> u' <= v' -> v' <= a ->
  (forall x y, - a <= x <= a -> - a <= y <= a -> 0 <= f x y) -> (forall x y, u <= x <= v -> u' <= y <= v' -> e <= f x y) -> (v - u) * ((v' - u') * e) <= RInt2 f (- a) a (- a) a.
Proof.
  intros Ha HK HL Hu Huv Hv Hu' Huv' Hv' Hp Hl. unfold RInt2.
  assert (Hex : forall x s t, - a <= x <= a -> - a <= s <= a -> - a <= t <= a -> ex_RInt (f x) s t).
  { intros x s t Hx Hs Ht. apply (lip_ex K (- a) a); try assumption. apply (lip2_1 _ _ _ _ _ _ _ HL Hx). }
  apply RInt_sub_lower; try assumption.
  - intros s t Hs Ht. apply (lip_ex (K * (a - - a)) (- a) a); try assumption; [apply Rmult_le_pos; lra|]. apply inner_lip; [lra | exact HK | exact HL].
  - intros x Hx. apply RInt_ge_0; [lra | apply Hex; lra | intros y Hy; apply Hp; lra].
  - intros x Hx. apply RInt_sub_lower; try assumption; [intros; apply Hex; lra | intros y Hy; apply Hp; lra | intros y Hy; apply Hl; lra].
Qed.

(** ** The second moment of the intensity is bounded below. *)
Section Moment.
Context (f : R -> R -> C) (w0 : R) (Hw0 : 0 < w0) (Hf : locally_lipschitz f).
Let I x y := Cmod (f x y) ^ 2.
Let Y := 6 * w0.
Definition centre (m : R) : Prop := - Y <= m <= Y.
Lemma LL_I : LL centre (fun _ x y => I x y).
Proof.
  destruct (LL_fixed centre f Hf) as [HR HM]. pose proof (LL_plus _ _ _ (LL_mult _ _ _ HR HR) (LL_mult _ _ _ HM HM)) as H.
  eapply LL_ext; [|exact H]. intros p _ x y. unfold I. cbn beta. rewrite Cmod_sq. unfold Cnorm2, Re, Im. ring.
Qed.
Lemma LL_moment : LL centre (fun m x y => I x y * ((x - m) * (x - m))).
Proof.
  assert (HD : LL centre (fun m x y => x - m)).
  { apply (LL_ext centre (fun m x y => x + - m)); [intros; ring|]. apply (LL_plus centre (fun m x y => x) (fun m x y => - m)); [apply LL_x|].
    apply (LL_const centre (fun m => - m) Y); [|unfold Y; lra]. intros m Hm. unfold centre in Hm. apply Rabs_le. lra. }
  apply (LL_mult centre (fun m x y => I x y) (fun m x y => (x - m) * (x - m))); [exact LL_I|].
  apply (LL_mult centre (fun m x y => x - m) (fun m x y => x - m)); exact HD.
Qed.
Context (p q : R) (Hp : Rabs p < 5 * w0) (Hq : Rabs q < 5 * w0) (Hpq : f p q <> RtoC 0).
Lemma moment_integral_lower : exists c, 0 < c /\ forall m, centre m -> c <= RInt2 (fun x y => I x y * ((x - m) * (x - m))) (- (5 * w0)) (5 * w0) (- (5 * w0)) (5 * w0).
Proof.
  destruct (LL_I (5 * w0) ltac:(lra)) as (K & B & HK & HB & HL). destruct (HL 0 ltac:(unfold centre, Y; lra)) as [L _].
  assert (Hpos : 0 < I p q) by (unfold I; apply pow_lt, Cmod_gt_0, Hpq).
  apply Rabs_def2 in Hp. apply Rabs_def2 in Hq.
  set (d := Rmin (I p q / (4 * (K + 1))) (Rmin (Rmin (5 * w0 - p) (5 * w0 + p)) (Rmin (5 * w0 - q) (5 * w0 + q)))).
  assert (D0 : 0 < d). { unfold d. repeat apply Rmin_pos; try lra. apply Rdiv_lt_0_compat; lra. }
  assert (D1 : d <= I p q / (4 * (K + 1))) by apply Rmin_l.
  assert (D2 : d <= 5 * w0 - p /\ d <= 5 * w0 + p /\ d <= 5 * w0 - q /\ d <= 5 * w0 + q).
  { assert (d <= Rmin (Rmin (5 * w0 - p) (5 * w0 + p)) (Rmin (5 * w0 - q) (5 * w0 + q))) as E by apply Rmin_r.
    pose proof (Rmin_l (Rmin (5 * w0 - p) (5 * w0 + p)) (Rmin (5 * w0 - q) (5 * w0 + q))). pose proof (Rmin_r (Rmin (5 * w0 - p) (5 * w0 + p)) (Rmin (5 * w0 - q) (5 * w0 + q))).
    pose proof (Rmin_l (5 * w0 - p) (5 * w0 + p)). pose proof (Rmin_r (5 * w0 - p) (5 * w0 + p)). pose proof (Rmin_l (5 * w0 - q) (5 * w0 + q)). pose proof (Rmin_r (5 * w0 - q) (5 * w0 + q)). lra. }
  assert (D3 : K * (2 * d) <= I p q / 2).
  { apply Rle_trans with ((K + 1) * (2 * (I p q / (4 * (K + 1))))); [|right; field; lra]. apply Rmult_le_compat; lra. }
  assert (Box : forall x y, Rabs (x - p) <= d -> Rabs (y - q) <= d -> I p q / 2 <= I x y).
  { intros x y Hx Hy. assert (Hx' := Hx). assert (Hy' := Hy). apply Rcomplements.Rabs_le_between in Hx'. apply Rcomplements.Rabs_le_between in Hy'.
    assert (E := L x p y q ltac:(lra) ltac:(lra) ltac:(lra) ltac:(lra)).
    assert (K * (Rabs (x - p) + Rabs (y - q)) <= K * (2 * d)) by (apply Rmult_le_compat_l; lra).
    assert (F : Rabs (I x y - I p q) <= I p q / 2) by lra. apply Rcomplements.Rabs_le_between in F. lra. }
  exists ((d / 2) * ((2 * d) * (I p q / 2 * (d / 2 * (d / 2))))). split; [clear - Hpos D0; set (z := I p q) in *; clearbody z d; repeat apply Rmult_lt_0_compat; lra|]. intros m Hm.
  destruct (LL_moment (5 * w0) ltac:(lra)) as (K' & B' & HK' & _ & HL'). destruct (HL' m Hm) as [L' _].
  assert (Hnn : forall x y, - (5 * w0) <= x <= 5 * w0 -> - (5 * w0) <= y <= 5 * w0 -> 0 <= I x y * ((x - m) * (x - m))).
  { intros x y _ _. apply Rmult_le_pos; [unfold I; apply pow2_ge_0 | apply Rle_0_sqr]. }
  assert (Hsq : forall x y, Rabs (x - p) <= d -> Rabs (y - q) <= d -> d / 2 <= Rabs (x - m) -> I p q / 2 * (d / 2 * (d / 2)) <= I x y * ((x - m) * (x - m))).
  { intros x y Hx Hy Hd. apply Rmult_le_compat; [lra | apply Rle_0_sqr | apply Box; assumption |]. replace ((x - m) * (x - m)) with (Rabs (x - m) * Rabs (x - m)).
    2: { rewrite <- Rabs_mult. apply Rabs_right, Rle_ge, Rle_0_sqr. } apply Rmult_le_compat; lra. }
  destruct (Rle_dec p m) as [Hpm|Hpm].
  - replace (d / 2) with ((p - d / 2) - (p - d)) at 1 by field. replace (2 * d) with ((q + d) - (q - d)) by ring.
    apply (RInt2_sub_lower K'); try assumption; try lra. intros x y Hx Hy. apply Hsq; [apply Rabs_le; lra | apply Rabs_le; lra | rewrite Rabs_left1; lra].
  - replace (d / 2) with ((p + d) - (p + d / 2)) at 1 by field. replace (2 * d) with ((q + d) - (q - d)) by ring.
    apply (RInt2_sub_lower K'); try assumption; try lra. intros x y Hx Hy. apply Hsq; [apply Rabs_le; lra | apply Rabs_le; lra | rewrite Rabs_right; lra].
Qed.
Lemma moment_sum_lower : exists c r0, 0 < c /\ 0 < r0 /\ r0 <= w0 /\ forall r N m, 0 < r <= r0 -> (2 <= N)%nat -> 10 * w0 < INR N * r <= 10 * w0 + 2 * r -> centre m ->
  let X := (INR N - 1) * r / 2 in c <= riem2 (fun x y => I x y * ((x - m) * (x - m))) (- X) X (- X) X N N.
Proof.
  destruct moment_integral_lower as (c & Hc & HcL). assert (HY : 0 < Y) by (unfold Y; lra).
  destruct (LL_moment Y HY) as (K & B & HK & HB & HLU). set (Mx := 4 * Y * (2 * K * Y + B) + (4 * K * Y * Y + 2 * Y * B) + 4 * Y * B).
  assert (HM : 0 <= Mx) by (unfold Mx; repeat first [apply Rplus_le_le_0_compat | apply Rmult_le_pos]; lra).
  exists (c / 2), (Rmin w0 (c / (2 * (Mx + 1)))). split; [lra|]. split; [apply Rmin_pos; [lra | apply Rdiv_lt_0_compat; lra]|]. split; [apply Rmin_l|].
  intros r N m [Hr Hr0] N2 Nb Hm X. pose proof (Rmin_l w0 (c / (2 * (Mx + 1)))) as R1. pose proof (Rmin_r w0 (c / (2 * (Mx + 1)))) as R2.
  destruct (HLU m Hm) as [HL HU]. set (g := fun x y => I x y * ((x - m) * (x - m))) in *.
  assert (HE : Rabs (riem2 g (- X) X (- X) X N N - RInt2 g (- (5 * w0)) (5 * w0) (- (5 * w0)) (5 * w0)) <= Mx * r) by (apply (window_riem2 K B w0 r N g); try assumption; lra).
  specialize (HcL m Hm). fold g in HcL. apply Rcomplements.Rabs_le_between in HE.
  assert (Mx * r <= (Mx + 1) * (c / (2 * (Mx + 1)))) by (apply Rmult_le_compat; lra).
  replace ((Mx + 1) * (c / (2 * (Mx + 1)))) with (c / 2) in H by (field; lra). lra.
Qed.
End Moment.

(** ** The waist returned stays in a fixed range. *)
Lemma moment_riem2 f r N mean : (2 <= N)%nat -> let X := (INR N - 1) * r / 2 in
  weighted N N (fun i j => Cmod (f (axis_point 0 r N i) (axis_point 0 r N j)) ^ 2) (fun i _ => (INR i - mean) ^ 2) * (r ^ 2 * r ^ 2) =
  riem2 (fun x y => Cmod (f x y) ^ 2 * ((x - (- X + mean * r)) * (x - (- X + mean * r)))) (- X) X (- X) X N N.
Proof.
  intros H X. unfold weighted, riem2, riem. unfold X. rewrite !axis_spacing by exact H. rewrite rsum_swap.
  rewrite (rsum_scal_l N r). match goal with |- ?A * _ = r * (r * ?B) => cut (A * r ^ 2 = B); [intros <-; ring|] end.
  rewrite <- rsum_scal_r. apply rsum_ext. intros a _. rewrite <- rsum_scal_r. apply rsum_ext. intros b _. rewrite <- !axis_is_coord by exact H.
  match goal with |- ?c * _ * _ = _ * _ => generalize c end. intros c. unfold axis_point. field.
Qed.
Lemma waist_range f w0 p q : 0 < w0 -> locally_lipschitz f -> Rabs p < 5 * w0 -> Rabs q < 5 * w0 -> f p q <> RtoC 0 ->
  exists wa wb r0, 0 < wa <= wb /\ 0 < r0 <= w0 /\ forall r N x, 0 < r <= r0 -> (2 <= N)%nat -> 10 * w0 < INR N * r <= 10 * w0 + 2 * r ->
    length x = N -> (forall i, (i < N)%nat -> vget x i = axis_point 0 r N i) -> exists w, estimate_best_HG_waist x x f = Ok (Some w) /\ wa <= w <= wb.
Proof.
  intros Hw0 Hf Hp Hq Hpq. destruct (moment_sum_lower f w0 Hw0 Hf p q Hp Hq Hpq) as (c & r0 & Hc & Hr0 & Hr0w & Hlow).
  destruct (LL_I f w0 Hf (6 * w0) ltac:(lra)) as (K & B & HK & HB & HLU). destruct (HLU 0 ltac:(unfold centre; lra)) as [_ HU]. clear HLU.
  set (e := sqrt (c / ((B + 1) * (12 * w0) ^ 2))).
  assert (HD : 0 < (B + 1) * (12 * w0) ^ 2) by (apply Rmult_lt_0_compat; [lra | apply pow_lt; lra]).
  assert (He : 0 < e) by (apply sqrt_lt_R0, Rdiv_lt_0_compat; assumption).
  exists (e / 2), (Rmax (e / 2) (36 * w0)), r0. split; [split; [lra | apply Rmax_l]|]. split; [lra|].
  intros r N x [Hr Hrr] N2 Nb Lx Vx. set (X := (INR N - 1) * r / 2). assert (EX : 2 * X = INR N * r - r) by (unfold X; field).
  set (I' := fun i j => Cmod (f (vget x i) (vget x j)) ^ 2).
  assert (HI : forall i j, (i < N)%nat -> (j < N)%nat -> 0 <= I' i j) by (intros; apply pow2_ge_0).
  assert (N1 : 1 <= INR N - 1) by (apply le_INR in N2; change (INR 2) with (1 + 1) in N2; lra).
  assert (Hin : forall i, (i < N)%nat -> - (6 * w0) <= vget x i <= 6 * w0).
  { intros i Hi. rewrite Vx by exact Hi. assert (A := axis_in 0 r N i (5 * w0) Hr Hi ltac:(lra)). rewrite Rminus_0_r in A. apply Rcomplements.Rabs_le_between in A. lra. }
  assert (HW : forall mean, weighted N N I' (fun i _ => (INR i - mean) ^ 2) * (r ^ 2 * r ^ 2) =
     riem2 (fun u v => Cmod (f u v) ^ 2 * ((u - (- X + mean * r)) * (u - (- X + mean * r)))) (- X) X (- X) X N N).
  { intros mean. unfold X. rewrite <- moment_riem2 by exact N2. f_equal. unfold weighted. apply rsum_ext. intros j Hj. apply rsum_ext. intros i Hi. unfold I'. rewrite !Vx by assumption. reflexivity. }
  assert (r2 : 0 < r ^ 2) by (apply pow_lt; lra).
  assert (Hbig : forall mean, 0 <= mean <= INR N - 1 -> c / (r ^ 2 * r ^ 2) <= weighted N N I' (fun i _ => (INR i - mean) ^ 2)).
  { intros mean Hm. apply (Rmult_le_reg_r (r ^ 2 * r ^ 2)); [apply Rmult_lt_0_compat; assumption|]. rewrite HW. replace (c / (r ^ 2 * r ^ 2) * (r ^ 2 * r ^ 2)) with c by (field; lra).
    apply (Hlow r N (- X + mean * r)); try assumption; [lra|].
    assert (0 <= mean * r <= (INR N - 1) * r) by (split; [apply Rmult_le_pos; lra | apply Rmult_le_compat_r; lra]). unfold centre. lra. }
  set (T := weighted N N I' (fun _ _ => 1)).
  assert (HT : 0 < T).
  { assert (A := Hbig 0 ltac:(lra)). assert (A2 : weighted N N I' (fun i _ => (INR i - 0) ^ 2) <= (INR N - 1) ^ 2 * T).
    { unfold T. rewrite <- weighted_const. apply weighted_le. intros i j Hi Hj. apply Rmult_le_compat_l; [apply HI; assumption|]. apply pow_incr. rewrite Rminus_0_r.
      split; [apply pos_INR|]. assert (Q : INR (S i) <= INR N) by (apply le_INR; lia). rewrite S_INR in Q. lra. }
    assert (0 < c / (r ^ 2 * r ^ 2)) by (apply Rdiv_lt_0_compat; [exact Hc | apply Rmult_lt_0_compat; assumption]).
    destruct (Rlt_dec 0 T); [assumption|]. assert (0 < (INR N - 1) ^ 2) by (apply pow_lt; lra). nra. }
  assert (HTu : T * r ^ 2 <= (B + 1) * (12 * w0) ^ 2).
  { apply Rle_trans with (((B + 1) * (INR N * INR N)) * r ^ 2).
    - apply Rmult_le_compat_r; [lra|]. apply Rle_trans with (rsum N (fun _ => rsum N (fun _ => B + 1))).
      + apply rsum_le. intros j Hj. apply rsum_le. intros i Hi. rewrite Rmult_1_r. specialize (HU (vget x i) (vget x j) (Hin i Hi) (Hin j Hj)).
        apply Rle_trans with B; [|lra]. eapply Rle_trans; [apply Rle_abs | exact HU].
      + right. rewrite !rsum_const. ring.
    - replace ((B + 1) * (INR N * INR N) * r ^ 2) with ((B + 1) * (INR N * r) ^ 2) by ring. apply Rmult_le_compat_l; [lra|]. apply pow_incr. lra. }
  assert (Hpx : forall i j : nat, (i < N)%nat -> (j < N)%nat -> 0 <= INR i <= INR N - 1).
  { intros i j Hi _. split; [apply pos_INR|]. assert (Q : INR (S i) <= INR N) by (apply le_INR; lia). rewrite S_INR in Q. lra. }
  set (dx := d4_width N N I' (fun i _ => INR i)). set (dy := d4_width N N I' (fun _ j => INR j)).
  assert (Dx : 4 * (e / r) <= dx).
  { unfold dx, d4_width. cbn zeta. fold T. assert (Hm := mean_in N N I' (fun i _ => INR i) (INR N - 1) HI HT Hpx). fold T in Hm. set (mean := _ / T) in *. specialize (Hbig mean Hm).
    apply Rmult_le_compat_l; [lra|]. unfold e. rewrite <- (sqrt_pow2 r) at 1 by lra. rewrite <- sqrt_div_alt by exact r2. apply sqrt_le_1_alt.
    apply (Rmult_le_reg_r T); [exact HT|]. replace (weighted N N I' (fun i _ => (INR i - mean) ^ 2) / T * T) with (weighted N N I' (fun i _ => (INR i - mean) ^ 2)) by (field; lra).
    eapply Rle_trans; [|exact Hbig]. set (Z := (B + 1) * (12 * w0) ^ 2) in *.
    apply Rle_trans with (c / Z / r ^ 2 * (Z / r ^ 2)).
    - apply Rmult_le_compat_l; [left; repeat apply Rdiv_lt_0_compat; assumption|]. apply (Rmult_le_reg_r (r ^ 2)); [exact r2|]. replace (Z / r ^ 2 * r ^ 2) with Z by (field; lra). exact HTu.
    - right. field. lra. }
  assert (Dxu : dx <= 4 * (INR N - 1)) by (apply (d4_upper N N I' (fun i _ => INR i) (INR N - 1)); assumption).
  assert (Dyu : dy <= 4 * (INR N - 1)) by (apply (d4_upper N N I' (fun _ j => INR j) (INR N - 1)); try assumption; intros i j Hi Hj; apply (Hpx j i); assumption).
  assert (Dyl : 0 <= dy) by apply d4_nonneg.
  assert (AS : axis_step x = Ok r) by (apply (axis_step_ok x N 0 r); assumption).
  unfold estimate_best_HG_waist. rewrite AS. cbn [bind].
  assert (IC : isclose_hg r r = true).
  { unfold isclose_hg. apply Rleb_true. rewrite Rminus_diag_eq, Rabs_R0 by reflexivity. pose proof (Rabs_pos r). apply Rplus_le_le_0_compat; [|apply Rmult_le_pos; [|assumption]]; left; apply Rinv_0_lt_compat, pow_lt; lra. }
  rewrite IC. cbn [pyassert bind].
  assert (ES : im_sum (intensity_image x x f) = T).
  { unfold im_sum, intensity_image, T, weighted. cbn [im_rows im_cols im_at]. rewrite Lx. apply rsum_ext. intros j _. apply rsum_ext. intros i _. unfold I'. ring. }
  assert (EW : exists west, waist_estimate x x f r = Some west).
  { unfold waist_estimate. rewrite ES. destruct (Reqb T 0) eqn:EQ; [apply Reqb_true in EQ; lra|]. destruct (find_d4sigma _) as [sx sy]. exists ((sx + sy) / 2 / 2 * r). reflexivity. }
  destruct EW as (west & EW). rewrite EW. apply waist_estimate_spec in EW. unfold estimated_waist in EW. rewrite Lx in EW. fold I' dx dy in EW. subst west.
  set (west := (dx + dy) / 4 * r).
  assert (Wl : e <= west).
  { unfold west. apply Rle_trans with (4 * (e / r) / 4 * r); [right; field; lra|]. apply Rmult_le_compat_r; lra. }
  assert (Wu : west <= 24 * w0).
  { unfold west. apply Rle_trans with (2 * (INR N - 1) * r); [apply Rmult_le_compat_r; lra | lra]. }
  destruct (Reqb west 0) eqn:EQ; [apply Reqb_true in EQ; lra|].
  set (tests := linspace (west / 2) (west * (3 / 2)) 30). set (k := np_argmax _).
  exists (vget tests k). split; [reflexivity|].
  assert (Kb : (k < 30)%nat).
  { assert (Lt : length tests = 30%nat) by apply linspace_length.
    destruct (np_argmax_spec (map (fun wt => grid_overlap x x (hg_trans_at wt 0 0 0) f) tests)) as (K1 & _); [intros E0; apply (f_equal (@length R)) in E0; rewrite map_length, Lt in E0; discriminate|].
    rewrite map_length, Lt in K1. exact K1. }
  clearbody k. assert (I29 : INR (30 - 1) = 29) by (cbn; ring).
  assert (Tv : vget tests k = west / 2 + INR k * (west / 29)) by (unfold tests; rewrite linspace_nth by lia; f_equal; f_equal; rewrite INR_IZR_INZ; cbn -[west]; field).
  assert (Kr : 0 <= INR k <= 29). { split; [apply pos_INR|]. rewrite <- I29. apply le_INR. lia. }
  rewrite Tv. assert (0 <= INR k * (west / 29) <= 29 * (west / 29)) by (split; [apply Rmult_le_pos; lra | apply Rmult_le_compat_r; lra]).
  split; [lra|]. eapply Rle_trans; [|apply Rmax_r]. lra.
Qed.

(** ** C102 *)
Lemma c102 f w0 p q i j : 0 < w0 -> locally_lipschitz f -> Rabs p < 5 * w0 -> Rabs q < 5 * w0 -> f p q <> RtoC 0 ->
  exists M r0, 0 < r0 /\ forall r nx ny, 0 < r <= r0 -> (i < nx)%nat -> (j < ny)%nat ->
  exists wt w v, hermite_gauss_decomposition (analytic f w0 0 0) nx ny r = Ok (wt, Some w) /\ 0 < w /\ wt i j = Some v /\
    Rabs (v - square_overlap f (hg_trans_at w i j 0) (5 * w0)) <= M * r.
Proof.
  intros Hw0 Hf Hp Hq Hpq. destruct (waist_range f w0 p q Hw0 Hf Hp Hq Hpq) as (wa & wb & r0 & Hab & Hr0 & HR).
  destruct (c102_range f w0 wa wb i j Hw0 Hab Hf) as (M & _ & HM). exists M, r0. split; [lra|]. intros r nx ny Hr Hi Hj.
  assert (Hb : hg_bounds (analytic f w0 0 0) = Ok ((- w0 * 5 + 0, - w0 * 5 + 0), (w0 * 5 + 0, w0 * 5 + 0))) by reflexivity.
  destruct (decomposition_val (analytic f w0 0 0) nx ny r _ _ _ _ (proj1 Hr) Hb ltac:(lra) ltac:(lra)) as (N & N' & wt & waist & HD & Ne & _ & Nb & _ & _ & x & y & Ax & Ay & Lx & Ly & HE).
  rewrite Ax in Ay. injection Ay as <-.
  destruct (hg_axis_ok (- w0 * 5 + 0) (w0 * 5 + 0) r (proj1 Hr) ltac:(lra)) as (n & x' & Ax' & Lx' & n2 & _ & nb & Vx). rewrite Ax in Ax'. injection Ax' as <-.
  replace ((- w0 * 5 + 0 + (w0 * 5 + 0)) / 2) with 0 in Vx by field.
  destruct (HR r n x Hr n2 ltac:(lra) Lx' Vx) as (w & Ew & Hw).
  assert (EE : tp_eval (analytic f w0 0 0) = f \/ forall u v, tp_eval (analytic f w0 0 0) u v = f u v) by (right; intros u v; cbn [tp_eval analytic]; rewrite !Rplus_0_r; reflexivity).
  assert (waist = Some w).
  { destruct EE as [EE|EE]; [rewrite EE in HE; congruence|]. rewrite (waist_ext x x (tp_eval (analytic f w0 0 0)) f) in HE by (intros; apply EE). congruence. }
  subst waist. exists wt, w. destruct (HM r nx ny wt w ltac:(lra) Hw Hi Hj HD) as (v & Hv & Hb'). exists v. split; [exact HD|]. split; [lra|]. split; [exact Hv | exact Hb'].
Qed.

(** ** The modes themselves are such fields. *)
Lemma hg_locally_lipschitz w i j : 0 < w -> locally_lipschitz (hg_trans_at w i j 0).
Proof.
  intros Hw X HX. destruct (LL_mode w w Hw i j X HX) as (K & B & HK & _ & H). destruct (H w ltac:(unfold inrange; lra)) as [L _]. exists K.
  intros x x' y y' Hx Hx' Hy Hy'. apply Rcomplements.Rabs_le_between in Hx, Hx', Hy, Hy'. specialize (L x x' y y' Hx Hx' Hy Hy').
  rewrite !hg_waist_plane by lra. cbn beta in L.
  match goal with |- Cmod (Cminus (RtoC ?a) (RtoC ?b)) <= _ => replace (Cminus (RtoC a) (RtoC b)) with (RtoC (a - b)) by (unfold RtoC, Cminus, Cplus, Copp; cbn; f_equal; ring) end.
  rewrite Cmod_R. exact L.
Qed.
Lemma hg00_centre w : 0 < w -> hg_trans_at w 0 0 0 0 0 <> RtoC 0.
Proof.
  intros Hw. rewrite hg_waist_plane by lra. intros E. apply (f_equal Re) in E. unfold RtoC, Re in E. cbn [fst] in E.
  replace (- (/ w * / w) * (0 * 0 + 0 * 0)) with 0 in E by ring. rewrite exp_0 in E. unfold hermite in E. cbn in E.
  assert (0 < sqrt (2 / PI)) by (apply sqrt_lt_R0, Rdiv_lt_0_compat; [lra | apply PI_RGT_0]).
  assert (0 < sqrt (1 / (1 * 1 * w))) by (apply sqrt_lt_R0, Rdiv_lt_0_compat; lra).
  assert (0 < sqrt (2 / PI) * sqrt (1 / (1 * 1 * w)) * sqrt (1 / (1 * 1 * w))) by (repeat apply Rmult_lt_0_compat; assumption). nra.
Qed.
