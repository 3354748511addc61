(** Proofs of C74: profiles from INSIGHT files. *)
From Verif Require Import PyBase CSum NumPy GridModel NpMath NpMathProofs LaserModel FromArrayModel FromArrayProofs FromArraySpec FromArrayProps
  DataProofs ModesModel ModesProofs InsightModel InsightSpec.
Open Scope R_scope.

Lemma div_between a b c d1 d2 lo hi : d1 * d2 > 0 -> lo <= (b - a) / d1 <= hi -> lo <= (c - b) / d2 <= hi ->
  lo <= - d2 / (d1 * (d1 + d2)) * a + (d2 - d1) / (d1 * d2) * b + d1 / (d2 * (d1 + d2)) * c <= hi.
Proof.
  intros HP HL HR. set (u := (b - a) / d1) in *. set (v := (c - b) / d2) in *.
  assert (N1 : d1 <> 0) by (intros ->; lra). assert (N2 : d2 <> 0) by (intros ->; lra).
  assert (N3 : d1 + d2 <> 0) by nra.
  assert (E : - d2 / (d1 * (d1 + d2)) * a + (d2 - d1) / (d1 * d2) * b + d1 / (d2 * (d1 + d2)) * c = (d2 / (d1 + d2)) * u + (d1 / (d1 + d2)) * v) by (unfold u, v; field; auto).
  rewrite E. set (w := d2 / (d1 + d2)). replace (d1 / (d1 + d2)) with (1 - w) by (unfold w; field; exact N3).
  assert (Q : 0 <= w <= 1).
  { assert (W : w * (d1 + d2) = d2) by (unfold w; field; exact N3). clearbody w. clear - W HP N3.
    assert (W2 : w * ((d1 + d2) * (d1 + d2)) = d2 * (d1 + d2)) by (rewrite <- W at 3; ring).
    assert (0 < (d1 + d2) * (d1 + d2)) by nra. split; nra. }
  clearbody w. split; nra.
Qed.
Lemma gradient1_between n f x k lo hi : (2 <= n)%nat -> (k < n)%nat -> ((forall i, (S i < n)%nat -> x i < x (S i)) \/ (forall i, (S i < n)%nat -> x (S i) < x i)) ->
  (forall i, (S i < n)%nat -> (i = k \/ S i = k)%nat -> lo <= (f (S i) - f i) / (x (S i) - x i) <= hi) -> lo <= gradient1 n f x k <= hi.
Proof.
  intros Hn Hk Hx H. unfold gradient1. destruct (Nat.eqb_spec k 0) as [-> |H0]; [apply (H 0%nat); lia|].
  destruct (Nat.eqb_spec k (n - 1)) as [-> |H1].
  - replace (n - 1)%nat with (S (n - 2)) by lia. apply H; lia.
  - cbn zeta. destruct k as [|k]; [lia|]. replace (S k - 1)%nat with k by lia.
    assert (S1 : (x (S k) - x k) * (x (S (S k)) - x (S k)) > 0).
    { destruct Hx as [Hx|Hx]; pose proof (Hx k ltac:(lia)); pose proof (Hx (S k) ltac:(lia)); nra. }
    apply div_between; [exact S1|apply H; lia|apply H; lia].
Qed.

Lemma vget_scaled l s k : vget (map (fun v => v * s) l) k = vget l k * s.
Proof. unfold vget. change 0 with ((fun v => v * s) 0) at 1 || idtac. rewrite <- (Rmult_0_l s) at 1. apply (map_nth (fun v => v * s)). Qed.
Lemma t_SI F k : vget (insight_t F) k = sample_t F k.
Proof. unfold insight_t, sample_t. rewrite vget_scaled. reflexivity. Qed.
Lemma x_SI F k : vget (insight_x F) k = sample_x F k.
Proof. unfold insight_x, sample_x. rewrite vget_scaled. unfold Rdiv. do 2 f_equal. ring. Qed.
Lemma y_SI F k : vget (insight_y F) k = sample_y F k.
Proof. unfold insight_y, sample_y. rewrite vget_scaled. unfold Rdiv. do 2 f_equal. ring. Qed.

Lemma insight_inv F pol o p : from_insight F pol o = Ok p -> exists w a,
  insight_omega F o = Ok w /\ shp (if_data F) = [length (if_x F); length (if_y F); length (if_t F)] /\
  (1 <= length (if_x F))%nat /\ (1 <= length (if_y F))%nat /\ (2 <= length (if_t F))%nat /\ monotone (insight_t F) = true /\
  from_array_xyt (2 * PI * c_light / Rabs w) pol a (insight_x F) (insight_y F) (insight_t F) SpaceTime = Ok p /\
  forall i j k, at3 a i j k = Cmult (if Rltb w 0 then Cconj (at3 (if_data F) i j k) else at3 (if_data F) i j k) (cis (Rabs w * sample_t F k)).
Proof.
  unfold from_insight. destruct (shp (if_data F)) as [|nx [|ny [|nt [|? ?]]]] eqn:Es; try discriminate.
  destruct (Nat.eqb_spec nx 0) as [|X0]; [discriminate|]. destruct (Nat.eqb_spec ny 0) as [|Y0]; [discriminate|]. cbn [orb].
  destruct (Nat.eqb_spec (length (if_t F)) nt) as [Et|]; [|discriminate]. cbn [negb]. destruct (Nat.ltb_spec nt 2) as [|N2]; [discriminate|].
  destruct (insight_omega F o) as [w|] eqn:Ew; [|discriminate]. cbn [bind]. intros H. 
  assert (Ew' : (if Rltb w 0 then w * -1 else w) = Rabs w).
  { destruct (Rltb w 0) eqn:B; [apply PyBase.Rltb_true in B; rewrite Rabs_left by exact B; ring|apply PyBase.Rltb_false in B; rewrite Rabs_pos_eq by lra; reflexivity]. }
  rewrite Ew' in H. exists w. eexists. split; [reflexivity|].
  destruct (from_array_xyt_inv _ _ _ _ _ _ _ _ H) as (_ & _ & A3 & Sh & _). cbn [shp] in Sh. unfold insight_x, insight_y, insight_t in Sh. rewrite !map_length in Sh. injection Sh as -> -> _.
  split; [congruence|]. split; [lia|]. split; [lia|]. split; [lia|]. split; [exact A3|]. split; [exact H|]. intros i j k. cbn [at3]. rewrite t_SI. destruct (Rltb w 0); reflexivity.
Qed.
Lemma array_omega wl pol a xs ys ts o p : from_array_xyt wl pol a xs ys ts o = Ok p -> p_omega0 p = 2 * PI * c_light / wl.
Proof. unfold from_array_xyt. destruct (negb _); [discriminate|]. destruct (negb _); [discriminate|]. intros H. injection H as <-. reflexivity. Qed.
Lemma insight_omega0 F pol o p w : from_insight F pol o = Ok p -> insight_omega F o = Ok w -> w <> 0 -> p_omega0 p = Rabs w.
Proof.
  intros H Ho Hw. destruct (insight_inv _ _ _ _ H) as (w' & a & Ho' & _ & _ & _ & _ & _ & Ha & _). rewrite Ho in Ho'. injection Ho' as <-.
  rewrite (array_omega _ _ _ _ _ _ _ _ Ha). assert (Rabs w <> 0) by (apply Rabs_no_R0; exact Hw). pose proof c_light_pos. pose proof PI_RGT_0. field. lra.
Qed.
Lemma insight_reproduces F pol o p w : from_insight F pol o = Ok p -> insight_omega F o = Ok w -> w <> 0 ->
  (2 <= length (if_x F))%nat -> (2 <= length (if_y F))%nat -> reproduces F p w.
Proof.
  intros H Ho Hw L1 L2. pose proof (insight_omega0 _ _ _ _ _ H Ho Hw) as E. split; [exact E|].
  destruct (insight_inv _ _ _ _ H) as (w' & a & Ho' & _ & _ & _ & L3 & _ & Ha & Hat). rewrite Ho in Ho'. injection Ho' as <-.
  intros i j k Hi Hj Hk. rewrite <- x_SI, <- y_SI, <- t_SI.
  rewrite (c46_nodes _ _ _ _ _ _ _ Ha) by (unfold insight_x, insight_y, insight_t; rewrite map_length; assumption).
  cbn zeta. rewrite Hat, E, t_SI, <- Cmult_assoc, <- cis_plus. replace (Rabs w * sample_t F k + - (Rabs w * sample_t F k)) with 0 by ring. rewrite cis_0, Cmult_1_r.
  destruct (Rltb w 0) eqn:B; [apply PyBase.Rltb_true in B|apply PyBase.Rltb_false in B]; split; intros; try lra; reflexivity.
Qed.

(** The frequency found. *)
Lemma omega_array_between F k lo hi : shp (if_data F) = [length (if_x F); length (if_y F); length (if_t F)] -> monotone (insight_t F) = true ->
  (2 <= length (if_t F))%nat -> (k < length (if_t F))%nat ->
  (forall i, (S i < length (if_t F))%nat -> (i = k \/ S i = k)%nat -> local_freq F i lo hi) -> lo <= omega_array F k <= hi.
Proof.
  intros Sh Ha H2 Hk H. unfold omega_array. assert (D0 : dim0 (if_data F) = length (if_x F)) by (unfold dim0; rewrite Sh; reflexivity).
  assert (D1 : dim1 (if_data F) = length (if_y F)) by (unfold dim1; rewrite Sh; reflexivity). assert (D2 : dim2 (if_data F) = length (if_t F)) by (unfold dim2; rewrite Sh; reflexivity).
  assert (Eo : forall q, onaxis F q = central F q) by (intros q; unfold onaxis, central; rewrite D0, D1; reflexivity).
  rewrite D2. set (u := unwrap (fun q => angle (onaxis F q))).
  assert (G : - hi <= gradient1 (length (if_t F)) u (vget (insight_t F)) k <= - lo); [|lra].
  apply gradient1_between; try assumption.
  - assert (Lt : length (insight_t F) = length (if_t F)) by (unfold insight_t; apply map_length).
    destruct (monotone_cases _ Ha) as [X|(_ & X & _)]; [left|right]; intros i Hi; [apply (ascending_nth _ X)|apply (descending_nth _ X)]; lia.
  - intros i Hi Hik. destruct (H i Hi Hik) as (s & (r0 & r1 & th & R0 & R1 & Hs & Z0 & Z1) & B).
    assert (Es : u (S i) = u i + - s).
    { unfold u. apply unwrap_step; [lra|]. rewrite !Eo, Z0, Z1, cis_plus, !cis_angle by assumption. rewrite <- cis_plus; try (f_equal; ring). }
    rewrite !t_SI. rewrite Es. replace ((u i + - s - u i) / (sample_t F (S i) - sample_t F i)) with (- (s / (sample_t F (S i) - sample_t F i))).
    + lra.
    + unfold Rdiv. ring.
Qed.
Lemma c74_range F pol o p lo hi : from_insight F pol o = Ok p -> o = Peak \/ o = Barycenter ->
  (2 <= length (if_x F))%nat -> (2 <= length (if_y F))%nat ->
  (forall k, (S k < length (if_t F))%nat -> local_freq F k lo hi) -> 0 < lo \/ hi < 0 ->
  exists w, lo <= w <= hi /\ reproduces F p w.
Proof.
  intros H Hc L1 L2 HF Hs. destruct (insight_inv _ _ _ _ H) as (w & a & Ho & Sh & _ & _ & L3 & A3 & _ & _).
  assert (D2 : dim2 (if_data F) = length (if_t F)) by (unfold dim2; rewrite Sh; reflexivity).
  assert (B : forall k, (k < length (if_t F))%nat -> lo <= omega_array F k <= hi).
  { intros k Hk. apply omega_array_between; try assumption. intros i Hi _. apply HF, Hi. }
  exists w. assert (Hw : lo <= w <= hi).
  { destruct Hc as [-> | -> ]; cbn [insight_omega] in Ho; rewrite D2 in Ho.
    - injection Ho as <-. apply B. set (l := map (fun k => Cmod (onaxis F k)) (seq 0 (length (if_t F)))). assert (Ll : length l = length (if_t F)) by (unfold l; rewrite map_length, seq_length; reflexivity).
      rewrite <- Ll. apply np_argmax_spec. intros E. rewrite E in Ll. cbn in Ll. lia.
    - destruct (Reqb _ 0) eqn:Z; [discriminate|]. apply Reqb_false in Z. injection Ho as <-. set (N := length (if_t F)) in *. set (wt := fun k => Cmod (onaxis F k) ^ 2) in *.
      change (rsum N (fun k : nat => Cmod (onaxis F k) ^ 2)) with (rsum N wt) in *. change (fun k : nat => omega_array F k * Cmod (onaxis F k) ^ 2) with (fun k => omega_array F k * wt k).
      assert (P : 0 <= rsum N wt) by (apply rsum_nonneg; intros; apply pow2_ge_0).
      assert (P' : 0 < rsum N wt) by lra.
      assert (Lo : lo * rsum N wt <= rsum N (fun k => omega_array F k * wt k)).
      { rewrite <- rsum_scal_l. apply rsum_le. intros k Hk. apply Rmult_le_compat_r; [apply pow2_ge_0|apply B, Hk]. }
      assert (Hi : rsum N (fun k => omega_array F k * wt k) <= hi * rsum N wt).
      { rewrite <- rsum_scal_l. apply rsum_le. intros k Hk. apply Rmult_le_compat_r; [apply pow2_ge_0|apply B, Hk]. }
      change (lo <= rsum N (fun k => omega_array F k * wt k) / rsum N wt <= hi). clear - P' Lo Hi. set (A := rsum N (fun k => omega_array F k * wt k)) in *. set (Q := rsum N wt) in *. clearbody A Q.
      split; apply (Rmult_le_reg_r Q); try exact P'; unfold Rdiv; rewrite Rmult_assoc, Rinv_l by lra; lra. }
  split; [exact Hw|]. apply (insight_reproduces F pol o p w); try assumption. lra.
Qed.
Lemma c74_peak F pol p lo hi : from_insight F pol Peak = Ok p ->
  (2 <= length (if_x F))%nat -> (2 <= length (if_y F))%nat ->
  (forall b k, brightest F b -> (S k < length (if_t F))%nat -> (k = b \/ S k = b)%nat -> local_freq F k lo hi) -> 0 < lo \/ hi < 0 ->
  exists w, lo <= w <= hi /\ reproduces F p w.
Proof.
  intros H L1 L2 HF Hs. destruct (insight_inv _ _ _ _ H) as (w & a & Ho & Sh & _ & _ & L3 & A3 & _ & _).
  assert (D2 : dim2 (if_data F) = length (if_t F)) by (unfold dim2; rewrite Sh; reflexivity).
  assert (Eo : forall q, onaxis F q = central F q) by (intros q; unfold onaxis, central, dim0, dim1; rewrite Sh; reflexivity).
  exists w. assert (Hw : lo <= w <= hi).
  { cbn [insight_omega] in Ho; rewrite D2 in Ho. injection Ho as <-. set (l := map (fun k => Cmod (onaxis F k)) (seq 0 (length (if_t F)))). assert (Ll : length l = length (if_t F)) by (unfold l; rewrite map_length, seq_length; reflexivity).
    destruct (np_argmax_spec l) as (K1 & K2); [intros E; rewrite E in Ll; cbn in Ll; lia|]. rewrite Ll in K1, K2.
    assert (Lv : forall q, (q < length (if_t F))%nat -> nth q l 0 = Cmod (central F q)).
    { intros q Hq. rewrite <- Eo. unfold l. rewrite (nth_indep _ 0 ((fun k => Cmod (onaxis F k)) 0%nat)) by (rewrite map_length, seq_length; exact Hq). rewrite (map_nth (fun k => Cmod (onaxis F k))), seq_nth by exact Hq. reflexivity. }
    apply omega_array_between; try assumption. intros i Hi Hik. apply (HF (np_argmax l) i); [|exact Hi|exact Hik].
    split; [exact K1|]. intros q Hq. rewrite <- !Lv by assumption. apply K2, Hq. }
  split; [exact Hw|]. apply (insight_reproduces F pol Peak p w); try assumption. lra.
Qed.
Lemma c74_given F pol w p : from_insight F pol (OmegaIs w) = Ok p -> w <> 0 ->
  (2 <= length (if_x F))%nat -> (2 <= length (if_y F))%nat -> reproduces F p w.
Proof. intros H Hw. apply (insight_reproduces F pol (OmegaIs w) p w H eq_refl Hw). Qed.
Lemma c74_real F p w : reproduces F p w -> w <> 0 ->
  forall i j k, (i < length (if_x F))%nat -> (j < length (if_y F))%nat -> (k < length (if_t F))%nat ->
    Re (Cmult (p_eval p (sample_x F i) (sample_y F j) (sample_t F k)) (cis (- (p_omega0 p * sample_t F k)))) = Re (at3 (if_data F) i j k).
Proof. intros (_ & H) Hw i j k Hi Hj Hk. destruct (H i j k Hi Hj Hk) as (A & B). destruct (Rlt_le_dec 0 w); [rewrite A by assumption; reflexivity|rewrite B by lra; reflexivity]. Qed.
Lemma c74_outside F pol o p : from_insight F pol o = Ok p ->
  forall x y t, outside_of (sample_x F) (length (if_x F)) x \/ outside_of (sample_y F) (length (if_y F)) y \/ outside_of (sample_t F) (length (if_t F)) t ->
    p_eval p x y t = RtoC 0.
Proof.
  intros H x y t Ho. destruct (insight_inv _ _ _ _ H) as (w & a & _ & _ & L1 & L2 & L3 & _ & Ha & _).
  apply (c46_outside _ _ _ _ _ _ _ _ Ha).
  assert (G : forall l f n v, length l = n -> (0 < n)%nat -> (forall k, vget l k = f k) -> outside_of f n v -> beyond l v).
  { intros l f n v <- Hn E Q. split; [exact Hn|]. destruct Q as [Q|Q]; [left|right]; intros i Hi; rewrite E; apply Q, Hi. }
  destruct Ho as [Ho|[Ho|Ho]]; [left|right; left|right; right];
    [apply (G _ (sample_x F) (length (if_x F)))|apply (G _ (sample_y F) (length (if_y F)))|apply (G _ (sample_t F) (length (if_t F)))]; try exact Ho;
    try (unfold insight_x, insight_y, insight_t; apply map_length); try lia; [apply x_SI|apply y_SI|apply t_SI].
Qed.
Lemma c74_constructs F pol o : shp (if_data F) = [length (if_x F); length (if_y F); length (if_t F)] ->
  (1 <= length (if_x F))%nat -> (1 <= length (if_y F))%nat -> (2 <= length (if_t F))%nat ->
  strictly_monotone (if_x F) ->
  strictly_monotone (if_y F) ->
  strictly_monotone (if_t F) ->
  match o with
  | OmegaOther => from_insight F pol o = Err AssertionError
  | Barycenter => ((forall k, (k < length (if_t F))%nat -> central F k = RtoC 0) -> exists e, from_insight F pol o = Err e) /\
                  ((exists k, (k < length (if_t F))%nat /\ central F k <> RtoC 0) -> exists p, from_insight F pol o = Ok p)
  | _ => exists p, from_insight F pol o = Ok p
  end.
Proof.
  intros Sh X Y T HX HY HT.
  assert (As : forall l s, 0 < s -> strictly_monotone l -> monotone (map (fun v => v * s) l) = true).
  { intros l s Hs Hl. apply monotone_iff. destruct Hl as [Hl|Hl]; [left|right]; rewrite map_length; intros i Hi; rewrite !vget_scaled; apply Rmult_lt_compat_r; [exact Hs|apply Hl, Hi|exact Hs|apply Hl, Hi]. }
  assert (Ok' : forall w, insight_omega F o = Ok w -> exists p, from_insight F pol o = Ok p).
  { intros w Hw. unfold from_insight. rewrite Sh. destruct (Nat.eqb_spec (length (if_x F)) 0); [lia|]. destruct (Nat.eqb_spec (length (if_y F)) 0); [lia|]. cbn [orb].
    rewrite Nat.eqb_refl. cbn [negb]. destruct (Nat.ltb_spec (length (if_t F)) 2); [lia|]. rewrite Hw. cbn [bind]. unfold from_array_xyt.
    assert (P : forall n, 0 < / 10 ^ n) by (intros; apply Rinv_0_lt_compat, pow_lt; lra).
    unfold insight_x, insight_y, insight_t. rewrite !As by (apply P || assumption). cbn [andb negb shp]. rewrite !map_length. rewrite shape_eqb_refl. cbn [negb]. eexists. reflexivity. }
  assert (Er : forall e, insight_omega F o = Err e -> from_insight F pol o = Err e).
  { intros e He. unfold from_insight. rewrite Sh. destruct (Nat.eqb_spec (length (if_x F)) 0); [lia|]. destruct (Nat.eqb_spec (length (if_y F)) 0); [lia|]. cbn [orb].
    rewrite Nat.eqb_refl. cbn [negb]. destruct (Nat.ltb_spec (length (if_t F)) 2); [lia|]. rewrite He. reflexivity. }
  assert (D2 : dim2 (if_data F) = length (if_t F)) by (unfold dim2; rewrite Sh; reflexivity).
  assert (Eo : forall q, onaxis F q = central F q) by (intros q; unfold onaxis, central, dim0, dim1; rewrite Sh; reflexivity).
  destruct o; cbn [insight_omega] in *; eauto. rewrite D2 in *. split.
  - intros Z. exists OtherException. apply Er. rewrite (rsum_ext _ _ (fun _ => 0)), rsum_0; [rewrite Reqb_refl; reflexivity|]. intros k Hk. rewrite Eo, Z, Cmod_0 by exact Hk. ring.
  - intros (k & Hk & Hz). destruct (Reqb _ 0) eqn:B; [|eapply Ok'; reflexivity]. exfalso. apply Reqb_true in B.
    pose proof (rsum_nonneg_zero (length (if_t F)) (fun k => Cmod (onaxis F k) ^ 2) (fun _ _ => pow2_ge_0 _) B k Hk) as Z. cbn beta in Z.
    rewrite Eo in Z. apply Hz, Cmod_eq_0. nra.
Qed.
