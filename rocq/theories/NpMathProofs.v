(** Facts about angle, unwrap, gradient and linear interpolation. *)
From Verif Require Import PyBase CSum NumPy NpMath.
Open Scope R_scope.

Lemma Rfloor_bounds x : IZR (Rfloor x) <= x < IZR (Rfloor x) + 1.
Proof. unfold Rfloor. destruct (base_Int_part x). split; lra. Qed.
Lemma Rfloor_unique x z : IZR z <= x < IZR z + 1 -> Rfloor x = z.
Proof.
  intros (H1 & H2). destruct (Rfloor_bounds x) as (H3 & H4).
  assert (Rfloor x < z + 1)%Z by (apply lt_IZR; rewrite plus_IZR; lra).
  assert (z < Rfloor x + 1)%Z by (apply lt_IZR; rewrite plus_IZR; lra). lia.
Qed.
Lemma Rfloor_IZR z : Rfloor (IZR z) = z.
Proof. apply Rfloor_unique. lra. Qed.
Lemma np_mod_range x m : 0 < m -> 0 <= np_mod x m < m.
Proof.
  intros Hm. unfold np_mod. destruct (Rfloor_bounds (x / m)) as (H1 & H2).
  assert (x = m * (x / m)) by (field; lra). split; nra.
Qed.
Lemma np_mod_id x m : 0 <= x < m -> np_mod x m = x.
Proof.
  intros (H1 & H2). unfold np_mod. rewrite (Rfloor_unique (x / m) 0); [simpl; ring|].
  split.
  - apply Rmult_le_pos; [lra|]. apply Rlt_le, Rinv_0_lt_compat; lra.
  - apply Rmult_lt_reg_r with m; [lra|]. unfold Rdiv. rewrite Rmult_assoc, Rinv_l by lra. lra.
Qed.
Lemma Rfloor_plus x z : Rfloor (x + IZR z) = (Rfloor x + z)%Z.
Proof. apply Rfloor_unique. rewrite plus_IZR. destruct (Rfloor_bounds x). lra. Qed.
Lemma np_mod_plus x m z : m <> 0 -> np_mod (x + m * IZR z) m = np_mod x m.
Proof.
  intros Hm. unfold np_mod. replace ((x + m * IZR z) / m) with (x / m + IZR z) by (field; exact Hm).
  rewrite Rfloor_plus, plus_IZR. ring.
Qed.

(** ** cis is injective modulo 2 pi *)
Lemma cis_eq_1 x : cis x = RtoC 1 -> exists z, x = 2 * PI * IZR z.
Proof.
  intros H. pose proof PI_RGT_0 as HP. set (z := Rfloor (x / (2 * PI))).
  pose proof (np_mod_range x (2 * PI) ltac:(lra)) as Hy. set (y := np_mod x (2 * PI)) in *.
  assert (Hx : x = y + 2 * PI * IZR z) by (unfold y, np_mod, z; ring).
  exists z. rewrite Hx in H. rewrite cis_period in H. injection H as Hc Hs.
  destruct (Rle_lt_or_eq_dec 0 y (proj1 Hy)) as [Hy0|Hy0]; [|lra].
  exfalso. assert (Hh : 0 < sin (y / 2)) by (apply sin_gt_0; lra).
  replace y with (2 * (y / 2)) in Hc by field. rewrite cos_2a_sin in Hc.
  assert (0 < sin (y / 2) * sin (y / 2)) by (apply Rmult_lt_0_compat; exact Hh). lra.
Qed.
Lemma cis_inj a b : cis a = cis b -> exists z, a = b + 2 * PI * IZR z.
Proof.
  intros H. destruct (cis_eq_1 (a - b)) as (z & Hz).
  - unfold Rminus. rewrite cis_plus, H. apply cis_mul_opp.
  - exists z. lra.
Qed.
Lemma cis_inj_range a b : - PI < a <= PI -> - PI < b <= PI -> cis a = cis b -> a = b.
Proof.
  intros Ha Hb H. destruct (cis_inj a b H) as (z & Hz). pose proof PI_RGT_0 as HP.
  assert (Hz1 : (z < 1)%Z) by (apply lt_IZR; nra).
  assert (Hz2 : (-1 < z)%Z) by (apply lt_IZR; nra).
  assert (z = 0)%Z by lia. subst z. lra.
Qed.

(** ** angle *)
Lemma angle_range z : - PI < angle z <= PI.
Proof.
  unfold angle. pose proof PI_RGT_0 as HP. pose proof (acos_bound (Re z / Cmod z)) as Hb.
  destruct (Reqb (Cmod z) 0) eqn:E0; [lra|].
  destruct (Rleb 0 (Im z)) eqn:E1; [lra|].
  apply Rleb_false in E1. apply Rnot_le_lt in E1. apply Reqb_false in E0. split; [|lra].
  assert (Hlt : acos (Re z / Cmod z) <> PI).
  { intros HE. apply (f_equal cos) in HE. rewrite cos_PI in HE.
    pose proof (Cmod_ge_0 z) as Hm.
    assert (Hsq : Re z ^ 2 + Im z ^ 2 = Cmod z ^ 2).
    { unfold Cmod. rewrite <- (Rsqr_pow2 (sqrt _)), Rsqr_sqrt; [reflexivity|]. nra. }
    rewrite cos_acos in HE.
    - assert (Re z = - Cmod z) by (apply Rmult_eq_reg_r with (/ Cmod z); [|apply Rinv_neq_0_compat; exact E0];
        transitivity (-1); [exact HE|field; exact E0]). nra.
    - assert (-Cmod z <= Re z <= Cmod z) by (generalize dependent (Cmod z); generalize dependent (Im z); generalize (Re z); clear; intros; split; nra).
      split; apply Rmult_le_reg_r with (Cmod z); try lra; unfold Rdiv; rewrite Rmult_assoc, Rinv_l by lra; lra. }
  lra.
Qed.

Lemma angle_polar z : Cmult (RtoC (Cmod z)) (cis (angle z)) = z.
Proof.
  unfold angle. destruct (Reqb (Cmod z) 0) eqn:E0.
  - apply Reqb_true in E0. rewrite E0. apply Cmod_eq_0 in E0. rewrite E0. ring.
  - apply Reqb_false in E0. pose proof (Cmod_ge_0 z) as Hm.
    destruct z as (x, y). unfold Re, Im; cbn [fst snd]. set (m := Cmod (x, y)) in *.
    assert (Hsq : x ^ 2 + y ^ 2 = m ^ 2).
    { unfold m, Cmod; cbn [fst snd]. rewrite <- (Rsqr_pow2 (sqrt _)), Rsqr_sqrt; [reflexivity|]. nra. }
    assert (Hr : - 1 <= x / m <= 1).
    { split; apply Rmult_le_reg_r with m; try lra; unfold Rdiv; rewrite Rmult_assoc, Rinv_l by lra; nra. }
    assert (Hs : sin (acos (x / m)) = Rabs y / m).
    { rewrite sin_acos by exact Hr. replace (1 - (x / m)²) with ((Rabs y / m)²).
      - rewrite sqrt_Rsqr; [reflexivity|]. apply Rmult_le_pos; [apply Rabs_pos|]. apply Rlt_le, Rinv_0_lt_compat; lra.
      - unfold Rsqr. unfold Rdiv. transitivity ((Rabs y * Rabs y) * (/ m * / m)); [ring|].
        rewrite <- Rabs_mult, Rabs_pos_eq by nra. transitivity ((m ^ 2 - x ^ 2) * (/ m * / m)); [rewrite <- Hsq; ring|].
        field. exact E0. }
    unfold cis, Cmult, RtoC; cbn [fst snd].
    destruct (Rleb 0 y) eqn:E1.
    + apply Rleb_true in E1. rewrite cos_acos by exact Hr. rewrite Hs, Rabs_pos_eq by exact E1. f_equal; field; exact E0.
    + apply Rleb_false in E1. rewrite cos_neg, sin_neg, cos_acos by exact Hr. rewrite Hs, Rabs_left by lra. f_equal; field; exact E0.
Qed.

Lemma angle_unique r t : 0 < r -> - PI < t <= PI -> angle (Cmult (RtoC r) (cis t)) = t.
Proof.
  intros Hr Ht. apply cis_inj_range; [apply angle_range|exact Ht|].
  pose proof (angle_polar (Cmult (RtoC r) (cis t))) as H.
  rewrite Cmod_mult, Cmod_cis, Cmod_R, Rabs_pos_eq, Rmult_1_r in H by lra.
  apply (f_equal (Cmult (RtoC (/ r)))) in H. rewrite !Cmult_assoc in H.
  assert (E : Cmult (RtoC (/ r)) (RtoC r) = RtoC 1).
  { unfold Cmult, RtoC; cbn [fst snd]. f_equal; field; lra. }
  rewrite E, !Cmult_1_l in H. exact H.
Qed.
Lemma cis_angle r t : 0 < r -> cis (angle (Cmult (RtoC r) (cis t))) = cis t.
Proof.
  intros Hr. pose proof (angle_polar (Cmult (RtoC r) (cis t))) as H.
  rewrite Cmod_mult, Cmod_cis, Cmod_R, Rabs_pos_eq, Rmult_1_r in H by lra.
  apply (f_equal (Cmult (RtoC (/ r)))) in H. rewrite !Cmult_assoc in H.
  assert (E : Cmult (RtoC (/ r)) (RtoC r) = RtoC 1).
  { unfold Cmult, RtoC; cbn [fst snd]. f_equal; field; lra. }
  rewrite E, !Cmult_1_l in H. exact H.
Qed.

(** ** unwrap *)
Lemma unwrap_correct_period dd : exists z, unwrap_correct dd = 2 * PI * IZR z.
Proof.
  unfold unwrap_correct. pose proof PI_RGT_0 as HP.
  destruct (Rltb (Rabs dd) PI); [exists 0%Z; simpl; ring|].
  destruct (andb (Reqb (np_mod (dd + PI) (2 * PI) - PI) (- PI)) (Rltb 0 dd)) eqn:E.
  - apply andb_prop in E. destruct E as (E & _). apply Reqb_true in E.
    exists (1 - Rfloor ((dd + PI) / (2 * PI)))%Z. rewrite minus_IZR. unfold np_mod in E. lra.
  - exists (- Rfloor ((dd + PI) / (2 * PI)))%Z. rewrite opp_IZR. unfold np_mod. ring.
Qed.
Lemma unwrap_period p k : exists z, unwrap p k = p k + 2 * PI * IZR z.
Proof.
  unfold unwrap. assert (H : forall n, exists z, rsum n (fun i => unwrap_correct (p (S i) - p i)) = 2 * PI * IZR z).
  { induction n as [|n (z & IH)]; simpl; [exists 0%Z; simpl; ring|].
    destruct (unwrap_correct_period (p (S n) - p n)) as (w & Hw). exists (z + w)%Z. rewrite IH, Hw, plus_IZR. ring. }
  destruct (H k) as (z & Hz). exists z. rewrite Hz. reflexivity.
Qed.
Lemma cis_unwrap p k : cis (unwrap p k) = cis (p k).
Proof. destruct (unwrap_period p k) as (z & ->). apply cis_period. Qed.
Lemma unwrap_0 p : unwrap p 0 = p 0%nat.
Proof. unfold unwrap. simpl. ring. Qed.
Lemma unwrap_S p k : unwrap p (S k) - unwrap p k = p (S k) - p k + unwrap_correct (p (S k) - p k).
Proof. unfold unwrap. simpl. ring. Qed.
(** A jump congruent to s in (-pi, pi) becomes exactly s. *)
Lemma unwrap_correct_step s z : - PI < s < PI -> s + 2 * PI * IZR z + unwrap_correct (s + 2 * PI * IZR z) = s.
Proof.
  intros Hs. unfold unwrap_correct. pose proof PI_RGT_0 as HP.
  destruct (Rltb (Rabs (s + 2 * PI * IZR z)) PI) eqn:E.
  - apply Rltb_true in E. apply Rabs_def2 in E. assert (Hz1 : (z < 1)%Z) by (apply lt_IZR; nra).
    assert (Hz2 : (-1 < z)%Z) by (apply lt_IZR; nra). assert (z = 0)%Z by lia. subst z. simpl. ring.
  - replace (s + 2 * PI * IZR z + PI) with (s + PI + 2 * PI * IZR z) by ring.
    rewrite np_mod_plus by lra. rewrite np_mod_id by lra.
    destruct (Reqb (s + PI - PI) (- PI)) eqn:E1; [apply Reqb_true in E1; lra|]. simpl. ring.
Qed.
Lemma unwrap_step p k s : - PI < s < PI -> cis (p (S k)) = cis (p k + s) -> unwrap p (S k) = unwrap p k + s.
Proof.
  intros Hs H. destruct (cis_inj _ _ H) as (z & Hz).
  assert (HU : unwrap p (S k) - unwrap p k = s); [|lra]. rewrite unwrap_S.
  replace (p (S k) - p k) with (s + 2 * PI * IZR z) by lra. apply unwrap_correct_step, Hs.
Qed.
Lemma unwrap_linear p s n : - PI < s < PI ->
  (forall k, (S k < n)%nat -> cis (p (S k)) = cis (p k + s)) ->
  forall k, (k < n)%nat -> unwrap p k = p 0%nat + INR k * s.
Proof.
  intros Hs H k. induction k as [|k IH]; intros Hk; [rewrite unwrap_0; simpl; ring|].
  rewrite (unwrap_step p k s Hs (H k Hk)), IH by lia. rewrite S_INR. ring.
Qed.

(** ** gradient of linear data *)
Lemma gradient_linear n f x a b k : (3 <= n)%nat -> (k < n)%nat ->
  (forall i, (S i < n)%nat -> x i < x (S i)) -> (forall i, (i < n)%nat -> f i = a + b * x i) ->
  gradient2 lin3R n f x k = b.
Proof.
  intros Hn Hk Hx Hf. unfold gradient2, lin3R.
  destruct (Nat.eqb_spec k 0) as [->|K0].
  - rewrite !Hf by lia. pose proof (Hx 0%nat ltac:(lia)). pose proof (Hx 1%nat ltac:(lia)). field. repeat split; lra.
  - destruct (Nat.eqb_spec k (n - 1)) as [->|K1].
    + rewrite !Hf by lia. pose proof (Hx (n - 3)%nat ltac:(lia)) as A. pose proof (Hx (n - 2)%nat ltac:(lia)) as B.
      replace (S (n - 3)) with (n - 2)%nat in A by lia. replace (S (n - 2)) with (n - 1)%nat in B by lia.
      field. repeat split; lra.
    + rewrite !Hf by lia. pose proof (Hx (k - 1)%nat ltac:(lia)) as A. pose proof (Hx k ltac:(lia)) as B.
      replace (S (k - 1)) with k in A by lia. field. repeat split; lra.
Qed.

(** ** Linear interpolation *)
Lemma ascending_nth x : ascending x = true -> forall i j, (i < j < length x)%nat -> vget x i < vget x j.
Proof.
  induction x as [|a x IH]; intros H i j Hij; [simpl in Hij; lia|].
  destruct x as [|b x]; [simpl in Hij; lia|]. cbn [ascending] in H. apply andb_prop in H. destruct H as (H1 & H2).
  apply Rltb_true in H1. specialize (IH H2).
  assert (Hb : forall j, (j < length (b :: x))%nat -> b <= vget (b :: x) j).
  { intros [|q] Hq; [apply Rle_refl|]. apply Rlt_le. change b with (vget (b :: x) 0) at 1. apply IH. lia. }
  destruct j as [|j]; [lia|]. destruct i as [|i].
  - change (vget (a :: b :: x) (S j)) with (vget (b :: x) j). change (vget (a :: b :: x) 0) with a.
    apply Rlt_le_trans with b; [exact H1|]. apply Hb. simpl in *; lia.
  - change (vget (a :: b :: x) (S j)) with (vget (b :: x) j). change (vget (a :: b :: x) (S i)) with (vget (b :: x) i).
    apply IH. simpl in *; lia.
Qed.
Lemma interp1_node x y i : ascending x = true -> (2 <= length x)%nat -> (i < length x)%nat -> interp1 x y (vget x i) = y i.
Proof.
  revert y i. induction x as [|a x IH]; intros y i H Hl Hi; [simpl in Hl; lia|].
  destruct x as [|b x]; [simpl in Hl; lia|].
  assert (Hab : a < b) by (apply (ascending_nth _ H 0%nat 1%nat); simpl; lia).
  destruct x as [|c x].
  - unfold interp1. cbn [find_interval]. unfold lerp.
    destruct i as [|[|i]]; simpl in *; try lia.
    + unfold vget; simpl. unfold Rdiv. ring.
    + unfold vget; simpl. field. lra.
  - unfold interp1. cbn [find_interval].
    destruct (Rltb (vget (a :: b :: c :: x) i) b) eqn:E.
    + apply Rltb_true in E. destruct i as [|i].
      * unfold lerp, vget; simpl. unfold Rdiv. ring.
      * exfalso. destruct i as [|i].
        { unfold vget in E; simpl in E. lra. }
        pose proof (ascending_nth _ H 1%nat (S (S i)) ltac:(simpl in *; lia)) as Q.
        change (vget (a :: b :: c :: x) 1) with b in Q. lra.
    + apply Rltb_false in E. destruct i as [|i]; [unfold vget in E; simpl in E; lra|].
      assert (H' : ascending (b :: c :: x) = true) by (cbn [ascending] in *; apply andb_prop in H; apply H).
      specialize (IH (fun q => y (S q)) i H' ltac:(simpl in *; lia) ltac:(simpl in *; lia)).
      unfold interp1 in IH. exact IH.
Qed.
Lemma in_axis_node x i : ascending x = true -> (i < length x)%nat -> in_axis x (vget x i) = true.
Proof.
  intros H Hi. unfold in_axis.
  assert (HL : last x 0 = vget x (length x - 1)).
  { unfold vget. clear. induction x as [|a x IH]; [reflexivity|]. destruct x as [|b x]; [reflexivity|].
    change (last (a :: b :: x) 0) with (last (b :: x) 0). rewrite IH. simpl length.
    replace (S (S (length x)) - 1)%nat with (S (length x)) by lia. simpl. rewrite Nat.sub_0_r. reflexivity. }
  apply andb_true_intro. split; apply Rleb_true.
  - destruct i as [|i]; [lra|]. apply Rlt_le, (ascending_nth x H). lia.
  - rewrite HL. destruct (Nat.eq_dec i (length x - 1)) as [->|Hn]; [lra|]. apply Rlt_le, (ascending_nth x H). lia.
Qed.
(** Interpolated values lie between the smallest and the largest sample. *)
Lemma find_interval_bounds x v : ascending x = true -> (2 <= length x)%nat -> in_axis x v = true ->
  (S (find_interval x v) < length x)%nat /\ vget x (find_interval x v) <= v <= vget x (S (find_interval x v)).
Proof.
  intros H Hl Hin. unfold in_axis in Hin. apply andb_prop in Hin. destruct Hin as (I1 & I2).
  apply Rleb_true in I1. apply Rleb_true in I2.
  revert H Hl I1 I2. induction x as [|a x IH]; intros H Hl I1 I2; [simpl in Hl; lia|].
  destruct x as [|b x]; [simpl in Hl; lia|]. destruct x as [|c x].
  - cbn [find_interval]. unfold vget in *; simpl in *. split; [lia|lra].
  - cbn [find_interval]. destruct (Rltb v b) eqn:E.
    + apply Rltb_true in E. unfold vget in *; simpl in *. split; [lia|lra].
    + apply Rltb_false in E. assert (H' : ascending (b :: c :: x) = true) by (cbn [ascending] in *; apply andb_prop in H; apply H).
      destruct (IH H' ltac:(simpl in *; lia)) as (Q1 & Q2).
      * unfold vget; simpl. lra.
      * exact I2.
      * split; [simpl in *; lia|exact Q2].
Qed.
Lemma lerp_between x0 x1 y0 y1 v lo hi : x0 < x1 -> x0 <= v <= x1 -> lo <= y0 <= hi -> lo <= y1 <= hi ->
  lo <= lerp x0 x1 y0 y1 v <= hi.
Proof.
  intros Hx Hv H0 H1. unfold lerp. set (s := (v - x0) / (x1 - x0)).
  assert (Hs : 0 <= s <= 1).
  { unfold s. split; [apply Rmult_le_pos; [lra|apply Rlt_le, Rinv_0_lt_compat; lra]|].
    apply Rmult_le_reg_r with (x1 - x0); [lra|]. unfold Rdiv. rewrite Rmult_assoc, Rinv_l by lra. lra. }
  split; nra.
Qed.
Lemma interp1_between x y v lo hi : ascending x = true -> (2 <= length x)%nat -> in_axis x v = true ->
  (forall i, (i < length x)%nat -> lo <= y i <= hi) -> lo <= interp1 x y v <= hi.
Proof.
  intros H Hl Hin Hy. destruct (find_interval_bounds x v H Hl Hin) as (Q1 & Q2).
  unfold interp1. apply lerp_between; try (apply Hy; lia); [apply (ascending_nth x H); lia|exact Q2].
Qed.

(** In a cell of the axis, the interpolant is the linear one of that cell. *)
Lemma interp1_cell x y v i : ascending x = true -> (S i < length x)%nat -> vget x i <= v <= vget x (S i) ->
  interp1 x y v = lerp (vget x i) (vget x (S i)) (y i) (y (S i)) v.
Proof.
  intros H Hi Hv. assert (Hl : (2 <= length x)%nat) by lia.
  assert (Hlt : vget x i < vget x (S i)) by (apply (ascending_nth x H); lia).
  assert (HL : last x 0 = vget x (length x - 1)).
  { unfold vget. clear. induction x as [|a x IH]; [reflexivity|]. destruct x as [|b x]; [reflexivity|].
    change (last (a :: b :: x) 0) with (last (b :: x) 0). rewrite IH. simpl length.
    replace (S (S (length x)) - 1)%nat with (S (length x)) by lia. simpl. rewrite Nat.sub_0_r. reflexivity. }
  assert (Hle : forall a b, (a <= b < length x)%nat -> vget x a <= vget x b).
  { intros a b Hab. destruct (Nat.eq_dec a b) as [->|N]; [apply Rle_refl|]. apply Rlt_le, (ascending_nth x H). lia. }
  assert (Hin : in_axis x v = true).
  { unfold in_axis. apply andb_true_intro. rewrite !Rleb_true, HL.
    pose proof (Hle 0%nat i ltac:(lia)). pose proof (Hle (S i) (length x - 1)%nat ltac:(lia)). lra. }
  destruct (find_interval_bounds x v H Hl Hin) as (Q1 & Q2).
  assert (E : find_interval x v = i \/ v = vget x i \/ v = vget x (S i)).
  { destruct (Nat.lt_trichotomy (find_interval x v) i) as [L|[L|L]]; [|left; exact L|].
    - right; left. pose proof (Hle (S (find_interval x v)) i ltac:(lia)). lra.
    - right; right. pose proof (Hle (S i) (find_interval x v) ltac:(lia)). lra. }
  destruct E as [E|[E|E]].
  - unfold interp1. rewrite E. reflexivity.
  - rewrite E, interp1_node by (assumption || lia). unfold lerp. replace (vget x i - vget x i) with 0 by ring. unfold Rdiv. ring.
  - rewrite E, interp1_node by (assumption || lia). unfold lerp. field. lra.
Qed.
Lemma interp1_cell_between x y v i lo hi : ascending x = true -> (S i < length x)%nat -> vget x i <= v <= vget x (S i) ->
  lo <= y i <= hi -> lo <= y (S i) <= hi -> lo <= interp1 x y v <= hi.
Proof.
  intros H Hi Hv H0 H1. rewrite (interp1_cell x y v i H Hi Hv). apply lerp_between; try assumption. apply (ascending_nth x H). lia.
Qed.
Lemma in_axis_cell x v i : ascending x = true -> (S i < length x)%nat -> vget x i <= v <= vget x (S i) -> in_axis x v = true.
Proof.
  intros H Hi Hv. pose proof (in_axis_node x i H ltac:(lia)) as A. pose proof (in_axis_node x (S i) H ltac:(lia)) as B.
  unfold in_axis in *. apply andb_prop in A, B. rewrite !Rleb_true in A, B. apply andb_true_intro. rewrite !Rleb_true. lra.
Qed.

(** ** Axes in either order *)
Lemma last_vget l : last l 0 = vget l (length l - 1).
Proof.
  unfold vget. induction l as [|a l IH]; [reflexivity|]. destruct l as [|b l]; [reflexivity|].
  change (last (a :: b :: l) 0) with (last (b :: l) 0). rewrite IH. simpl length.
  replace (S (S (length l)) - 1)%nat with (S (length l)) by lia. simpl. rewrite Nat.sub_0_r. reflexivity.
Qed.
Lemma descending_nth x : descending x = true -> forall i j, (i < j < length x)%nat -> vget x j < vget x i.
Proof.
  induction x as [|a x IH]; intros H i j Hij; [simpl in Hij; lia|].
  destruct x as [|b x]; [simpl in Hij; lia|]. cbn [descending] in H. apply andb_prop in H. destruct H as (H1 & H2).
  apply Rltb_true in H1. specialize (IH H2).
  assert (Hb : forall j, (j < length (b :: x))%nat -> vget (b :: x) j <= b).
  { intros [|q] Hq; [apply Rle_refl|]. apply Rlt_le. change b with (vget (b :: x) 0) at 2. apply IH. lia. }
  destruct j as [|j]; [lia|]. destruct i as [|i].
  - change (vget (a :: b :: x) 0) with a. change (vget (a :: b :: x) (S j)) with (vget (b :: x) j). pose proof (Hb j ltac:(simpl in *; lia)). lra.
  - change (vget (a :: b :: x) (S j)) with (vget (b :: x) j). change (vget (a :: b :: x) (S i)) with (vget (b :: x) i). apply IH. simpl in *. lia.
Qed.
Lemma ascending_iff x : (forall i, (S i < length x)%nat -> vget x i < vget x (S i)) -> ascending x = true.
Proof.
  induction x as [|a x IH]; intros H; [reflexivity|]. destruct x as [|b x]; [reflexivity|].
  cbn [ascending]. apply andb_true_intro. split.
  - apply Rltb_true. apply (H 0%nat). simpl; lia.
  - apply IH. intros i Hi. apply (H (S i)). simpl in *; lia.
Qed.
Lemma descending_iff x : (forall i, (S i < length x)%nat -> vget x (S i) < vget x i) -> descending x = true.
Proof.
  induction x as [|a x IH]; intros H; [reflexivity|]. destruct x as [|b x]; [reflexivity|].
  cbn [descending]. apply andb_true_intro. split.
  - apply Rltb_true. apply (H 0%nat). simpl; lia.
  - apply IH. intros i Hi. apply (H (S i)). simpl in *; lia.
Qed.
Lemma vget_rev x i : (i < length x)%nat -> vget (rev x) i = vget x (length x - S i).
Proof. intros H. unfold vget. apply rev_nth. exact H. Qed.
Lemma asc_rev x : ascending x = true -> descending (rev x) = true.
Proof.
  intros H. apply descending_iff. rewrite rev_length. intros i Hi. rewrite !vget_rev by lia. apply (ascending_nth x H). lia.
Qed.
Lemma desc_rev x : descending x = true -> ascending (rev x) = true.
Proof.
  intros H. apply ascending_iff. rewrite rev_length. intros i Hi. rewrite !vget_rev by lia. apply (descending_nth x H). lia.
Qed.
Lemma monotone_cases x : monotone x = true -> ascending x = true \/ (ascending x = false /\ descending x = true /\ ascending (rev x) = true).
Proof. unfold monotone. destruct (ascending x) eqn:A; [left; reflexivity|]. cbn [orb]. intros D. right. split; [reflexivity|]. split; [exact D|apply desc_rev, D]. Qed.
Lemma asc_mono x : ascending x = true -> monotone x = true.
Proof. intros H. unfold monotone. rewrite H. reflexivity. Qed.
Lemma desc_mono x : descending x = true -> monotone x = true.
Proof. intros H. unfold monotone. rewrite H. apply orb_true_r. Qed.
Lemma interp1m_asc x y v : ascending x = true -> interp1m x y v = interp1 x y v.
Proof. intros H. unfold interp1m. rewrite H. reflexivity. Qed.
Lemma in_axis_m_asc x v : ascending x = true -> in_axis_m x v = in_axis x v.
Proof. intros H. unfold in_axis_m. rewrite H. reflexivity. Qed.
Lemma interp1m_node x y i : monotone x = true -> (2 <= length x)%nat -> (i < length x)%nat -> interp1m x y (vget x i) = y i.
Proof.
  intros H L Hi. unfold interp1m. destruct (monotone_cases x H) as [A|(A & D & R)]; rewrite A; [apply interp1_node; assumption|].
  replace (vget x i) with (vget (rev x) (length x - S i)) by (rewrite vget_rev by lia; f_equal; lia).
  rewrite interp1_node by (rewrite ?rev_length; assumption || lia). f_equal. lia.
Qed.
Lemma in_axis_m_node x i : monotone x = true -> (i < length x)%nat -> in_axis_m x (vget x i) = true.
Proof.
  intros H Hi. unfold in_axis_m. destruct (monotone_cases x H) as [A|(A & D & R)]; rewrite A; [apply in_axis_node; assumption|].
  replace (vget x i) with (vget (rev x) (length x - S i)) by (rewrite vget_rev by lia; f_equal; lia).
  apply in_axis_node; rewrite ?rev_length; assumption || lia.
Qed.
Lemma cell_rev x i v : monotone x = true -> ascending x = false -> (S i < length x)%nat ->
  vget x i <= v <= vget x (S i) \/ vget x (S i) <= v <= vget x i ->
  (S (length x - S (S i)) < length (rev x))%nat /\ vget (rev x) (length x - S (S i)) = vget x (S i) /\ vget (rev x) (S (length x - S (S i))) = vget x i /\
  vget x (S i) <= v <= vget x i.
Proof.
  intros H A Hi Hv. destruct (monotone_cases x H) as [A'|(_ & D & R)]; [congruence|]. rewrite rev_length.
  pose proof (descending_nth x D i (S i) ltac:(lia)). rewrite !vget_rev by lia.
  split; [lia|]. split; [f_equal; lia|]. split; [f_equal; lia|]. lra.
Qed.
Lemma lerp_sym x0 x1 y0 y1 v : x0 <> x1 -> lerp x0 x1 y0 y1 v = lerp x1 x0 y1 y0 v.
Proof. intros H. unfold lerp. field. lra. Qed.
Lemma interp1m_cell x y v i : monotone x = true -> (S i < length x)%nat -> vget x i <= v <= vget x (S i) \/ vget x (S i) <= v <= vget x i ->
  interp1m x y v = lerp (vget x i) (vget x (S i)) (y i) (y (S i)) v.
Proof.
  intros H Hi Hv. unfold interp1m. destruct (ascending x) eqn:A.
  - pose proof (ascending_nth x A i (S i) ltac:(lia)). apply interp1_cell; [exact A|exact Hi|lra].
  - destruct (monotone_cases x H) as [A'|(_ & D & R)]; [congruence|].
    destruct (cell_rev x i v H A Hi Hv) as (L & E1 & E2 & Hv'). pose proof (descending_nth x D i (S i) ltac:(lia)).
    rewrite (interp1_cell _ _ _ (length x - S (S i)) R L) by (rewrite E1, E2; exact Hv'). rewrite E1, E2, lerp_sym by lra.
    f_equal; f_equal; lia.
Qed.
Lemma interp1m_cell_between x y v i lo hi : monotone x = true -> (S i < length x)%nat -> vget x i <= v <= vget x (S i) \/ vget x (S i) <= v <= vget x i ->
  lo <= y i <= hi -> lo <= y (S i) <= hi -> lo <= interp1m x y v <= hi.
Proof.
  intros H Hi Hv H0 H1. rewrite (interp1m_cell x y v i H Hi Hv).
  destruct (monotone_cases x H) as [A|(_ & D & R)].
  - pose proof (ascending_nth x A i (S i) ltac:(lia)). apply lerp_between; try assumption. lra.
  - pose proof (descending_nth x D i (S i) ltac:(lia)). rewrite lerp_sym by lra. apply lerp_between; try assumption. lra.
Qed.
Lemma in_axis_m_cell x v i : monotone x = true -> (S i < length x)%nat -> vget x i <= v <= vget x (S i) \/ vget x (S i) <= v <= vget x i -> in_axis_m x v = true.
Proof.
  intros H Hi Hv. unfold in_axis_m. destruct (ascending x) eqn:A.
  - pose proof (ascending_nth x A i (S i) ltac:(lia)). apply (in_axis_cell _ _ i); [exact A|exact Hi|lra].
  - destruct (monotone_cases x H) as [A'|(_ & D & R)]; [congruence|].
    destruct (cell_rev x i v H A Hi Hv) as (L & E1 & E2 & Hv').
    apply (in_axis_cell _ _ (length x - S (S i)) R L). rewrite E1, E2. exact Hv'.
Qed.
Lemma in_axis_m_beyond x v : (0 < length x)%nat ->
  (forall i, (i < length x)%nat -> v < vget x i) \/ (forall i, (i < length x)%nat -> vget x i < v) -> in_axis_m x v = false.
Proof.
  intros L H.
  assert (G : forall z, (0 < length z)%nat -> (forall i, (i < length z)%nat -> v < vget z i) \/ (forall i, (i < length z)%nat -> vget z i < v) -> in_axis z v = false).
  { clear. intros z Lz [H|H]; unfold in_axis; apply andb_false_iff; [left|right]; destruct (Rleb _ _) eqn:E; try reflexivity; apply Rleb_true in E.
    - pose proof (H 0%nat Lz). lra.
    - rewrite last_vget in E. pose proof (H (length z - 1)%nat ltac:(lia)). lra. }
  unfold in_axis_m. destruct (ascending x); [apply G; assumption|]. apply G; rewrite ?rev_length; [exact L|].
  destruct H as [H|H]; [left|right]; intros i Hi; rewrite vget_rev by exact Hi; apply H; lia.
Qed.
Lemma interp2_node xs ts f i k : monotone xs = true -> monotone ts = true -> (2 <= length xs)%nat -> (2 <= length ts)%nat ->
  (i < length xs)%nat -> (k < length ts)%nat -> interp2 xs ts f (vget xs i) (vget ts k) = f i k.
Proof. intros. unfold interp2. rewrite interp1m_node by assumption. apply interp1m_node; assumption. Qed.
Lemma interp3_node xs ys ts f i j k : monotone xs = true -> monotone ys = true -> monotone ts = true ->
  (2 <= length xs)%nat -> (2 <= length ys)%nat -> (2 <= length ts)%nat ->
  (i < length xs)%nat -> (j < length ys)%nat -> (k < length ts)%nat ->
  interp3 xs ys ts f (vget xs i) (vget ys j) (vget ts k) = f i j k.
Proof. intros. unfold interp3. rewrite interp1m_node by assumption. rewrite interp1m_node by assumption. apply interp1m_node; assumption. Qed.

