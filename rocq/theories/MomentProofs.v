(** C49: moments of images. *)
From Verif Require Import PyBase CSum NumPy NpMath NpMathProofs GridModel GridProofs AnalysisModel FromArraySpec DataModel.
Open Scope R_scope.

Lemma pixels_INR n i : (i < n)%nat -> pixels n i = INR i.
Proof.
  intros H. unfold pixels. destruct n as [|[|n]]; [lia| |].
  - destruct i; [|lia]. reflexivity.
  - rewrite linspace_nth by lia. pose proof (INR_m1_neq0 (S (S n)) ltac:(lia)). field. lra.
Qed.
(** Double sums over an image. *)
Definition isum (r c : nat) (F : nat -> nat -> R) : R := rsum r (fun i => rsum c (fun j => F i j)).
Lemma isum_ext r c F G : (forall i j, (i < r)%nat -> (j < c)%nat -> F i j = G i j) -> isum r c F = isum r c G.
Proof. intros H. apply rsum_ext. intros i Hi. apply rsum_ext. intros j Hj. apply H; assumption. Qed.
Lemma isum_swap r c F : isum r c F = isum c r (fun i j => F j i).
Proof. apply rsum_swap. Qed.
Lemma isum_scal r c s F : isum r c (fun i j => s * F i j) = s * isum r c F.
Proof. unfold isum. rewrite <- rsum_scal_l. apply rsum_ext. intros i _. apply rsum_scal_l. Qed.
Lemma isum_plus r c F G : isum r c (fun i j => F i j + G i j) = isum r c F + isum r c G.
Proof. unfold isum. rewrite <- rsum_plus. apply rsum_ext. intros i _. apply rsum_plus. Qed.
Lemma isum_le r c F G : (forall i j, (i < r)%nat -> (j < c)%nat -> F i j <= G i j) -> isum r c F <= isum r c G.
Proof. intros H. apply rsum_le. intros i Hi. apply rsum_le. intros j Hj. apply H; assumption. Qed.
Lemma im_sum_isum f : im_sum f = isum (im_rows f) (im_cols f) (im_at f).
Proof. reflexivity. Qed.
Lemma im_dot_isum f v : im_dot f v = isum (im_rows f) (im_cols f) (fun i j => im_at f i j * v j).
Proof. reflexivity. Qed.
Lemma im_dotT_isum f v : im_dot (im_T f) v = isum (im_rows f) (im_cols f) (fun i j => im_at f i j * v i).
Proof. unfold im_dot, im_T; cbn [im_rows im_cols im_at]. apply rsum_swap. Qed.
Lemma com_eq f : find_center_of_mass f =
  (isum (im_rows f) (im_cols f) (fun i j => im_at f i j * INR j) / im_sum f, isum (im_rows f) (im_cols f) (fun i j => im_at f i j * INR i) / im_sum f).
Proof.
  unfold find_center_of_mass. rewrite im_dot_isum, im_dotT_isum. f_equal; f_equal; apply isum_ext; intros i j Hi Hj; rewrite pixels_INR by assumption; reflexivity.
Qed.
Lemma d4_eq f : find_d4sigma f = let '(x0, y0) := find_center_of_mass f in
  (4 * sqrt (isum (im_rows f) (im_cols f) (fun i j => im_at f i j * (INR j - x0) ^ 2) / im_sum f),
   4 * sqrt (isum (im_rows f) (im_cols f) (fun i j => im_at f i j * (INR i - y0) ^ 2) / im_sum f)).
Proof.
  unfold find_d4sigma. destruct (find_center_of_mass f) as [x0 y0]. rewrite im_dot_isum, im_dotT_isum.
  f_equal; f_equal; f_equal; f_equal; apply isum_ext; intros i j Hi Hj; rewrite pixels_INR by assumption; reflexivity.
Qed.
(** Reindexing. *)
Lemma rsum_zero n f : (forall i, (i < n)%nat -> f i = 0) -> rsum n f = 0.
Proof. intros H. rewrite (rsum_ext n f (fun _ => 0) H). apply rsum_0. Qed.
Lemma shift_sum n m s F : rsum m (fun i => if andb (s <=? i)%nat (i - s <? n)%nat then F (i - s)%nat else 0) = rsum n (fun i => if (i + s <? m)%nat then F i else 0).
Proof.
  induction m as [|m IH].
  - cbn [rsum]. symmetry. apply rsum_zero. intros i _. destruct (Nat.ltb_spec (i + s) 0); [lia|reflexivity].
  - cbn [rsum]. rewrite IH. 
    assert (E : rsum n (fun i => if (i + s <? S m)%nat then F i else 0) = rsum n (fun i => if (i + s <? m)%nat then F i else 0) + rsum n (fun i => if (i + s =? m)%nat then F i else 0)).
    { rewrite <- rsum_plus. apply rsum_ext. intros i _. destruct (Nat.ltb_spec (i + s) (S m)), (Nat.ltb_spec (i + s) m), (Nat.eqb_spec (i + s) m); try lia; ring. }
    rewrite E. f_equal. destruct (Nat.leb_spec s m) as [L|L]; cbn [andb].
    + destruct (Nat.ltb_spec (m - s) n) as [L'|L'].
      * rewrite (rsum_single n _ (m - s)%nat L'); [rewrite (proj2 (Nat.eqb_eq _ _)) by lia; reflexivity|]. intros i Hi Hne. destruct (Nat.eqb_spec (i + s) m); [lia|reflexivity].
      * symmetry. apply rsum_zero. intros i Hi. destruct (Nat.eqb_spec (i + s) m); [lia|reflexivity].
    + symmetry. apply rsum_zero. intros i Hi. destruct (Nat.eqb_spec (i + s) m); [lia|reflexivity].
Qed.
Lemma moved_sum f g a b (w : nat -> nat -> R) : moved f g a b ->
  isum (im_rows g) (im_cols g) (fun i j => im_at g i j * w i j) = isum (im_rows f) (im_cols f) (fun i j => im_at f i j * w (i + b)%nat (j + a)%nat).
Proof.
  intros (M1 & M2 & M3). unfold isum.
  transitivity (rsum (im_rows g) (fun i => if andb (b <=? i)%nat (i - b <? im_rows f)%nat then
     (fun i' => rsum (im_cols g) (fun j => if andb (a <=? j)%nat (j - a <? im_cols f)%nat then (fun j' => im_at f i' j' * w (i' + b)%nat (j' + a)%nat) (j - a)%nat else 0)) (i - b)%nat else 0)).
  - apply rsum_ext. intros i Hi. destruct (Nat.leb_spec b i) as [L|L]; cbn [andb]; [destruct (Nat.ltb_spec (i - b) (im_rows f)) as [L'|L']|].
    + apply rsum_ext. intros j Hj. destruct (Nat.leb_spec a j) as [K|K]; cbn [andb]; [destruct (Nat.ltb_spec (j - a) (im_cols f)) as [K'|K']|].
      * rewrite <- (M2 (i - b)%nat (j - a)%nat) by lia. replace (i - b + b)%nat with i by lia. replace (j - a + a)%nat with j by lia. reflexivity.
      * rewrite M3; [ring|assumption|assumption|]. intros (i' & j' & E1 & E2 & E3 & E4). lia.
      * rewrite M3; [ring|assumption|assumption|]. intros (i' & j' & E1 & E2 & E3 & E4). lia.
    + apply rsum_zero. intros j Hj. rewrite M3; [ring|assumption|assumption|]. intros (i' & j' & E1 & E2 & E3 & E4). lia.
    + apply rsum_zero. intros j Hj. rewrite M3; [ring|assumption|assumption|]. intros (i' & j' & E1 & E2 & E3 & E4). lia.
  - rewrite (shift_sum (im_rows f) (im_rows g) b (fun i' => rsum (im_cols g) (fun j => if andb (a <=? j)%nat (j - a <? im_cols f)%nat then (fun j' => im_at f i' j' * w (i' + b)%nat (j' + a)%nat) (j - a)%nat else 0))).
    apply rsum_ext. intros i Hi. rewrite (shift_sum (im_cols f) (im_cols g) a (fun j' => im_at f i j' * w (i + b)%nat (j' + a)%nat)).
    destruct (Nat.ltb_spec (i + b) (im_rows g)) as [L|L].
    + apply rsum_ext. intros j Hj. destruct (Nat.ltb_spec (j + a) (im_cols g)) as [K|K]; [reflexivity|].
      destruct (Req_dec (im_at f i j) 0) as [E|E]; [rewrite E; ring|]. destruct (M1 i j Hi Hj E). lia.
    + symmetry. apply rsum_zero. intros j Hj.
      destruct (Req_dec (im_at f i j) 0) as [E|E]; [rewrite E; ring|]. destruct (M1 i j Hi Hj E). lia.
Qed.
Lemma moved_total f g a b : moved f g a b -> im_sum g = im_sum f.
Proof.
  intros M. rewrite !im_sum_isum. pose proof (moved_sum f g a b (fun _ _ => 1) M) as H.
  rewrite (isum_ext _ _ (fun i j => im_at g i j * 1) (im_at g)), (isum_ext _ _ (fun i j => im_at f i j * 1) (im_at f)) in H by (intros; ring). exact H.
Qed.
Lemma c49_translate f g a b x0 y0 : moved f g a b -> im_sum f <> 0 -> find_center_of_mass f = (x0, y0) ->
  find_center_of_mass g = (x0 + INR a, y0 + INR b) /\ find_d4sigma g = find_d4sigma f.
Proof.
  intros M Hs Hc. assert (Hg : find_center_of_mass g = (x0 + INR a, y0 + INR b)).
  { rewrite com_eq in Hc |- *. injection Hc as <- <-. rewrite (moved_total _ _ _ _ M).
    rewrite (moved_sum f g a b (fun _ j => INR j) M), (moved_sum f g a b (fun i _ => INR i) M).
    f_equal.
    - rewrite (isum_ext _ _ _ (fun i j => im_at f i j * INR j + INR a * im_at f i j)) by (intros; rewrite plus_INR; ring).
      rewrite isum_plus, isum_scal, <- im_sum_isum. field. exact Hs.
    - rewrite (isum_ext _ _ _ (fun i j => im_at f i j * INR i + INR b * im_at f i j)) by (intros; rewrite plus_INR; ring).
      rewrite isum_plus, isum_scal, <- im_sum_isum. field. exact Hs. }
  split; [exact Hg|]. rewrite !d4_eq, Hc, Hg. rewrite (moved_total _ _ _ _ M).
  rewrite (moved_sum f g a b (fun _ j => (INR j - (x0 + INR a)) ^ 2) M), (moved_sum f g a b (fun i _ => (INR i - (y0 + INR b)) ^ 2) M).
  f_equal; f_equal; f_equal; f_equal; apply isum_ext; intros i j _ _; rewrite plus_INR; ring.
Qed.
Lemma c49_scale f g s : scaled_image f g s -> s <> 0 -> im_sum f <> 0 -> find_center_of_mass g = find_center_of_mass f /\ find_d4sigma g = find_d4sigma f.
Proof.
  intros (H1 & H2 & H3) Hs Hf.
  assert (S : forall w : nat -> nat -> R, isum (im_rows g) (im_cols g) (fun i j => im_at g i j * w i j) = s * isum (im_rows f) (im_cols f) (fun i j => im_at f i j * w i j)).
  { intros w. rewrite H1, H2, <- isum_scal. apply isum_ext. intros i j Hi Hj. rewrite H3 by assumption. ring. }
  assert (T : im_sum g = s * im_sum f).
  { rewrite !im_sum_isum. rewrite <- isum_scal, H1, H2. apply isum_ext. intros i j Hi Hj. apply H3; assumption. }
  assert (Hc : find_center_of_mass g = find_center_of_mass f).
  { rewrite !com_eq, T. rewrite (S (fun _ j => INR j)), (S (fun i _ => INR i)). f_equal; field; auto. }
  split; [exact Hc|]. rewrite !d4_eq, Hc. destruct (find_center_of_mass f) as [x0 y0]. rewrite T.
  rewrite (S (fun _ j => (INR j - x0) ^ 2)), (S (fun i _ => (INR i - y0) ^ 2)). f_equal; f_equal; f_equal; field; auto.
Qed.
Lemma c49_transpose f g : transposed f g ->
  find_center_of_mass g = (snd (find_center_of_mass f), fst (find_center_of_mass f)) /\ find_d4sigma g = (snd (find_d4sigma f), fst (find_d4sigma f)).
Proof.
  intros (H1 & H2 & H3).
  assert (S : forall w : nat -> nat -> R, isum (im_rows g) (im_cols g) (fun i j => im_at g i j * w i j) = isum (im_rows f) (im_cols f) (fun i j => im_at f i j * w j i)).
  { intros w. rewrite isum_swap, H1, H2. apply isum_ext. intros i j Hi Hj. rewrite H3 by assumption. reflexivity. }
  assert (T : im_sum g = im_sum f).
  { pose proof (S (fun _ _ => 1)) as Q. rewrite !im_sum_isum.
    rewrite (isum_ext _ _ (fun i j => im_at g i j * 1) (im_at g)), (isum_ext _ _ (fun i j => im_at f i j * 1) (im_at f)) in Q by (intros; ring). exact Q. }
  assert (Hc : find_center_of_mass g = (snd (find_center_of_mass f), fst (find_center_of_mass f))).
  { rewrite !com_eq, T. cbn [fst snd]. rewrite (S (fun _ j => INR j)), (S (fun i _ => INR i)). reflexivity. }
  split; [exact Hc|]. rewrite !d4_eq, Hc. destruct (find_center_of_mass f) as [x0 y0]. cbn [fst snd]. rewrite T.
  rewrite (S (fun _ j => (INR j - y0) ^ 2)), (S (fun i _ => (INR i - x0) ^ 2)). reflexivity.
Qed.
Lemma c49_range f x0 y0 : nonneg_image f -> 0 < im_sum f -> find_center_of_mass f = (x0, y0) ->
  0 <= x0 <= INR (im_cols f) - 1 /\ 0 <= y0 <= INR (im_rows f) - 1.
Proof.
  intros Hn Hs Hc. rewrite com_eq in Hc. injection Hc as <- <-.
  assert (G : forall (w : nat -> nat -> R) M, (forall i j, (i < im_rows f)%nat -> (j < im_cols f)%nat -> 0 <= w i j <= M) ->
     0 <= isum (im_rows f) (im_cols f) (fun i j => im_at f i j * w i j) / im_sum f <= M).
  { intros w M Hw.
    assert (0 <= isum (im_rows f) (im_cols f) (fun i j => im_at f i j * w i j)).
    { unfold isum. apply rsum_nonneg. intros i Hi. apply rsum_nonneg. intros j Hj. apply Rmult_le_pos; [apply Hn; assumption|apply Hw; assumption]. }
    assert (isum (im_rows f) (im_cols f) (fun i j => im_at f i j * w i j) <= M * im_sum f).
    { rewrite im_sum_isum, <- isum_scal. apply isum_le. intros i j Hi Hj. pose proof (Hn i j Hi Hj). pose proof (Hw i j Hi Hj). rewrite (Rmult_comm M). apply Rmult_le_compat_l; lra. }
    split; [apply Rmult_le_pos; [assumption|apply Rlt_le, Rinv_0_lt_compat, Hs]|].
    apply Rmult_le_reg_r with (im_sum f); [exact Hs|]. unfold Rdiv. rewrite Rmult_assoc, Rinv_l by lra. lra. }
  assert (I : forall q n, (q < n)%nat -> 0 <= INR q <= INR n - 1).
  { intros q n Hq. split; [apply pos_INR|]. apply le_INR in Hq. rewrite S_INR in Hq. lra. }
  split; apply G; intros; apply I; assumption.
Qed.
(** The D4sigma widths are four times the root-mean-square deviations: they vanish for a single bright pixel line only. *)
Lemma c49_d4_zero f : nonneg_image f -> 0 < im_sum f ->
  0 <= fst (find_d4sigma f) /\ 0 <= snd (find_d4sigma f) /\
  (fst (find_d4sigma f) = 0 -> forall i j, (i < im_rows f)%nat -> (j < im_cols f)%nat -> im_at f i j <> 0 -> INR j = fst (find_center_of_mass f)).
Proof.
  intros Hn Hs. rewrite d4_eq. destruct (find_center_of_mass f) as [x0 y0]. cbn [fst snd].
  split; [apply Rmult_le_pos; [lra|apply sqrt_pos]|]. split; [apply Rmult_le_pos; [lra|apply sqrt_pos]|]. intros H i j Hi Hj Hne.
  set (w := fun i j => im_at f i j * (INR j - x0) ^ 2) in *.
  assert (Hw : forall i j, (i < im_rows f)%nat -> (j < im_cols f)%nat -> 0 <= w i j).
  { intros i' j' Hi' Hj'. unfold w. apply Rmult_le_pos; [apply Hn; assumption|apply pow2_ge_0]. }
  assert (H0 : 0 <= isum (im_rows f) (im_cols f) w).
  { unfold isum. apply rsum_nonneg. intros. apply rsum_nonneg. intros. apply Hw; assumption. }
  assert (Hz : isum (im_rows f) (im_cols f) w / im_sum f = 0).
  { apply sqrt_eq_0; [apply Rmult_le_pos; [exact H0|apply Rlt_le, Rinv_0_lt_compat, Hs]|]. lra. }
  assert (Hz' : isum (im_rows f) (im_cols f) w = 0).
  { apply (f_equal (fun z => z * im_sum f)) in Hz. unfold Rdiv in Hz. rewrite Rmult_assoc, Rinv_l, Rmult_1_r, Rmult_0_l in Hz by lra. exact Hz. }
  unfold isum in Hz'. pose proof (rsum_nonneg_zero (im_rows f) (fun i => rsum (im_cols f) (fun j => w i j)) ltac:(intros; apply rsum_nonneg; intros; apply Hw; assumption) Hz' i Hi) as Q. cbn beta in Q.
  pose proof (rsum_nonneg_zero (im_cols f) (fun j => w i j) ltac:(intros; apply Hw; assumption) Q j Hj) as Q'. cbn beta in Q'. unfold w in Q'.
  apply Rmult_integral in Q' as [Q'|Q']; [contradiction|]. assert (INR j - x0 = 0) by (destruct (Req_dec (INR j - x0) 0) as [|N]; [assumption|exfalso; apply (pow_nonzero _ 2 N); exact Q']). lra.
Qed.
