(** C48: TransverseProfileFromData. *)
From Verif Require Import PyBase CSum NumPy NpMath NpMathProofs GridModel GridProofs LaserSpec AnalysisModel FromArrayProofs FromArraySpec FromArrayProps DataModel DataProofs MomentProofs.
Open Scope R_scope.

Lemma coord_mono lo hi n i j : lo < hi -> (2 <= n)%nat -> (i < j)%nat -> coord lo hi n i < coord lo hi n j.
Proof.
  intros H Hn Hij. unfold coord. apply lt_INR in Hij. assert (0 < INR n - 1) by (apply le_INR in Hn; simpl in Hn; lra).
  assert (0 < (hi - lo) / (INR n - 1)) by (apply Rdiv_lt_0_compat; lra). generalize dependent ((hi - lo) / (INR n - 1)). intros; nra.
Qed.
Lemma linspace_coord lo hi n i : (2 <= n)%nat -> (i < n)%nat -> vget (linspace lo hi n) i = coord lo hi n i.
Proof. intros. apply linspace_nth; assumption. Qed.
Lemma linspace_ascending lo hi n : lo < hi -> (2 <= n)%nat -> ascending (linspace lo hi n) = true.
Proof.
  intros H Hn. apply ascending_iff. rewrite linspace_length. intros i Hi. rewrite !linspace_coord by lia. apply coord_mono; lia || assumption.
Qed.
Lemma linspace_ends lo hi n : (2 <= n)%nat -> vget (linspace lo hi n) 0 = lo /\ last (linspace lo hi n) 0 = hi.
Proof.
  intros Hn. split; [rewrite linspace_coord by lia; unfold coord; simpl; ring|]. rewrite last_vget, linspace_length, linspace_coord by lia.
  unfold coord. rewrite minus_INR by lia. simpl (INR 1). pose proof (INR_m1_neq0 n Hn). field. lra.
Qed.
Lemma roll_lt n s i : (0 < n)%nat -> (roll_index n s i < n)%nat.
Proof. intros H. unfold roll_index. pose proof (Z.mod_pos_bound (Z.of_nat i - s) (Z.of_nat n) ltac:(lia)). lia. Qed.
Lemma roll_inv n s i : (i < n)%nat -> roll_index n (- s) (roll_index n s i) = i.
Proof.
  intros H. unfold roll_index. rewrite Z2Nat.id by (apply Z.mod_pos_bound; lia).
  replace ((Z.of_nat i - s) mod Z.of_nat n - - s)%Z with ((Z.of_nat i - s) mod Z.of_nat n + s)%Z by ring.
  rewrite Zplus_mod_idemp_l. replace (Z.of_nat i - s + s)%Z with (Z.of_nat i) by ring. rewrite Z.mod_small by lia. apply Nat2Z.id.
Qed.
Lemma roll_inv' n s i : (i < n)%nat -> roll_index n s (roll_index n (- s) i) = i.
Proof. intros H. replace s with (- - s)%Z at 1 by ring. apply roll_inv, H. Qed.
(** Sums over a permuted index set. *)
Lemma rsum_perm n (sg tau : nat -> nat) H : (forall i, (i < n)%nat -> (sg i < n)%nat /\ (tau i < n)%nat /\ tau (sg i) = i /\ sg (tau i) = i) ->
  rsum n H = rsum n (fun q => H (tau q)).
Proof.
  intros P. transitivity (rsum n (fun j => rsum n (fun q => if (q =? sg j)%nat then H (tau q) else 0))).
  - apply rsum_ext. intros j Hj. destruct (P j Hj) as (A & B & D & E). rewrite (rsum_single n _ (sg j) A).
    + rewrite Nat.eqb_refl, D. reflexivity.
    + intros q _ Hq. destruct (Nat.eqb_spec q (sg j)); [contradiction|reflexivity].
  - rewrite rsum_swap. apply rsum_ext. intros q Hq. destruct (P q Hq) as (A & B & D & E). rewrite (rsum_single n _ (tau q) B).
    + rewrite E, Nat.eqb_refl. reflexivity.
    + intros j Hj Hn. destruct (Nat.eqb_spec q (sg j)) as [->|]; [|reflexivity]. exfalso. apply Hn. symmetry. apply P, Hj.
Qed.
Lemma rsum_roll n s (G : nat -> nat -> R) : rsum n (fun j => G (roll_index n s j) j) = rsum n (fun q => G q (roll_index n (- s) q)).
Proof.
  rewrite (rsum_perm n (roll_index n s) (roll_index n (- s))).
  - apply rsum_ext. intros q Hq. rewrite roll_inv' by exact Hq. reflexivity.
  - intros i Hi. repeat split; try (apply roll_lt; lia); [apply roll_inv|apply roll_inv']; exact Hi.
Qed.
Lemma isum_roll r c sx sy (F : nat -> nat -> R) (w : nat -> nat -> R) :
  isum r c (fun i j => F (roll_index r sy i) (roll_index c sx j) * w i j) = isum r c (fun i j => F i j * w (roll_index r (- sy) i) (roll_index c (- sx) j)).
Proof.
  unfold isum. rewrite (rsum_roll r sy (fun i' i => rsum c (fun j => F i' (roll_index c sx j) * w i j))).
  apply rsum_ext. intros i _. apply (rsum_roll c sx (fun j' j => F i j' * w (roll_index r (- sy) i) j)).
Qed.
Lemma roll_sum f sx sy : im_sum (im_roll f sx sy) = im_sum f.
Proof.
  rewrite !im_sum_isum. unfold im_roll; cbn [im_rows im_cols im_at]. pose proof (isum_roll (im_rows f) (im_cols f) sx sy (im_at f) (fun _ _ => 1)) as H.
  cbn beta in H. rewrite (isum_ext _ _ (fun i j => im_at f i j * 1) (im_at f)) in H by (intros; ring). rewrite <- H. apply isum_ext. intros. ring.
Qed.
Lemma py_int_close x : Rabs (x - IZR (py_int x)) < 1 /\ Rabs (IZR (py_int x)) <= Rabs x.
Proof.
  unfold py_int. destruct (Rleb 0 x) eqn:E.
  - apply Rleb_true in E. pose proof (Rfloor_bounds x). assert (0 <= IZR (Rfloor x)).
    { apply IZR_le. assert (-1 < Rfloor x)%Z; [apply lt_IZR; lra|lia]. }
    rewrite !Rabs_pos_eq by lra. lra.
  - assert (x < 0). { destruct (Rle_lt_dec 0 x) as [L|L]; [apply Rleb_true in L; congruence|exact L]. }
    pose proof (Rfloor_bounds (- x)). assert (0 <= IZR (Rfloor (- x))).
    { apply IZR_le. assert (-1 < Rfloor (- x))%Z; [apply lt_IZR; lra|lia]. }
    rewrite opp_IZR. split; [apply Rabs_def1; lra|]. rewrite Rabs_Ropp, Rabs_pos_eq by lra. rewrite Rabs_left by lra. lra.
Qed.
Lemma source_centered (f : image) (c : bool) (i j : nat) : (i < im_rows f)%nat -> (j < im_cols f)%nat ->
  im_at (if c then centered f else f) i j = im_at f (fst (source_pixel c f i j)) (snd (source_pixel c f i j)).
Proof.
  intros Hi Hj. unfold source_pixel, pixel_shift. destruct c; cbn [fst snd].
  - unfold centered, center_shift, im_roll. destruct (find_center_of_mass f) as [x0 y0]. cbn [fst snd im_at]. unfold roll_index.
    rewrite !Z.sub_opp_r. reflexivity.
  - rewrite !Z.add_0_r, !Z.mod_small, !Nat2Z.id by lia. reflexivity.
Qed.
Lemma gsum0 (f : image) (c : bool) : im_sum (if c then centered f else f) = im_sum f.
Proof. destruct c; [apply roll_sum|reflexivity]. Qed.
Lemma roll_src (f : image) (c : bool) (i j : nat) : (i < im_rows f)%nat -> (j < im_cols f)%nat -> (fst (source_pixel c f i j) < im_rows f)%nat /\ (snd (source_pixel c f i j) < im_cols f)%nat.
Proof.
  intros Hi Hj. unfold source_pixel. cbn [fst snd]. split; match goal with |- (Z.to_nat (?a mod ?b) < _)%nat => pose proof (Z.mod_pos_bound a b ltac:(lia)); lia end.
Qed.
Section Trans.
Variables (f : image) (x0 y0 x1 y1 : R) (c : bool) (ev : R -> R -> C).
Hypothesis (H : transverse_from_data f (x0, y0) (x1, y1) c = Ok ev) (Hr : (2 <= im_rows f)%nat) (Hc : (2 <= im_cols f)%nat) (Hx : x0 < x1) (Hy : y0 < y1).
Let g := if c then centered f else f.
Let s := im_sum f * ((x1 - x0) / INR (im_cols f)) * ((y1 - y0) / INR (im_rows f)).
Let xs := if c then linspace (- (x1 - x0) / 2) ((x1 - x0) / 2) (im_cols f) else linspace x0 x1 (im_cols f).
Let ys := if c then linspace (- (y1 - y0) / 2) ((y1 - y0) / 2) (im_rows f) else linspace y0 y1 (im_rows f).
Lemma gsum : im_sum g = im_sum f.
Proof. apply gsum0. Qed.
Lemma ev_eq (x y : R) : ev x y = if andb (in_axis_m ys y) (in_axis_m xs x) then RtoC (interp2 ys xs (fun i j => sqrt (im_at g i j / s)) y x) else RtoC 0.
Proof.
  unfold transverse_from_data in H. cbn [fst snd] in H. rewrite !Rabs_pos_eq in H by lra. unfold s, xs, ys. rewrite <- gsum.
  destruct c; cbn [negb] in *; destruct (negb _); try discriminate; injection H as <-; reflexivity.
Qed.
Lemma xs_asc : ascending xs = true. Proof. unfold xs. destruct c; apply linspace_ascending; assumption || lra. Qed.
Lemma ys_asc : ascending ys = true. Proof. unfold ys. destruct c; apply linspace_ascending; assumption || lra. Qed.
Lemma xs_len : length xs = im_cols f. Proof. unfold xs. destruct c; apply linspace_length. Qed.
Lemma ys_len : length ys = im_rows f. Proof. unfold ys. destruct c; apply linspace_length. Qed.
Lemma xs_at (j : nat) : (j < im_cols f)%nat -> data_pos c x0 x1 (im_cols f) j = vget xs j.
Proof. intros Hj. unfold xs, data_pos. destruct c; rewrite linspace_coord by assumption; reflexivity. Qed.
Lemma ys_at (j : nat) : (j < im_rows f)%nat -> data_pos c y0 y1 (im_rows f) j = vget ys j.
Proof. intros Hj. unfold ys, data_pos. destruct c; rewrite linspace_coord by assumption; reflexivity. Qed.
Lemma c48_nodes_s (i j : nat) : (i < im_rows f)%nat -> (j < im_cols f)%nat ->
  ev (data_pos c x0 x1 (im_cols f) j) (data_pos c y0 y1 (im_rows f) i) = RtoC (sqrt (im_at g i j / s)).
Proof.
  intros Hi Hj. rewrite ev_eq, xs_at, ys_at by assumption. rewrite !in_axis_m_node by (try apply asc_mono, ys_asc; try apply asc_mono, xs_asc; rewrite ?xs_len, ?ys_len; assumption). cbn [andb].
  rewrite interp2_node by (try apply asc_mono, ys_asc; try apply asc_mono, xs_asc; rewrite ?xs_len, ?ys_len; assumption). reflexivity.
Qed.
Hypothesis (Hn : nonneg_image f) (Hs : 0 < im_sum f).
Lemma s_pos : 0 < s.
Proof.
  unfold s. apply le_INR in Hr, Hc. simpl in Hr, Hc. apply Rmult_lt_0_compat; [apply Rmult_lt_0_compat; [exact Hs|]|]; apply Rdiv_lt_0_compat; lra.
Qed.
Lemma g_nonneg (i j : nat) : (i < im_rows f)%nat -> (j < im_cols f)%nat -> 0 <= im_at g i j.
Proof. intros Hi Hj. unfold g. rewrite source_centered by assumption. destruct (roll_src f c i j Hi Hj). apply Hn; assumption. Qed.
Lemma c48_sq (i j : nat) : (i < im_rows f)%nat -> (j < im_cols f)%nat ->
  Cmod (ev (data_pos c x0 x1 (im_cols f) j) (data_pos c y0 y1 (im_rows f) i)) ^ 2 = im_at g i j / s.
Proof.
  intros Hi Hj. rewrite c48_nodes_s by assumption. rewrite Cmod_R, Rabs_pos_eq by apply sqrt_pos. apply pow2_sqrt.
  pose proof s_pos. pose proof (g_nonneg i j Hi Hj). apply Rmult_le_pos; [assumption|apply Rlt_le, Rinv_0_lt_compat; assumption].
Qed.
Lemma g_rows : im_rows g = im_rows f. Proof. unfold g. destruct c; reflexivity. Qed.
Lemma g_cols : im_cols g = im_cols f. Proof. unfold g. destruct c; reflexivity. Qed.
Lemma c48_norm_s : pixel_sum (im_rows f) (im_cols f) (fun i j =>
    Cmod (ev (data_pos c x0 x1 (im_cols f) j) (data_pos c y0 y1 (im_rows f) i)) ^ 2 * ((x1 - x0) / INR (im_cols f)) * ((y1 - y0) / INR (im_rows f))) = 1.
Proof.
  change (isum (im_rows f) (im_cols f) (fun i j =>
    Cmod (ev (data_pos c x0 x1 (im_cols f) j) (data_pos c y0 y1 (im_rows f) i)) ^ 2 * ((x1 - x0) / INR (im_cols f)) * ((y1 - y0) / INR (im_rows f))) = 1).
  rewrite (isum_ext _ _ _ (fun i j => (/ s * ((x1 - x0) / INR (im_cols f)) * ((y1 - y0) / INR (im_rows f))) * im_at g i j)).
  - rewrite isum_scal. replace (isum (im_rows f) (im_cols f) (im_at g)) with (im_sum f).
    + pose proof s_pos as Sp. transitivity (s / s); [unfold s, Rdiv; ring|]. field. lra.
    + rewrite <- gsum, im_sum_isum, g_rows, g_cols. reflexivity.
  - intros i j Hi Hj. rewrite c48_sq by assumption. unfold Rdiv. ring.
Qed.
Lemma c48_outside_s (x y : R) : x < data_pos c x0 x1 (im_cols f) 0 \/ data_pos c x0 x1 (im_cols f) (im_cols f - 1) < x \/
   y < data_pos c y0 y1 (im_rows f) 0 \/ data_pos c y0 y1 (im_rows f) (im_rows f - 1) < y -> ev x y = RtoC 0.
Proof.
  rewrite !xs_at, !ys_at by lia. intros Ho. rewrite ev_eq.
  replace (vget xs (im_cols f - 1)) with (last xs 0) in Ho by (rewrite last_vget, xs_len; reflexivity).
  replace (vget ys (im_rows f - 1)) with (last ys 0) in Ho by (rewrite last_vget, ys_len; reflexivity).
  assert (Q : off_axis xs x \/ off_axis ys y) by (unfold off_axis; tauto).
  rewrite !in_axis_m_asc by (apply xs_asc || apply ys_asc).
  destruct Q as [Q|Q]; rewrite (off_axis_false _ _ Q), ?andb_false_r; reflexivity.
Qed.
End Trans.
Lemma c48_nodes f x0 y0 x1 y1 c ev : transverse_from_data f (x0, y0) (x1, y1) c = Ok ev ->
  (2 <= im_rows f)%nat -> (2 <= im_cols f)%nat -> x0 < x1 -> y0 < y1 -> nonneg_image f -> 0 < im_sum f ->
  forall i j, (i < im_rows f)%nat -> (j < im_cols f)%nat ->
    ev (data_pos c x0 x1 (im_cols f) j) (data_pos c y0 y1 (im_rows f) i) =
    RtoC (sqrt (im_at f (fst (source_pixel c f i j)) (snd (source_pixel c f i j)) /
                (im_sum f * ((x1 - x0) / INR (im_cols f)) * ((y1 - y0) / INR (im_rows f))))).
Proof. intros H Hr Hc Hx Hy _ _ i j Hi Hj. rewrite <- source_centered by assumption. eapply c48_nodes_s; eassumption. Qed.
Lemma c48_norm f x0 y0 x1 y1 c ev : transverse_from_data f (x0, y0) (x1, y1) c = Ok ev ->
  (2 <= im_rows f)%nat -> (2 <= im_cols f)%nat -> x0 < x1 -> y0 < y1 -> nonneg_image f -> 0 < im_sum f ->
  pixel_sum (im_rows f) (im_cols f) (fun i j =>
    Cmod (ev (data_pos c x0 x1 (im_cols f) j) (data_pos c y0 y1 (im_rows f) i)) ^ 2 * ((x1 - x0) / INR (im_cols f)) * ((y1 - y0) / INR (im_rows f))) = 1.
Proof. intros. eapply c48_norm_s; eassumption. Qed.
Lemma c48_outside f x0 y0 x1 y1 c ev : transverse_from_data f (x0, y0) (x1, y1) c = Ok ev ->
  (2 <= im_rows f)%nat -> (2 <= im_cols f)%nat -> x0 < x1 -> y0 < y1 ->
  forall x y, x < data_pos c x0 x1 (im_cols f) 0 \/ data_pos c x0 x1 (im_cols f) (im_cols f - 1) < x \/
   y < data_pos c y0 y1 (im_rows f) 0 \/ data_pos c y0 y1 (im_rows f) (im_rows f - 1) < y -> ev x y = RtoC 0.
Proof. intros. eapply c48_outside_s; eassumption. Qed.
Lemma c48_constructs f x0 y0 x1 y1 c : (2 <= im_rows f)%nat -> (2 <= im_cols f)%nat -> x0 < x1 -> y0 < y1 ->
  exists ev, transverse_from_data f (x0, y0) (x1, y1) c = Ok ev.
Proof.
  intros Hr Hc Hx Hy. unfold transverse_from_data. cbn [fst snd]. rewrite !Rabs_pos_eq by lra.
  destruct c; rewrite !asc_mono by (apply linspace_ascending; assumption || lra); cbn [andb negb]; eexists; reflexivity.
Qed.
(** Which pixel is used: all of them exactly once. *)
Lemma c48_bijection c f : forall i j, (i < im_rows f)%nat -> (j < im_cols f)%nat ->
  (fst (source_pixel c f i j) < im_rows f)%nat /\ (snd (source_pixel c f i j) < im_cols f)%nat /\
  forall i' j', (i' < im_rows f)%nat -> (j' < im_cols f)%nat -> source_pixel c f i' j' = source_pixel c f i j -> i' = i /\ j' = j.
Proof.
  assert (B : forall n k a b, (a < n)%nat -> (b < n)%nat -> Z.to_nat ((Z.of_nat a + k) mod Z.of_nat n) = Z.to_nat ((Z.of_nat b + k) mod Z.of_nat n) -> a = b).
  { intros n k a b Ha Hb E. pose proof (roll_inv n (- k) a Ha) as Q. pose proof (roll_inv n (- k) b Hb) as Q'.
    unfold roll_index at 2 in Q. unfold roll_index at 2 in Q'. rewrite Z.sub_opp_r in Q, Q'. rewrite <- Q, <- Q', E. reflexivity. }
  intros i j Hi Hj. destruct (roll_src f c i j Hi Hj) as [A1 A2]. split; [exact A1|]. split; [exact A2|]. intros i' j' Hi' Hj' E.
  unfold source_pixel in E. injection E as E1 E2. split; [apply (B _ _ _ _ Hi' Hi E1)|apply (B _ _ _ _ Hj' Hj E2)].
Qed.
Lemma c48_shift f : Rabs (fst (find_center_of_mass f) - INR (im_cols f) / 2 - IZR (fst (pixel_shift true f))) < 1 /\
  Rabs (snd (find_center_of_mass f) - INR (im_rows f) / 2 - IZR (snd (pixel_shift true f))) < 1.
Proof. unfold pixel_shift. cbn [fst snd]. split; apply py_int_close. Qed.
(** The mean position of a centred profile whose content was not wrapped around: less than 1.5 pixels off the axis. *)
Lemma c48_mean f x0 y0 x1 y1 ev : transverse_from_data f (x0, y0) (x1, y1) true = Ok ev ->
  (2 <= im_rows f)%nat -> (2 <= im_cols f)%nat -> x0 < x1 -> y0 < y1 -> nonneg_image f -> 0 < im_sum f ->
  (forall i j, (i < im_rows f)%nat -> (j < im_cols f)%nat -> im_at f i j <> 0 ->
     (0 <= Z.of_nat i - snd (pixel_shift true f) < Z.of_nat (im_rows f))%Z /\ (0 <= Z.of_nat j - fst (pixel_shift true f) < Z.of_nat (im_cols f))%Z) ->
  let W := fun i j => Cmod (ev (data_pos true x0 x1 (im_cols f) j) (data_pos true y0 y1 (im_rows f) i)) ^ 2 in
  let T := pixel_sum (im_rows f) (im_cols f) W in
  - / 2 * spacing x0 x1 (im_cols f) < pixel_sum (im_rows f) (im_cols f) (fun i j => W i j * data_pos true x0 x1 (im_cols f) j) / T < 3 / 2 * spacing x0 x1 (im_cols f) /\
  - / 2 * spacing y0 y1 (im_rows f) < pixel_sum (im_rows f) (im_cols f) (fun i j => W i j * data_pos true y0 y1 (im_rows f) i) / T < 3 / 2 * spacing y0 y1 (im_rows f).
Proof.
  intros H Hr Hc Hx Hy Hn Hs Hw W T.
  set (s := im_sum f * ((x1 - x0) / INR (im_cols f)) * ((y1 - y0) / INR (im_rows f))).
  assert (Sp : 0 < s) by (apply s_pos; assumption).
  assert (EW : forall i j, (i < im_rows f)%nat -> (j < im_cols f)%nat -> W i j = / s * im_at (centered f) i j).
  { intros i j Hi Hj. unfold W. rewrite (c48_sq f x0 y0 x1 y1 true ev H Hr Hc Hx Hy Hn Hs i j Hi Hj). cbn iota. fold s. unfold Rdiv. ring. }
  assert (Er : im_rows (centered f) = im_rows f) by reflexivity. assert (Ec : im_cols (centered f) = im_cols f) by reflexivity.
  assert (ET : T = / s * im_sum f).
  { unfold T. change (isum (im_rows f) (im_cols f) W = / s * im_sum f). rewrite (isum_ext _ _ W (fun i j => / s * im_at (centered f) i j) EW), isum_scal. f_equal.
    transitivity (im_sum (centered f)); [rewrite im_sum_isum, Er, Ec; reflexivity|apply roll_sum]. }
  destruct (c48_shift f) as [S1 S2]. set (kx := fst (pixel_shift true f)) in *. set (ky := snd (pixel_shift true f)) in *.
  assert (G : forall w : nat -> nat -> R, pixel_sum (im_rows f) (im_cols f) (fun i j => W i j * w i j) =
     / s * isum (im_rows f) (im_cols f) (fun i j => im_at f i j * w (Z.to_nat (Z.of_nat i - ky)) (Z.to_nat (Z.of_nat j - kx)))).
  { intros w. change (isum (im_rows f) (im_cols f) (fun i j => W i j * w i j) = / s * isum (im_rows f) (im_cols f) (fun i j => im_at f i j * w (Z.to_nat (Z.of_nat i - ky)) (Z.to_nat (Z.of_nat j - kx)))).
    rewrite (isum_ext _ _ _ (fun i j => / s * (im_at f (roll_index (im_rows f) (- ky) i) (roll_index (im_cols f) (- kx) j) * w i j))).
    - rewrite isum_scal, isum_roll. f_equal. apply isum_ext. intros i j Hi Hj. rewrite !Z.opp_involutive. unfold roll_index.
      destruct (Req_dec (im_at f i j) 0) as [E|E]; [rewrite E; ring|]. destruct (Hw i j Hi Hj E). rewrite !Z.mod_small by lia. reflexivity.
    - intros i j Hi Hj. rewrite EW by assumption. unfold centered, center_shift, kx, ky, pixel_shift, im_roll. destruct (find_center_of_mass f) as [xc yc]. cbn [fst snd im_at]. ring. }
  assert (P : forall lo hi n q k, (2 <= n)%nat -> (0 <= Z.of_nat q - k < Z.of_nat n)%Z ->
     data_pos true lo hi n (Z.to_nat (Z.of_nat q - k)) = spacing lo hi n * (INR q - IZR k - (INR n - 1) / 2)).
  { intros lo hi n q k Hn2 Hq. unfold data_pos, coord, spacing. rewrite INR_IZR_INZ, Z2Nat.id by lia. rewrite minus_IZR, <- INR_IZR_INZ.
    pose proof (INR_m1_neq0 n Hn2). field. lra. }
  assert (M : forall (q : nat -> nat -> nat) k n sp xc, isum (im_rows f) (im_cols f) (fun i j => im_at f i j * INR (q i j)) = xc * im_sum f ->
     isum (im_rows f) (im_cols f) (fun i j => im_at f i j * (sp * (INR (q i j) - IZR k - (INR n - 1) / 2))) = sp * (xc - IZR k - (INR n - 1) / 2) * im_sum f).
  { intros q k n sp xc E. rewrite (isum_ext _ _ _ (fun i j => sp * (im_at f i j * INR (q i j)) + (sp * (- IZR k - (INR n - 1) / 2)) * im_at f i j)) by (intros; ring).
    rewrite isum_plus, !isum_scal, E, <- im_sum_isum. ring. }
  assert (B : forall sp d, 0 < sp -> Rabs d < 1 -> - / 2 * sp < sp * (d + / 2) < 3 / 2 * sp).
  { intros sp d Hsp Hd. apply Rabs_def2 in Hd. nra. }
  assert (SX : 0 < spacing x0 x1 (im_cols f)) by (unfold spacing; apply le_INR in Hc; simpl in Hc; apply Rdiv_lt_0_compat; lra).
  assert (SY : 0 < spacing y0 y1 (im_rows f)) by (unfold spacing; apply le_INR in Hr; simpl in Hr; apply Rdiv_lt_0_compat; lra).
  pose proof (com_eq f) as CE. destruct (find_center_of_mass f) as [xc yc]. cbn [fst snd] in *. injection CE as CX CY.
  split.
  - rewrite (G (fun _ j => data_pos true x0 x1 (im_cols f) j)), ET.
    rewrite (isum_ext _ _ _ (fun i j => im_at f i j * (spacing x0 x1 (im_cols f) * (INR j - IZR kx - (INR (im_cols f) - 1) / 2)))).
    + rewrite (M (fun _ j => j) kx (im_cols f) _ xc) by (rewrite CX; field; lra).
      replace (/ s * (spacing x0 x1 (im_cols f) * (xc - IZR kx - (INR (im_cols f) - 1) / 2) * im_sum f) / (/ s * im_sum f)) with (spacing x0 x1 (im_cols f) * ((xc - INR (im_cols f) / 2 - IZR kx) + / 2)) by (field; lra).
      apply B; assumption.
    + intros i j Hi Hj. destruct (Req_dec (im_at f i j) 0) as [E|E]; [rewrite E; ring|]. destruct (Hw i j Hi Hj E). rewrite P by assumption. reflexivity.
  - rewrite (G (fun i _ => data_pos true y0 y1 (im_rows f) i)), ET.
    rewrite (isum_ext _ _ _ (fun i j => im_at f i j * (spacing y0 y1 (im_rows f) * (INR i - IZR ky - (INR (im_rows f) - 1) / 2)))).
    + rewrite (M (fun i _ => i) ky (im_rows f) _ yc) by (rewrite CY; field; lra).
      replace (/ s * (spacing y0 y1 (im_rows f) * (yc - IZR ky - (INR (im_rows f) - 1) / 2) * im_sum f) / (/ s * im_sum f)) with (spacing y0 y1 (im_rows f) * ((yc - INR (im_rows f) / 2 - IZR ky) + / 2)) by (field; lra).
      apply B; assumption.
    + intros i j Hi Hj. destruct (Req_dec (im_at f i j) 0) as [E|E]; [rewrite E; ring|]. destruct (Hw i j Hi Hj E). rewrite P by assumption. reflexivity.
Qed.
(** REFUTED: a single bright pixel next to the central one of a 5 x 5 image is not moved to the centre. *)
Definition one_pixel : image := mkImg 5 5 (fun i j => if andb (i =? 2)%nat (j =? 3)%nat then 1 else 0).
Lemma one_pixel_sum : im_sum one_pixel = 1.
Proof. unfold im_sum, one_pixel. cbn. lra. Qed.
Lemma one_pixel_com : find_center_of_mass one_pixel = (3, 2).
Proof. rewrite com_eq, one_pixel_sum. unfold isum, one_pixel. cbn. f_equal; lra. Qed.
Lemma one_pixel_shift : pixel_shift true one_pixel = (0, 0)%Z.
Proof.
  unfold pixel_shift. rewrite one_pixel_com. cbn [fst snd one_pixel im_rows im_cols].
  assert (P : forall x, Rabs x < 1 -> py_int x = 0%Z).
  { intros x Hx. apply Rabs_def2 in Hx. unfold py_int. destruct (Rleb 0 x) eqn:E.
    - apply Rleb_true in E. apply Rfloor_unique. lra.
    - assert (x < 0). { destruct (Rle_lt_dec 0 x) as [L|L]; [apply Rleb_true in L; congruence|exact L]. }
      rewrite (Rfloor_unique (- x) 0); [reflexivity|lra]. }
  rewrite !P; [reflexivity| |]; simpl; apply Rabs_def1; lra.
Qed.
Lemma c48_refuted : exists f ev, nonneg_image f /\ find_center_of_mass f = (3, 2) /\ (im_rows f, im_cols f) = (5, 5)%nat /\
  (forall i j, im_at f i j <> 0 -> i = 2%nat /\ j = 3%nat) /\
  transverse_from_data f (0, 0) (4, 4) true = Ok ev /\ ev 0 0 = RtoC 0 /\ ev 1 0 <> RtoC 0.
Proof.
  destruct (c48_constructs one_pixel 0 0 4 4 true) as (ev & H); try (simpl; lia || lra).
  assert (Hn : nonneg_image one_pixel).
  { intros i j _ _. unfold one_pixel. cbn [im_at]. destruct (andb _ _); lra. }
  exists one_pixel, ev. split; [exact Hn|]. split; [apply one_pixel_com|]. split; [reflexivity|]. split.
  { intros i j. unfold one_pixel. cbn [im_at]. destruct (Nat.eqb_spec i 2), (Nat.eqb_spec j 3); cbn [andb]; intros; auto; contradiction. }
  split; [exact H|].
  assert (N : forall i j, (i < 5)%nat -> (j < 5)%nat -> ev (data_pos true 0 4 5 j) (data_pos true 0 4 5 i) = RtoC (sqrt (im_at one_pixel i j / (1 * ((4 - 0) / INR 5) * ((4 - 0) / INR 5))))).
  { intros i j Hi Hj. pose proof (c48_nodes one_pixel 0 0 4 4 true ev H ltac:(simpl; lia) ltac:(simpl; lia) ltac:(lra) ltac:(lra) Hn ltac:(rewrite one_pixel_sum; lra) i j Hi Hj) as E.
    rewrite one_pixel_sum in E. unfold source_pixel in E. rewrite one_pixel_shift in E. cbn [fst snd] in E. rewrite !Z.add_0_r, !Z.mod_small, !Nat2Z.id in E by (simpl; lia). exact E. }
  assert (P2 : data_pos true 0 4 5 2 = 0) by (unfold data_pos, coord; simpl; field).
  assert (P3 : data_pos true 0 4 5 3 = 1) by (unfold data_pos, coord; simpl; field).
  split.
  - pose proof (N 2%nat 2%nat ltac:(lia) ltac:(lia)) as E. rewrite P2 in E. rewrite E. cbn [one_pixel im_at Nat.eqb andb]. unfold Rdiv. rewrite Rmult_0_l, sqrt_0. reflexivity.
  - pose proof (N 2%nat 3%nat ltac:(lia) ltac:(lia)) as E. rewrite P2, P3 in E. rewrite E. cbn [one_pixel im_at Nat.eqb andb]. apply RtoC_neq0. apply Rgt_not_eq, sqrt_lt_R0. simpl. lra.
Qed.
