(** C47: LongitudinalProfileFromData, temporal data. *)
From Verif Require Import PyBase CSum NumPy NpMath NpMathProofs GridModel AnalysisModel FromArrayProofs FromArraySpec DataModel.
Open Scope R_scope.

Lemma vget_map (f : R -> R) l i : (i < length l)%nat -> vget (map f l) i = f (vget l i).
Proof. intros H. unfold vget. rewrite (nth_indep _ 0 (f 0)) by (rewrite map_length; exact H). apply map_nth. Qed.
Lemma argmin_spec l : l <> [] -> (argmin l < length l)%nat /\ (forall q, (q < length l)%nat -> vget l (argmin l) <= vget l q) /\
  (forall q, (q < argmin l)%nat -> vget l (argmin l) < vget l q).
Proof.
  induction l as [|x l IH]; [congruence|]. intros _. destruct l as [|y l].
  - cbn. split; [lia|]. split; [|lia]. intros [|q] Hq; [apply Rle_refl|lia].
  - destruct IH as (I1 & I2 & I3); [discriminate|]. change (argmin (x :: y :: l)) with (if Rleb x (vget (y :: l) (argmin (y :: l))) then 0%nat else S (argmin (y :: l))).
    set (i := argmin (y :: l)) in *. destruct (Rleb x (vget (y :: l) i)) eqn:E.
    + apply Rleb_true in E. split; [cbn; lia|]. split; [|lia]. intros [|q] Hq; [apply Rle_refl|]. apply Rle_trans with (1 := E).
      change (vget (x :: y :: l) (S q)) with (vget (y :: l) q). apply I2. cbn [length] in *. lia.
    + assert (E' : vget (y :: l) i < x). { destruct (Rle_lt_dec x (vget (y :: l) i)) as [L|L]; [apply Rleb_true in L; congruence|exact L]. }
      split; [cbn [length] in *; lia|]. change (vget (x :: y :: l) (S i)) with (vget (y :: l) i). split.
      * intros [|q] Hq; [apply Rlt_le, E'|]. apply (I2 q). cbn [length] in *. lia.
      * intros [|q] Hq; [exact E'|]. apply (I3 q). lia.
Qed.
Lemma nearest_argmin l v : l <> [] -> nearest l v (argmin (map (fun t => Rabs (t - v)) l)).
Proof.
  intros H. destruct (argmin_spec (map (fun t => Rabs (t - v)) l)) as (A & B & D); [destruct l; [congruence|discriminate]|].
  rewrite map_length in *. unfold nearest. split; [exact A|].
  split; intros q Hq.
  - specialize (B q Hq). rewrite !(vget_map (fun t => Rabs (t - v))) in B by lia. exact B.
  - specialize (D q Hq). rewrite !(vget_map (fun t => Rabs (t - v))) in D by lia. exact D.
Qed.
Lemma nearest_unique l v a b : nearest l v a -> nearest l v b -> a = b.
Proof.
  intros (A1 & A2 & A3) (B1 & B2 & B3). destruct (Nat.lt_trichotomy a b) as [L|[L|L]]; [|exact L|]; exfalso.
  - specialize (B3 a L). specialize (A2 b B1). lra.
  - specialize (A3 b L). specialize (B2 a A1). lra.
Qed.
Lemma slice_length {A} (l : list A) a b : (b <= length l)%nat -> length (slice l a b) = (b - a)%nat.
Proof. intros H. unfold slice. rewrite firstn_length, skipn_length. lia. Qed.
Lemma nth_skipn {A} (l : list A) a i d : nth i (skipn a l) d = nth (a + i) l d.
Proof. revert l. induction a as [|a IH]; intros [|x l]; cbn [skipn Nat.add nth]; try reflexivity; [destruct i; reflexivity|apply IH]. Qed.
Lemma nth_firstn {A} (l : list A) n i d : (i < n)%nat -> nth i (firstn n l) d = nth i l d.
Proof. revert l i. induction n as [|n IH]; intros [|x l] [|i] H; cbn; try reflexivity; try lia. apply IH. lia. Qed.
Lemma slice_nth l a b i : (i < b - a)%nat -> vget (slice l a b) i = vget l (a + i).
Proof. intros H. unfold vget, slice. rewrite nth_firstn by exact H. apply nth_skipn. Qed.
Lemma slice_ascending l a b : ascending l = true -> (b <= length l)%nat -> ascending (slice l a b) = true.
Proof.
  intros H Hb. apply ascending_iff. intros i Hi. rewrite slice_length in Hi by exact Hb. rewrite !slice_nth by lia. apply (ascending_nth l H). lia.
Qed.
Lemma Reqb_refl x : Reqb x x = true.
Proof. apply Reqb_true. reflexivity. Qed.
Lemma Rltb_false a b : b <= a -> Rltb a b = false.
Proof. intros H. destruct (Rltb a b) eqn:E; [apply Rltb_true in E; lra|reflexivity]. Qed.
(** np.interp inside a cell, and beyond the ends. *)
Lemma np_interp_low fl fr xp fp t : xp <> [] -> length xp = length fp -> t < vget xp 0 -> np_interp_with fl fr xp fp t = Ok (fl (vget fp 0)).
Proof.
  intros Hne Hl Ht. unfold np_interp_with. destruct xp as [|x0 xp]; [congruence|]. rewrite Hl, Nat.eqb_refl. 
  unfold vget in Ht. cbn [nth] in Ht. rewrite (proj2 (Rltb_true t x0)) by exact Ht. reflexivity.
Qed.
Lemma np_interp_high fl fr xp fp t : xp <> [] -> length xp = length fp -> ascending xp = true -> last xp 0 < t -> np_interp_with fl fr xp fp t = Ok (fr (last fp 0)).
Proof.
  intros Hne Hl Ha Ht. unfold np_interp_with. destruct xp as [|x0 xp]; [congruence|]. rewrite Hl, Nat.eqb_refl.
  assert (H0 : x0 <= last (x0 :: xp) 0).
  { rewrite last_vget. destruct xp as [|x1 xp]; [apply Rle_refl|]. apply Rlt_le. change x0 with (vget (x0 :: x1 :: xp) 0) at 1.
    apply (ascending_nth _ Ha). cbn [length]. lia. }
  rewrite (Rltb_false t x0) by lra. rewrite (proj2 (Rltb_true _ _)) by exact Ht. reflexivity.
Qed.
Lemma np_interp_cell fl fr xp fp t i : length xp = length fp -> ascending xp = true -> in_cell xp i t ->
  np_interp_with fl fr xp fp t = Ok (lerp (vget xp i) (vget xp (S i)) (vget fp i) (vget fp (S i)) t).
Proof.
  intros Hl Ha [Hi Hv]. unfold np_interp_with. destruct xp as [|x0 xp]; [simpl in Hi; lia|]. rewrite Hl, Nat.eqb_refl. f_equal.
  pose proof (in_axis_cell _ _ _ Ha Hi Hv) as Hin. unfold in_axis in Hin. apply andb_prop in Hin as [I1 I2]. apply Rleb_true in I1. apply Rleb_true in I2.
  rewrite (Rltb_false t x0) by exact I1. rewrite (Rltb_false _ t) by exact I2.
  destruct (Reqb t (last (x0 :: xp) 0)) eqn:E; [|apply interp1_cell; assumption].
  apply Reqb_true in E. assert (Ei : S i = (length (x0 :: xp) - 1)%nat).
  { destruct (Nat.eq_dec (S i) (length (x0 :: xp) - 1)) as [Q|Q]; [exact Q|]. exfalso.
    assert (vget (x0 :: xp) (S i) < vget (x0 :: xp) (length (x0 :: xp) - 1)) by (apply (ascending_nth _ Ha); lia).
    rewrite last_vget in E. lra. }
  rewrite (last_vget fp), <- Hl, <- Ei. rewrite last_vget, <- Ei in E. rewrite E.
  assert (vget (x0 :: xp) i < vget (x0 :: xp) (S i)) by (apply (ascending_nth _ Ha); lia).
  unfold lerp. field. lra.
Qed.
Lemma np_interp_node fl fr xp fp i : length xp = length fp -> ascending xp = true -> (i < length xp)%nat ->
  np_interp_with fl fr xp fp (vget xp i) = Ok (vget fp i).
Proof.
  intros Hl Ha Hi. destruct (Nat.eq_dec (length xp) 1) as [E1|E1].
  - destruct xp as [|x0 [|? ?]]; try discriminate. destruct i; [|simpl in Hi; lia]. unfold np_interp_with. rewrite Hl, Nat.eqb_refl.
    unfold vget. cbn [nth last]. rewrite !Rltb_false by apply Rle_refl. rewrite Reqb_refl.
    destruct fp as [|f0 [|? ?]]; try discriminate. reflexivity.
  - destruct (Nat.eq_dec i (length xp - 1)) as [E|E].
    + destruct i as [|i]; [lia|]. rewrite (np_interp_cell _ _ _ _ _ i); [|assumption|assumption|].
      * assert (vget xp i < vget xp (S i)) by (apply (ascending_nth _ Ha); lia). f_equal. unfold lerp. field. lra.
      * split; [exact Hi|]. split; [apply Rlt_le, (ascending_nth _ Ha); lia|apply Rle_refl].
    + rewrite (np_interp_cell _ _ _ _ _ i); [|assumption|assumption|].
      * f_equal. unfold lerp. replace (vget xp i - vget xp i) with 0 by ring. unfold Rdiv. ring.
      * split; [lia|]. split; [apply Rle_refl|]. apply Rlt_le, (ascending_nth _ Ha). lia.
Qed.

(** ** C47 *)
Lemma temporal_inv time int ph wl lo hi d a b : long_temporal time int ph wl lo hi = Ok d ->
  nearest time lo a -> nearest time hi b ->
  d = mkLD wl (slice time a b) (slice int a b) (slice (match ph with Some p => p | None => map (fun _ => 0) time end) a b).
Proof.
  intros H Ha Hb. unfold long_temporal, crop_data in H. destruct time as [|t0 time]; [discriminate|]. cbn zeta in H.
  rewrite (nearest_unique _ _ _ _ (nearest_argmin (t0 :: time) lo ltac:(discriminate)) Ha) in H.
  rewrite (nearest_unique _ _ _ _ (nearest_argmin (t0 :: time) hi ltac:(discriminate)) Hb) in H. injection H as <-. reflexivity.
Qed.
Lemma phase_list_at ph (time : list R) i : (i < length time)%nat -> vget (match ph with Some p => p | None => map (fun _ => 0) time end) i = phase_at ph i.
Proof. intros H. destruct ph; [reflexivity|]. cbn [phase_at]. apply (vget_map (fun _ => 0)). exact H. Qed.
Lemma phase_list_length ph (time : list R) : (forall p, ph = Some p -> length p = length time) ->
  length (match ph with Some p => p | None => map (fun _ => 0) time end) = length time.
Proof. intros H. destruct ph; [apply H; reflexivity|apply map_length]. Qed.
Section Temporal.
Variables (time int : list R) (ph : option (list R)) (wl lo hi : R) (d : long_data) (a b : nat).
Hypothesis (H : long_temporal time int ph wl lo hi = Ok d) (Ha : nearest time lo a) (Hb : nearest time hi b).
Hypothesis (Hasc : ascending time = true) (Hli : length int = length time) (Hlp : forall p, ph = Some p -> length p = length time).
Lemma b_le : (b <= length time)%nat. Proof. destruct Hb. lia. Qed.
Lemma sub_ne : (a < b)%nat -> slice time a b <> [].
Proof. intros L E. pose proof (slice_length time a b b_le) as X. rewrite E in X. simpl in X. lia. Qed.
Lemma c47_nodes_s i : (a <= i < b)%nat -> long_evaluate d (vget time i) = Ok (Cmult (RtoC (sqrt (vget int i))) (cis (- phase_at ph i))).
Proof.
  intros Hi. pose proof b_le as Hb'. rewrite (temporal_inv _ _ _ _ _ _ _ _ _ H Ha Hb). unfold long_evaluate. cbn [ld_time ld_int ld_phase].
  assert (E : forall l, vget l i = vget (slice l a b) (i - a)) by (intros l; rewrite slice_nth by lia; f_equal; lia).
  rewrite (E time). unfold np_interp. rewrite !np_interp_node; try (rewrite ?slice_length by (rewrite ?phase_list_length by assumption; lia); lia || reflexivity); try (apply slice_ascending; assumption).
  cbn [bind]. rewrite <- !E, phase_list_at by lia. reflexivity.
Qed.
Lemma c47_low_s t : (a < b)%nat -> t <= vget time a -> long_evaluate d t = long_evaluate d (vget time a).
Proof.
  intros Hab Ht. destruct (Rle_lt_or_eq_dec _ _ Ht) as [L| ->]; [|reflexivity]. pose proof b_le as Hb'. rewrite c47_nodes_s by lia.
  rewrite (temporal_inv _ _ _ _ _ _ _ _ _ H Ha Hb). unfold long_evaluate. cbn [ld_time ld_int ld_phase].
  assert (E : forall l, vget (slice l a b) 0 = vget l a) by (intros l; rewrite slice_nth by lia; f_equal; lia).
  unfold np_interp. rewrite !np_interp_low; try (rewrite ?slice_length by (rewrite ?phase_list_length by assumption; lia); reflexivity); try (apply sub_ne; assumption); try (rewrite E; exact L).
  cbn [bind]. rewrite !E, phase_list_at by lia. reflexivity.
Qed.
Lemma c47_high_s t : (a < b)%nat -> vget time (b - 1) <= t -> long_evaluate d t = long_evaluate d (vget time (b - 1)).
Proof.
  intros Hab Ht. destruct (Rle_lt_or_eq_dec _ _ Ht) as [L|<-]; [|reflexivity]. pose proof b_le as Hb'. rewrite c47_nodes_s by lia.
  rewrite (temporal_inv _ _ _ _ _ _ _ _ _ H Ha Hb). unfold long_evaluate. cbn [ld_time ld_int ld_phase].
  assert (E : forall l, length l = length time -> last (slice l a b) 0 = vget l (b - 1)).
  { intros l Hl. rewrite last_vget, slice_length, slice_nth by lia. f_equal; lia. }
  unfold np_interp. rewrite !np_interp_high; try (rewrite ?slice_length by (rewrite ?phase_list_length by assumption; lia); reflexivity); try (apply sub_ne; assumption);
    try (apply slice_ascending; assumption); try (rewrite E by reflexivity; exact L).
  cbn [bind]. rewrite !E by (try apply phase_list_length; assumption). rewrite phase_list_at by lia. reflexivity.
Qed.
Lemma c47_between_s i t l h : (a <= i)%nat -> (S i < b)%nat -> vget time i <= t <= vget time (S i) -> 0 <= l ->
  l <= vget int i <= h -> l <= vget int (S i) <= h -> exists e, long_evaluate d t = Ok e /\ l <= Cmod e ^ 2 <= h.
Proof.
  intros Hi1 Hi2 Ht Hl H1 H2. pose proof b_le as Hb'. rewrite (temporal_inv _ _ _ _ _ _ _ _ _ H Ha Hb). unfold long_evaluate. cbn [ld_time ld_int ld_phase].
  assert (E : forall l, vget (slice l a b) (i - a) = vget l i) by (intros v; rewrite slice_nth by lia; f_equal; lia).
  assert (E' : forall l, vget (slice l a b) (S (i - a)) = vget l (S i)) by (intros v; rewrite slice_nth by lia; f_equal; lia).
  assert (HC : in_cell (slice time a b) (i - a) t). { split; [rewrite slice_length by exact Hb'; lia|]. rewrite E, E'. exact Ht. }
  unfold np_interp. rewrite !(np_interp_cell _ _ _ _ _ (i - a)); try exact HC; try (rewrite ?slice_length by (rewrite ?phase_list_length by assumption; lia); reflexivity); try (apply slice_ascending; assumption).
  cbn [bind]. eexists. split; [reflexivity|]. rewrite Cmod_mult, Cmod_R, Cmod_cis, Rmult_1_r. rewrite Rabs_pos_eq by apply sqrt_pos.
  rewrite !E, !E'. assert (Hlt : vget time i < vget time (S i)) by (apply (ascending_nth _ Hasc); lia).
  pose proof (lerp_between _ _ _ _ t l h Hlt Ht H1 H2) as B. rewrite pow2_sqrt by lra. exact B.
Qed.
Lemma c47_linear_s i t : (a <= i)%nat -> (S i < b)%nat -> vget time i <= t <= vget time (S i) ->
  let lam := (t - vget time i) / (vget time (S i) - vget time i) in
  long_evaluate d t = Ok (Cmult (RtoC (sqrt ((1 - lam) * vget int i + lam * vget int (S i)))) (cis (- ((1 - lam) * phase_at ph i + lam * phase_at ph (S i))))).
Proof.
  intros Hi1 Hi2 Ht lam. pose proof b_le as Hb'. rewrite (temporal_inv _ _ _ _ _ _ _ _ _ H Ha Hb). unfold long_evaluate. cbn [ld_time ld_int ld_phase].
  assert (E : forall l, vget (slice l a b) (i - a) = vget l i) by (intros v; rewrite slice_nth by lia; f_equal; lia).
  assert (E' : forall l, vget (slice l a b) (S (i - a)) = vget l (S i)) by (intros v; rewrite slice_nth by lia; f_equal; lia).
  assert (HC : in_cell (slice time a b) (i - a) t). { split; [rewrite slice_length by exact Hb'; lia|]. rewrite E, E'. exact Ht. }
  unfold np_interp. rewrite !(np_interp_cell _ _ _ _ _ (i - a)); try exact HC; try (rewrite ?slice_length by (rewrite ?phase_list_length by assumption; lia); reflexivity); try (apply slice_ascending; assumption).
  cbn [bind]. rewrite !E, !E', !phase_list_at by lia. unfold lerp. fold lam. do 2 f_equal; f_equal; f_equal; ring.
Qed.
Lemma c47_empty_s t : (b <= a)%nat -> long_evaluate d t = Err ValueError.
Proof.
  intros L. rewrite (temporal_inv _ _ _ _ _ _ _ _ _ H Ha Hb). unfold long_evaluate. cbn [ld_time ld_int ld_phase].
  assert (E : slice time a b = []). { unfold slice. replace (b - a)%nat with 0%nat by (clear - L; lia). reflexivity. }
  rewrite E. reflexivity.
Qed.
End Temporal.

(** ** The statements of C47 *)
Lemma c47_nodes time int ph wl lo hi d a b :
  long_temporal time int ph wl lo hi = Ok d -> nearest time lo a -> nearest time hi b ->
  ascending time = true -> length int = length time -> (forall p, ph = Some p -> length p = length time) ->
  forall i, (a <= i < b)%nat -> 0 <= vget int i -> long_evaluate d (vget time i) = Ok (Cmult (RtoC (sqrt (vget int i))) (cis (- phase_at ph i))).
Proof. intros. eapply c47_nodes_s; eassumption. Qed.
Lemma c47_between time int ph wl lo hi d a b :
  long_temporal time int ph wl lo hi = Ok d -> nearest time lo a -> nearest time hi b ->
  ascending time = true -> length int = length time -> (forall p, ph = Some p -> length p = length time) ->
  forall i t l h, (a <= i)%nat -> (S i < b)%nat -> vget time i <= t <= vget time (S i) -> 0 <= l ->
  l <= vget int i <= h -> l <= vget int (S i) <= h -> exists e, long_evaluate d t = Ok e /\ l <= Cmod e ^ 2 <= h.
Proof. intros. eapply c47_between_s; eassumption. Qed.
Lemma c47_linear time int ph wl lo hi d a b :
  long_temporal time int ph wl lo hi = Ok d -> nearest time lo a -> nearest time hi b ->
  ascending time = true -> length int = length time -> (forall p, ph = Some p -> length p = length time) ->
  forall i t, (a <= i)%nat -> (S i < b)%nat -> vget time i <= t <= vget time (S i) ->
  let lam := (t - vget time i) / (vget time (S i) - vget time i) in
  long_evaluate d t = Ok (Cmult (RtoC (sqrt ((1 - lam) * vget int i + lam * vget int (S i)))) (cis (- ((1 - lam) * phase_at ph i + lam * phase_at ph (S i))))).
Proof. intros. eapply c47_linear_s; eassumption. Qed.
(** Outside the retained samples the edge values are continued. *)
Lemma c47_outside time int ph wl lo hi d a b :
  long_temporal time int ph wl lo hi = Ok d -> nearest time lo a -> nearest time hi b ->
  ascending time = true -> length int = length time -> (forall p, ph = Some p -> length p = length time) -> (a < b)%nat ->
  (forall t, t <= vget time a -> long_evaluate d t = long_evaluate d (vget time a)) /\
  (forall t, vget time (b - 1) <= t -> long_evaluate d t = long_evaluate d (vget time (b - 1))).
Proof. intros. split; intros; [eapply c47_low_s|eapply c47_high_s]; eassumption. Qed.
Lemma c47_window time int ph wl lo hi : time <> [] -> exists d a b, long_temporal time int ph wl lo hi = Ok d /\ nearest time lo a /\ nearest time hi b.
Proof.
  intros Hne. do 3 eexists. split; [|split; apply nearest_argmin; exact Hne]. unfold long_temporal, crop_data. destruct time; [congruence|]. reflexivity.
Qed.
(** Data in decreasing time order always leave nothing to evaluate. *)
Lemma c47_decreasing time int ph wl lo hi d : long_temporal time int ph wl lo hi = Ok d -> descending time = true -> lo <= hi ->
  forall t, long_evaluate d t = Err ValueError.
Proof.
  intros H Hd Hlh t. assert (Hne : time <> []) by (intros ->; discriminate).
  pose proof (nearest_argmin time lo Hne) as Ha. pose proof (nearest_argmin time hi Hne) as Hb. set (a := argmin _) in Ha. set (b := argmin _) in Hb.
  apply (c47_empty_s time int ph wl lo hi d a b H Ha Hb). destruct (le_lt_dec b a) as [L|L]; [exact L|]. exfalso.
  destruct Ha as (A1 & A2 & _). destruct Hb as (B1 & B2 & B3). specialize (A2 b B1). specialize (B3 a L).
  pose proof (descending_nth time Hd a b ltac:(lia)) as D. revert A2 B3. unfold Rabs.
  repeat (destruct (Rcase_abs _)); lra.
Qed.
Lemma nearest_node l i : ascending l = true -> (i < length l)%nat -> nearest l (vget l i) i.
Proof.
  intros H Hi. split; [exact Hi|]. replace (vget l i - vget l i) with 0 by ring. rewrite Rabs_R0. split; [intros; apply Rabs_pos|].
  intros q Hq. apply Rabs_pos_lt. pose proof (ascending_nth l H q i ltac:(lia)). lra.
Qed.
(** REFUTED: well outside the window [0, 2] the profile is not zero; in decreasing order it cannot be evaluated. *)
Lemma c47_refuted : (exists d, long_temporal [0;1;2;3] [1;2;3;4] None 1 0 2 = Ok d /\ long_evaluate d (-5) = Ok (RtoC 1)) /\
  (exists d, long_temporal [2;1;0] [3;2;1] None 1 0 2 = Ok d /\ forall t, long_evaluate d t = Err ValueError).
Proof.
  assert (Hasc : ascending [0;1;2;3] = true) by (apply ascending_iff; intros [|[|[|i]]] Hi; unfold vget; cbn; simpl in Hi; lra || lia).
  split.
  - destruct (c47_window [0;1;2;3] [1;2;3;4] None 1 0 2) as (d & a & b & H & Ha & Hb); [discriminate|]. exists d. split; [exact H|].
    assert (a = 0%nat) as -> by (eapply nearest_unique; [exact Ha|apply (nearest_node _ 0 Hasc); simpl; lia]).
    assert (b = 2%nat) as -> by (eapply nearest_unique; [exact Hb|apply (nearest_node _ 2 Hasc); simpl; lia]).
    destruct (c47_outside _ _ _ _ _ _ _ _ _ H Ha Hb Hasc eq_refl ltac:(discriminate) ltac:(lia)) as [L _].
    rewrite L by (unfold vget; cbn; lra). rewrite (c47_nodes _ _ _ _ _ _ _ _ _ H Ha Hb Hasc eq_refl) by (discriminate || lia || (unfold vget; cbn; lra)).
    f_equal. unfold vget, phase_at; cbn [nth]. rewrite sqrt_1, Ropp_0, cis_0. ring.
  - eexists. split; [reflexivity|]. apply (c47_decreasing [2;1;0] [3;2;1] None 1 0 2); [reflexivity| |lra].
    cbn. rewrite !(proj2 (Rltb_true _ _)) by lra. reflexivity.
Qed.
