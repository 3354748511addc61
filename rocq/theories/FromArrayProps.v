(** C46: FromArrayProfile. *)
From Verif Require Import PyBase CSum NumPy NpMath NpMathProofs GridModel LaserModel EnergyProofs FromArrayModel FromArrayProofs FromArraySpec.
Open Scope R_scope.

Lemma shape_eqb_eq a b : shape_eqb a b = true -> a = b.
Proof. unfold shape_eqb. destruct (list_eq_dec _ _ _); [auto|discriminate]. Qed.
Lemma from_array_xyt_inv wl pol a xs ys ts o p : from_array_xyt wl pol a xs ys ts o = Ok p ->
  monotone xs = true /\ monotone ys = true /\ monotone ts = true /\ shp a = [length xs; length ys; length ts] /\
  (forall x y t, p_eval p x y t = eval_xyt xs ys ts a x y t) /\ p_lambda0 p = wl.
Proof.
  unfold from_array_xyt. destruct (monotone xs), (monotone ys), (monotone ts); cbn [andb negb]; try discriminate.
  destruct (shape_eqb _ _) eqn:E; cbn [negb]; [|discriminate]. intros H. injection H as <-. apply shape_eqb_eq in E. auto 7.
Qed.
Lemma c46_nodes wl pol a xs ys ts p : from_array_xyt wl pol a xs ys ts SpaceTime = Ok p ->
  (2 <= length xs)%nat -> (2 <= length ys)%nat -> (2 <= length ts)%nat ->
  forall i j k, (i < length xs)%nat -> (j < length ys)%nat -> (k < length ts)%nat ->
    p_eval p (vget xs i) (vget ys j) (vget ts k) = at3 a i j k.
Proof. intros H L1 L2 L3 i j k Hi Hj Hk. destruct (from_array_xyt_inv _ _ _ _ _ _ _ _ H) as (A & B & C & _ & E & _). rewrite E. apply eval_xyt_node; assumption. Qed.
Lemma off_axis_false x v : off_axis x v -> in_axis x v = false.
Proof.
  intros [H|H]; unfold in_axis; apply andb_false_iff; [left|right]; destruct (Rleb _ _) eqn:E; try reflexivity; apply Rleb_true in E; lra.
Qed.
Lemma beyond_false x v : beyond x v -> in_axis_m x v = false.
Proof. intros [H1 H2]. apply in_axis_m_beyond; assumption. Qed.
Lemma c46_outside wl pol a xs ys ts p o : from_array_xyt wl pol a xs ys ts o = Ok p ->
  forall x y t, beyond xs x \/ beyond ys y \/ beyond ts t -> p_eval p x y t = RtoC 0.
Proof.
  intros H x y t Ho. destruct (from_array_xyt_inv _ _ _ _ _ _ _ _ H) as (_ & _ & _ & _ & E & _). rewrite E. unfold eval_xyt.
  destruct Ho as [Ho|[Ho|Ho]]; rewrite (beyond_false _ _ Ho), ?andb_false_r; reflexivity.
Qed.
Lemma Cmod_amp_cis x th : Cmod (Cmult (RtoC (Rabs x)) (cis th)) = Rabs x.
Proof. rewrite Cmod_mult, Cmod_R, Cmod_cis, Rabs_Rabsolu. ring. Qed.
Lemma c46_between wl pol a xs ys ts p o : from_array_xyt wl pol a xs ys ts o = Ok p ->
  forall i j k x y t lo hi, between_nodes xs i x -> between_nodes ys j y -> between_nodes ts k t -> 0 <= lo ->
    (forall di dj dk, (di < 2)%nat -> (dj < 2)%nat -> (dk < 2)%nat -> lo <= Cmod (at3 a (i + di) (j + dj) (k + dk)) <= hi) ->
    lo <= Cmod (p_eval p x y t) <= hi.
Proof.
  intros H i j k x y t lo hi [X1 X2] [Y1 Y2] [T1 T2] Hlo Hc. destruct (from_array_xyt_inv _ _ _ _ _ _ _ _ H) as (A & B & C & _ & E & _). rewrite E. unfold eval_xyt.
  rewrite (in_axis_m_cell xs x i), (in_axis_m_cell ys y j), (in_axis_m_cell ts t k) by assumption. cbn [andb]. rewrite Cmod_amp_cis.
  assert (G : lo <= interp3 xs ys ts (amp a) x y t <= hi).
  { unfold interp3.
    assert (Q : forall di dj, (di < 2)%nat -> (dj < 2)%nat -> lo <= interp1m ts (fun k0 => amp a (i + di) (j + dj) k0) t <= hi).
    { intros di dj Hi Hj. apply (interp1m_cell_between _ _ _ k); try assumption; unfold amp.
      - replace k with (k + 0)%nat by lia. apply Hc; lia.
      - replace (S k) with (k + 1)%nat by lia. apply Hc; lia. }
    assert (Q2 : forall di, (di < 2)%nat -> lo <= interp1m ys (fun j0 => interp1m ts (fun k0 => amp a (i + di) j0 k0) t) y <= hi).
    { intros di Hi. apply (interp1m_cell_between _ _ _ j); try assumption.
      - replace j with (j + 0)%nat by lia. apply Q; lia.
      - replace (S j) with (j + 1)%nat by lia. apply Q; lia. }
    apply (interp1m_cell_between _ _ _ i); try assumption.
    - replace i with (i + 0)%nat by lia. apply Q2; lia.
    - replace (S i) with (i + 1)%nat by lia. apply Q2; lia. }
  rewrite Rabs_pos_eq; lra.
Qed.

(** Cylindrical data. *)
Lemma from_array_rt_inv wl pol a rs ts o p : from_array_rt wl pol a rs ts o = Ok p ->
  o = SpaceTime /\ monotone (mirror_axis rs) = true /\ monotone ts = true /\
  shp (mirror_arr rs a) = [length (mirror_axis rs); length ts] /\
  (forall x y t, p_eval p x y t = eval_rt (mirror_axis rs) ts (mirror_arr rs a) x y t).
Proof.
  unfold from_array_rt. destruct o; [|discriminate]. cbn zeta.
  destruct (monotone (mirror_axis rs)), (monotone ts); cbn [andb negb]; try discriminate.
  destruct (shape_eqb _ _) eqn:E; cbn [negb]; [|discriminate]. intros H. injection H as <-. apply shape_eqb_eq in E. auto 7.
Qed.
(** A radial axis of at least two points is accepted when it starts at 0, when it increases from r > 0, or when it
    decreases from r < 0 (no radius: all are negative). *)
Lemma mirror_cases rs : monotone (mirror_axis rs) = true -> (2 <= length rs)%nat ->
  monotone rs = true /\ ((vget rs 0 = 0 /\ mirror_axis rs = rs /\ forall a, mirror_arr rs a = a) \/
  (0 < vget rs 0 /\ ascending rs = true /\ mirror_axis rs = (- vget rs 0) :: rs /\ forall a i k q, at3 (mirror_arr rs a) (S i) k q = at3 a i k q) \/
  (forall i, (i < length rs)%nat -> vget rs i < 0)).
Proof.
  intros H Hl. unfold mirror_axis, mirror_arr in *. destruct (Reqb (vget rs 0) 0) eqn:E.
  - apply Reqb_true in E. split; [exact H|]. left. auto.
  - apply Reqb_false in E. destruct rs as [|r [|r' rs]]; [cbn in Hl; lia|cbn in Hl; lia|]. unfold vget in *. cbn [nth] in *.
    destruct (monotone_cases _ H) as [X|(_ & X & _)].
    + change (andb (Rltb (- r) r) (ascending (r :: r' :: rs)) = true) in X. apply andb_prop in X as [H1 H2]. apply Rltb_true in H1.
      split; [apply asc_mono, H2|]. right. left. split; [lra|]. split; [exact H2|]. split; [reflexivity|].
      intros a i k q. cbn. rewrite Nat.sub_0_r. reflexivity.
    + change (andb (Rltb r (- r)) (descending (r :: r' :: rs)) = true) in X. apply andb_prop in X as [H1 H2]. apply Rltb_true in H1.
      split; [apply desc_mono, H2|]. right. right. intros [|i] Hi; [cbn [nth]; lra|].
      pose proof (descending_nth _ H2 0 (S i) ltac:(lia)) as Q. unfold vget in Q. cbn [nth] in Q |- *. lra.
Qed.
Lemma c46_rt_nodes wl pol a rs ts p : from_array_rt wl pol a rs ts SpaceTime = Ok p ->
  (2 <= length rs)%nat -> (2 <= length ts)%nat ->
  forall i k x y, (i < length rs)%nat -> (k < length ts)%nat -> sqrt (x ^ 2 + y ^ 2) = vget rs i ->
    p_eval p x y (vget ts k) = at3 a i k 0%nat.
Proof.
  intros H L1 L2 i k x y Hi Hk Hr. destruct (from_array_rt_inv _ _ _ _ _ _ _ H) as (_ & A & B & _ & E). rewrite E.
  destruct (mirror_cases rs A L1) as (A' & [(Z & M1 & M2)|[(Z & _ & M1 & M2)|N]]).
  - rewrite M1, M2. apply eval_rt_node; assumption.
  - rewrite (eval_rt_node _ _ _ (S i) k); [apply M2|assumption|assumption|rewrite M1; simpl; lia|assumption|rewrite M1; simpl; lia|assumption|].
    rewrite M1. unfold vget in *. cbn [nth]. exact Hr.
  - exfalso. pose proof (N i Hi). pose proof (sqrt_pos (x ^ 2 + y ^ 2)). lra.
Qed.
Lemma last_cons_ne {A} (x : A) l d : l <> [] -> last (x :: l) d = last l d.
Proof. destruct l; [congruence|reflexivity]. Qed.
Lemma c46_rt_outside wl pol a rs ts p : from_array_rt wl pol a rs ts SpaceTime = Ok p -> (2 <= length rs)%nat -> 0 <= vget rs 0 ->
  forall x y t, (forall i, (i < length rs)%nat -> vget rs i < sqrt (x ^ 2 + y ^ 2)) \/ beyond ts t -> p_eval p x y t = RtoC 0.
Proof.
  intros H L1 Hn x y t Ho. destruct (from_array_rt_inv _ _ _ _ _ _ _ H) as (_ & A & B & _ & E). rewrite E. unfold eval_rt.
  destruct Ho as [Ho|Ho]; [|rewrite (beyond_false _ _ Ho), ?andb_false_r; reflexivity].
  rewrite (beyond_false (mirror_axis rs)); [reflexivity|].
  destruct (mirror_cases rs A L1) as (_ & [(_ & M1 & _)|[(Z & _ & M1 & _)|N]]).
  - rewrite M1. split; [lia|]. right. exact Ho.
  - rewrite M1. split; [cbn [length]; lia|]. right. intros [|i] Hi; [|apply Ho; cbn [length] in Hi; lia].
    unfold vget. cbn [nth]. fold (vget rs 0). pose proof (sqrt_pos (x ^ 2 + y ^ 2)). lra.
  - exfalso. pose proof (N 0%nat ltac:(lia)). lra.
Qed.
Lemma eval_rt_between rs ts a lo hi i k x y t : monotone rs = true -> monotone ts = true ->
  between_nodes rs i (sqrt (x ^ 2 + y ^ 2)) -> between_nodes ts k t -> 0 <= lo ->
  (forall di dk, (di < 2)%nat -> (dk < 2)%nat -> lo <= Cmod (at3 a (i + di) (k + dk) 0%nat) <= hi) ->
  lo <= Cmod (eval_rt rs ts a x y t) <= hi.
Proof.
  intros A B [X1 X2] [T1 T2] Hlo Hc. unfold eval_rt. cbn zeta. rewrite (in_axis_m_cell rs _ i), (in_axis_m_cell ts t k) by assumption. cbn [andb].
  rewrite Cmod_amp_cis. set (r := sqrt _) in *.
  assert (G : lo <= interp2 rs ts (amp2 a) r t <= hi).
  { unfold interp2.
    assert (Q : forall di, (di < 2)%nat -> lo <= interp1m ts (fun k0 => amp2 a (i + di) k0) t <= hi).
    { intros di Hi. apply (interp1m_cell_between _ _ _ k); try assumption; unfold amp2.
      - replace k with (k + 0)%nat by lia. apply Hc; lia.
      - replace (S k) with (k + 1)%nat by lia. apply Hc; lia. }
    apply (interp1m_cell_between _ _ _ i); try assumption.
    - replace i with (i + 0)%nat by lia. apply Q; lia.
    - replace (S i) with (i + 1)%nat by lia. apply Q; lia. }
  rewrite Rabs_pos_eq; lra.
Qed.
Lemma c46_rt_between wl pol a rs ts p : from_array_rt wl pol a rs ts SpaceTime = Ok p ->
  forall i k x y t lo hi, between_nodes rs i (sqrt (x ^ 2 + y ^ 2)) -> between_nodes ts k t -> 0 <= lo ->
    (forall di dk, (di < 2)%nat -> (dk < 2)%nat -> lo <= Cmod (at3 a (i + di) (k + dk) 0%nat) <= hi) ->
    lo <= Cmod (p_eval p x y t) <= hi.
Proof.
  intros H i k x y t lo hi HX HT Hlo Hc. destruct (from_array_rt_inv _ _ _ _ _ _ _ H) as (_ & A & B & _ & E). rewrite E.
  destruct (mirror_cases rs A ltac:(destruct HX as [HX _]; lia)) as (A' & [(Z & M1 & M2)|[(Z & _ & M1 & M2)|N]]).
  - rewrite M1, M2. apply (eval_rt_between _ _ _ _ _ i k); assumption.
  - rewrite M1. apply (eval_rt_between _ _ _ _ _ (S i) k); try assumption.
    + rewrite <- M1. exact A.
    + destruct HX as [X1 X2]. split; [simpl; lia|exact X2].
    + intros di dk Hi Hk. rewrite Nat.add_succ_l, M2. apply Hc; assumption.
  - exfalso. destruct HX as [X1 X2]. pose proof (N i ltac:(lia)). pose proof (N (S i) X1). pose proof (sqrt_pos (x ^ 2 + y ^ 2)). lra.
Qed.
(** Closer to the axis than the first radius: the data of the first radius. *)
Lemma c46_rt_axis wl pol a rs ts p : from_array_rt wl pol a rs ts SpaceTime = Ok p -> (2 <= length rs)%nat ->
  forall x y t, sqrt (x ^ 2 + y ^ 2) <= vget rs 0 -> p_eval p x y t = p_eval p (vget rs 0) 0 t.
Proof.
  intros H L1 x y t Hr. destruct (from_array_rt_inv _ _ _ _ _ _ _ H) as (_ & A & B & _ & E). rewrite !E.
  pose proof (sqrt_pos (x ^ 2 + y ^ 2)) as Hp. unfold eval_rt. cbn zeta.
  assert (Hs : 0 <= vget rs 0) by lra.
  replace (sqrt (vget rs 0 ^ 2 + 0 ^ 2)) with (vget rs 0) by (replace (vget rs 0 ^ 2 + 0 ^ 2) with (vget rs 0 ^ 2) by ring; rewrite sqrt_pow2 by lra; reflexivity).
  destruct (mirror_cases rs A L1) as (A' & [(Z & M1 & M2)|[(Z & _ & M1 & M2)|N]]).
  - replace (sqrt (x ^ 2 + y ^ 2)) with (vget rs 0) by lra. reflexivity.
  - set (r := sqrt _) in *.
    assert (G : forall f v, (forall k, f 0%nat k = f 1%nat k) -> - vget rs 0 <= v <= vget rs 0 -> interp2 (mirror_axis rs) ts f v t = interp1m ts (f 0%nat) t).
    { intros f v Hf Hv. unfold interp2. rewrite (interp1m_cell _ _ _ 0).
      - unfold lerp. unfold interp1m. destruct (ascending ts); unfold interp1, lerp; rewrite <- !Hf; ring.
      - exact A.
      - rewrite M1. simpl. lia.
      - left. rewrite M1. exact Hv. }
    assert (I : forall v, - vget rs 0 <= v <= vget rs 0 -> in_axis_m (mirror_axis rs) v = true).
    { intros v Hv. apply (in_axis_m_cell _ _ 0); [exact A|rewrite M1; simpl; lia|left; rewrite M1; exact Hv]. }
    assert (F1 : forall k, amp2 (mirror_arr rs a) 0 k = amp2 (mirror_arr rs a) 1 k).
    { intros k. unfold amp2, mirror_arr. destruct (Reqb (vget rs 0) 0) eqn:E0; [apply Reqb_true in E0; lra|reflexivity]. }
    assert (F2 : forall k, pha2 (mirror_arr rs a) 0 k = pha2 (mirror_arr rs a) 1 k).
    { intros k. unfold pha2, mirror_arr. destruct (Reqb (vget rs 0) 0) eqn:E0; [apply Reqb_true in E0; lra|reflexivity]. }
    rewrite !I by lra. rewrite (G _ r F1), (G _ r F2), (G _ (vget rs 0) F1), (G _ (vget rs 0) F2) by lra. reflexivity.
  - exfalso. pose proof (N 0%nat ltac:(lia)). lra.
Qed.

(** ** The other order of the axes *)
(** What the interpolator holds: the array with its axes as passed. *)
Lemma c46_time_first wl pol a xs ys ts p : from_array_xyt wl pol a xs ys ts TimeSpace = Ok p ->
  (2 <= length xs)%nat -> (2 <= length ys)%nat -> (2 <= length ts)%nat ->
  shp a = [length xs; length ys; length ts] /\
  forall i j k, (i < length xs)%nat -> (j < length ys)%nat -> (k < length ts)%nat ->
    p_eval p (vget xs i) (vget ys j) (vget ts k) = at3 a i j k.
Proof.
  intros H L1 L2 L3. destruct (from_array_xyt_inv _ _ _ _ _ _ _ _ H) as (A & B & C & S & E & _). split; [exact S|].
  intros i j k Hi Hj Hk. rewrite E. apply eval_xyt_node; assumption.
Qed.
(** Data of shape (nt, ny, nx) with nt <> nx are refused. *)
Lemma c46_time_first_raises wl pol a xs ys ts : shp a = [length ts; length ys; length xs] -> length xs <> length ts ->
  from_array_xyt wl pol a xs ys ts TimeSpace = Err ValueError.
Proof.
  intros Hs Hn. unfold from_array_xyt. destruct (negb _); [reflexivity|]. destruct (shape_eqb (shp a) [length xs; length ys; length ts]) eqn:E; [|reflexivity].
  apply shape_eqb_eq in E. rewrite Hs in E. injection E as E _. congruence.
Qed.
Lemma c46_rt_time_first_raises wl pol a rs ts : exists e, from_array_rt wl pol a rs ts TimeSpace = Err e.
Proof. eexists. reflexivity. Qed.
(** A 2 x 2 x 2 array in (t, y, x) order: the value at node (x0, y0, t1), stored at [1,0,0], is not what is returned. *)
Lemma c46_refuted : exists a p, shp a = [2;2;2]%nat /\ from_array_xyt 1 (RtoC 1, RtoC 0) a [0;1] [0;1] [0;1] TimeSpace = Ok p /\
  at3 a 1 0 0 = RtoC 1 /\ p_eval p 0 0 1 = RtoC 0.
Proof.
  set (a := mkArr [2;2;2]%nat Complex128 (fun i j k => if (i =? 1)%nat then RtoC 1 else RtoC 0)).
  assert (Hasc : monotone [0;1] = true) by (apply asc_mono; cbn; rewrite (proj2 (Rltb_true 0 1)) by lra; reflexivity).
  assert (Hp : exists p, from_array_xyt 1 (RtoC 1, RtoC 0) a [0;1] [0;1] [0;1] TimeSpace = Ok p).
  { unfold from_array_xyt. rewrite Hasc. eexists. reflexivity. }
  destruct Hp as (p & Hp). exists a, p. split; [reflexivity|]. split; [exact Hp|]. split; [reflexivity|].
  apply (proj2 (c46_time_first _ _ _ _ _ _ _ Hp ltac:(simpl; lia) ltac:(simpl; lia) ltac:(simpl; lia)) 0 0 1)%nat; simpl; lia.
Qed.

(** Between two time samples at a transverse node: modulus and phase are interpolated linearly, the phase along the
    shorter way round. *)
Lemma interp_time ts (z : nat -> C) k t r0 r1 th s : monotone ts = true -> between_nodes ts k t ->
  0 < r0 -> 0 < r1 -> - PI < s < PI -> z k = Cmult (RtoC r0) (cis th) -> z (S k) = Cmult (RtoC r1) (cis (th + s)) ->
  let lam := (t - vget ts k) / (vget ts (S k) - vget ts k) in
  Cmult (RtoC (Rabs (interp1m ts (fun k => Cmod (z k)) t))) (cis (interp1m ts (fun k => unwrap (fun q => angle (z q)) k) t)) =
  Cmult (RtoC ((1 - lam) * r0 + lam * r1)) (cis (th + lam * s)).
Proof.
  intros Ha [Hk Ht] H0 H1 Hs Z0 Z1 lam. rewrite !(interp1m_cell ts _ t k) by assumption. unfold lerp. fold lam.
  assert (Hl : 0 <= lam <= 1).
  { assert (G : forall a b c, 0 < b -> 0 <= a <= b -> c = a / b -> 0 <= c <= 1).
    { clear. intros a b c Hb Hab ->. split; [apply Rmult_le_pos; [lra|apply Rlt_le, Rinv_0_lt_compat; lra]|].
      apply (Rmult_le_reg_r b); [lra|]. unfold Rdiv. rewrite Rmult_assoc, Rinv_l by lra. lra. }
    destruct (monotone_cases _ Ha) as [X|(_ & X & _)].
    - pose proof (ascending_nth _ X k (S k) ltac:(lia)). apply (G (t - vget ts k) (vget ts (S k) - vget ts k)); [lra|lra|reflexivity].
    - pose proof (descending_nth _ X k (S k) ltac:(lia)). apply (G (vget ts k - t) (vget ts k - vget ts (S k))); [lra|lra|]. unfold lam. field. lra. }
  assert (M0 : Cmod (z k) = r0) by (rewrite Z0, Cmod_mult, Cmod_cis, Cmod_R, Rabs_pos_eq; lra).
  assert (M1 : Cmod (z (S k)) = r1) by (rewrite Z1, Cmod_mult, Cmod_cis, Cmod_R, Rabs_pos_eq; lra).
  rewrite M0, M1. rewrite Rabs_pos_eq by nra.
  set (p := fun q => angle (z q)).
  assert (C0 : cis (p k) = cis th) by (unfold p; rewrite Z0; apply cis_angle, H0).
  assert (C1 : cis (p (S k)) = cis (th + s)) by (unfold p; rewrite Z1; apply cis_angle, H1).
  rewrite (unwrap_step p k s Hs) by (rewrite C1, !cis_plus, C0; reflexivity).
  f_equal; [f_equal; ring|]. replace (unwrap p k + (unwrap p k + s - unwrap p k) * lam) with (unwrap p k + lam * s) by ring.
  rewrite !cis_plus, cis_unwrap, C0. reflexivity.
Qed.
Lemma c46_time wl pol a xs ys ts p : from_array_xyt wl pol a xs ys ts SpaceTime = Ok p ->
  (2 <= length xs)%nat -> (2 <= length ys)%nat ->
  forall i j k t r0 r1 th s, (i < length xs)%nat -> (j < length ys)%nat -> between_nodes ts k t ->
    0 < r0 -> 0 < r1 -> - PI < s < PI -> at3 a i j k = Cmult (RtoC r0) (cis th) -> at3 a i j (S k) = Cmult (RtoC r1) (cis (th + s)) ->
    let lam := (t - vget ts k) / (vget ts (S k) - vget ts k) in
    p_eval p (vget xs i) (vget ys j) t = Cmult (RtoC ((1 - lam) * r0 + lam * r1)) (cis (th + lam * s)).
Proof.
  intros H L1 L2 i j k t r0 r1 th s Hi Hj Hc H0 H1 Hs Z0 Z1. cbn zeta. destruct (from_array_xyt_inv _ _ _ _ _ _ _ _ H) as (A & B & C & _ & E & _). rewrite E. unfold eval_xyt.
  rewrite !in_axis_m_node, (in_axis_m_cell ts t k) by (assumption || apply Hc). cbn [andb]. unfold interp3. rewrite !interp1m_node by assumption.
  apply (interp_time ts (fun q => at3 a i j q) k t r0 r1 th s); assumption.
Qed.
Lemma c46_rt_time wl pol a rs ts p : from_array_rt wl pol a rs ts SpaceTime = Ok p ->
  (2 <= length rs)%nat ->
  forall i k x y t r0 r1 th s, (i < length rs)%nat -> sqrt (x ^ 2 + y ^ 2) = vget rs i -> between_nodes ts k t ->
    0 < r0 -> 0 < r1 -> - PI < s < PI -> at3 a i k 0%nat = Cmult (RtoC r0) (cis th) -> at3 a i (S k) 0%nat = Cmult (RtoC r1) (cis (th + s)) ->
    let lam := (t - vget ts k) / (vget ts (S k) - vget ts k) in
    p_eval p x y t = Cmult (RtoC ((1 - lam) * r0 + lam * r1)) (cis (th + lam * s)).
Proof.
  intros H L1 i k x y t r0 r1 th s Hi Hr Hc H0 H1 Hs Z0 Z1. cbn zeta. destruct (from_array_rt_inv _ _ _ _ _ _ _ H) as (_ & A & B & _ & E). rewrite E. unfold eval_rt.
  destruct (mirror_cases rs A L1) as (A' & [(Z & M1 & M2)|[(Z & _ & M1 & M2)|N]]).
  - rewrite Hr, M1, M2. rewrite in_axis_m_node, (in_axis_m_cell ts t k) by (assumption || apply Hc). cbn [andb]. unfold interp2. rewrite !interp1m_node by assumption.
    apply (interp_time ts (fun q => at3 a i q 0%nat) k t r0 r1 th s); assumption.
  - assert (Hr' : sqrt (x ^ 2 + y ^ 2) = vget (mirror_axis rs) (S i)) by (rewrite M1; exact Hr).
    assert (Hi' : (S i < length (mirror_axis rs))%nat) by (rewrite M1; simpl; lia).
    assert (Hl' : (2 <= length (mirror_axis rs))%nat) by (rewrite M1; simpl; lia).
    rewrite Hr'. rewrite in_axis_m_node, (in_axis_m_cell ts t k) by (assumption || apply Hc). cbn [andb]. unfold interp2. rewrite !interp1m_node by assumption.
    apply (interp_time ts (fun q => at3 (mirror_arr rs a) (S i) q 0%nat) k t r0 r1 th s); try assumption; rewrite M2; assumption.
  - exfalso. pose proof (N i Hi). pose proof (sqrt_pos (x ^ 2 + y ^ 2)). lra.
Qed.

(** What is accepted. *)
Lemma monotone_iff x : monotone x = true <-> strictly_monotone x.
Proof.
  split.
  - intros H. destruct (monotone_cases x H) as [A|(_ & D & _)]; [left|right]; intros i Hi; [apply (ascending_nth x A)|apply (descending_nth x D)]; lia.
  - intros [H|H]; [apply asc_mono, ascending_iff, H|apply desc_mono, descending_iff, H].
Qed.
Lemma c46_accepts wl pol a xs ys ts :
  (exists p, from_array_xyt wl pol a xs ys ts SpaceTime = Ok p) <->
  strictly_monotone xs /\ strictly_monotone ys /\ strictly_monotone ts /\ shp a = [length xs; length ys; length ts].
Proof.
  rewrite <- !monotone_iff. split.
  - intros (p & H). destruct (from_array_xyt_inv _ _ _ _ _ _ _ _ H) as (A & B & C & D & _). auto.
  - intros (A & B & C & D). unfold from_array_xyt. rewrite A, B, C. cbn [andb negb]. rewrite <- D.
    replace (shape_eqb (shp a) (shp a)) with true by (unfold shape_eqb; destruct (list_eq_dec _ _ _); [reflexivity|congruence]). eexists. reflexivity.
Qed.
