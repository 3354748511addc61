(** C34: get_duration. *)
From Verif Require Import PyBase CSum NumPy NpMath GridModel GridSpec GridProofs LaserSpec GridObs
  EnergyModel EnergyProofs LaserModel LaserOps LaserInv LaserInitProofs LaserStepProofs
  PropagateProofs HistoryProofs OpticsProofs LaserExamples AnalysisModel.
Open Scope R_scope.

Lemma average1_ext n v v' w w' : (forall k, (k < n)%nat -> v k = v' k) -> (forall k, (k < n)%nat -> w k = w' k) ->
  average1 n v w = average1 n v' w'.
Proof.
  intros Hv Hw. unfold average1. rewrite (rsum_ext n w w') by exact Hw.
  rewrite (rsum_ext n (fun k => v k * w k) (fun k => v' k * w' k)); [reflexivity|]. intros k Hk. rewrite Hv, Hw by exact Hk. reflexivity.
Qed.
Lemma weighted_std_ext n v v' w w' : (forall k, (k < n)%nat -> v k = v' k) -> (forall k, (k < n)%nat -> w k = w' k) ->
  weighted_std n v w = weighted_std n v' w'.
Proof.
  intros Hv Hw. unfold weighted_std. rewrite (average1_ext n v v' w w' Hv Hw).
  destruct (average1 n v' w') as [m|]; cbn [bind]; [|reflexivity].
  rewrite (average1_ext n _ (fun k => (v' k - m) ^ 2) w w'); [reflexivity| |exact Hw]. intros k Hk. rewrite Hv by exact Hk. reflexivity.
Qed.
Lemma average1_affine n v w c s t : c <> 0 ->
  average1 n (fun k => s * v k + t) (fun k => c * w k) = do m <- average1 n v w; Ok (s * m + t).
Proof.
  intros Hc. unfold average1. rewrite rsum_scal_l.
  destruct (Reqb (rsum n w) 0) eqn:E.
  - apply Reqb_true in E. rewrite E, Rmult_0_r. destruct (Reqb 0 0) eqn:E0; [reflexivity|]. apply Reqb_false in E0. lra.
  - apply Reqb_false in E. destruct (Reqb (c * rsum n w) 0) eqn:E0.
    { apply Reqb_true in E0. apply Rmult_integral in E0. tauto. }
    cbn [bind]. f_equal.
    rewrite (rsum_ext n _ (fun k => c * s * (v k * w k) + c * t * w k)) by (intros; ring).
    rewrite rsum_plus, !rsum_scal_l. field. split; assumption.
Qed.
Lemma weighted_std_affine n v w c s t : c <> 0 -> 0 <= s ->
  weighted_std n (fun k => s * v k + t) (fun k => c * w k) = do x <- weighted_std n v w; Ok (s * x).
Proof.
  intros Hc Hs. unfold weighted_std. rewrite average1_affine by exact Hc.
  destruct (average1 n v w) as [m|e]; cbn [bind]; [|reflexivity].
  rewrite (average1_ext n _ (fun k => s ^ 2 * (v k - m) ^ 2 + 0) _ (fun k => c * w k)) by (intros; ring).
  rewrite average1_affine by exact Hc.
  destruct (average1 n (fun k => (v k - m) ^ 2) w) as [q|e]; cbn [bind]; [|reflexivity]. f_equal.
  rewrite Rplus_0_r. destruct (Rle_lt_dec 0 q) as [Hq|Hq].
  - rewrite sqrt_mult; [|apply pow2_ge_0|exact Hq]. rewrite sqrt_pow2 by exact Hs. reflexivity.
  - rewrite (sqrt_neg_0 q), (sqrt_neg_0 (s ^ 2 * q)); [ring| |lra]. pose proof (pow2_ge_0 s). nra.
Qed.

(** Meaning of the result for non-negative weights. *)
Lemma weighted_std_spec n v w : (forall k, (k < n)%nat -> 0 <= w k) ->
  (rsum n w = 0 -> weighted_std n v w = Err OtherException) /\
  (rsum n w <> 0 -> exists s, weighted_std n v w = Ok s /\ 0 <= s /\
     let m := rsum n (fun k => v k * w k) / rsum n w in
     s ^ 2 = rsum n (fun k => (v k - m) ^ 2 * w k) / rsum n w).
Proof.
  intros Hw. unfold weighted_std, average1. split; intros H.
  - apply Reqb_true in H. rewrite H. reflexivity.
  - pose proof H as H'. apply Reqb_false in H'. rewrite H'. cbn [bind]. eexists. split; [reflexivity|]. split; [apply sqrt_pos|].
    cbn zeta. cbn [pow]. rewrite Rmult_1_r. rewrite sqrt_sqrt; [reflexivity|].
    assert (0 < rsum n w) by (pose proof (rsum_nonneg n w Hw); lra).
    apply Rmult_le_pos; [|apply Rlt_le, Rinv_0_lt_compat; assumption].
    apply rsum_nonneg. intros k Hk. apply Rmult_le_pos; [apply pow2_ge_0|apply Hw, Hk].
Qed.
Lemma weighted_std_zero n v w s : (forall k, (k < n)%nat -> 0 <= w k) ->
  (forall i j, (i < j < n)%nat -> v i <> v j) -> weighted_std n v w = Ok s ->
  (s = 0 <-> exists k0, (k0 < n)%nat /\ 0 < w k0 /\ forall k, (k < n)%nat -> k <> k0 -> w k = 0).
Proof.
  intros Hw Hv Hs. destruct (weighted_std_spec n v w Hw) as (HZ & HN).
  destruct (Req_EM_T (rsum n w) 0) as [E|E]; [rewrite HZ in Hs by exact E; discriminate|].
  destruct (HN E) as (s' & Hs' & Hp & Hm). rewrite Hs in Hs'. injection Hs' as <-. cbn zeta in Hm.
  set (m := rsum n (fun k => v k * w k) / rsum n w) in *. set (W := rsum n w) in *.
  assert (HW : 0 < W) by (pose proof (rsum_nonneg n w Hw); unfold W in *; lra).
  assert (Hnn : forall k, (k < n)%nat -> 0 <= (v k - m) ^ 2 * w k).
  { intros k Hk. apply Rmult_le_pos; [apply pow2_ge_0|apply Hw, Hk]. }
  split.
  - intros ->. assert (Hz : rsum n (fun k => (v k - m) ^ 2 * w k) = 0).
    { assert (rsum n (fun k => (v k - m) ^ 2 * w k) / W * W = 0) by (rewrite <- Hm; ring).
      replace (rsum n (fun k => (v k - m) ^ 2 * w k)) with (rsum n (fun k => (v k - m) ^ 2 * w k) / W * W) by (field; lra). exact H. }
    assert (Hall : forall k, (k < n)%nat -> (v k - m) ^ 2 * w k = 0) by (intros k Hk; exact (rsum_nonneg_zero n _ Hnn Hz k Hk)).
    assert (Hex : exists k0, (k0 < n)%nat /\ 0 < w k0).
    { destruct (Classical_Prop.classic (exists k0, (k0 < n)%nat /\ 0 < w k0)) as [C|C]; [exact C|]. exfalso. apply E.
      unfold W. rewrite (rsum_ext n w (fun _ => 0)); [apply rsum_0|]. intros k Hk.
      destruct (Hw k Hk) as [C'|C']; [exfalso; apply C; eauto|auto]. }
    destruct Hex as (k0 & Hk0 & Hp0). exists k0. split; [exact Hk0|]. split; [exact Hp0|]. intros k Hk Hne.
    assert (V0 : v k0 = m). { specialize (Hall k0 Hk0). apply Rmult_integral in Hall. destruct Hall as [Q|Q]; [|lra].
      apply Rmult_integral in Q. destruct Q as [Q|Q]; [lra|]. rewrite Rmult_1_r in Q. lra. }
    specialize (Hall k Hk). apply Rmult_integral in Hall. destruct Hall as [Q|Q]; [|exact Q]. exfalso.
    assert (v k = m). { apply Rmult_integral in Q. destruct Q as [Q|Q]; [lra|]. rewrite Rmult_1_r in Q. lra. }
    destruct (Nat.lt_gt_cases k k0) as (L & _). destruct (L Hne) as [C|C]; [apply (Hv k k0)|apply (Hv k0 k)]; try lia; lra.
  - intros (k0 & Hk0 & Hp0 & Hoth).
    assert (HW' : W = w k0) by (unfold W; apply rsum_single; assumption).
    assert (Hm' : m = v k0).
    { unfold m. rewrite (rsum_single n (fun k => v k * w k) k0 Hk0) by (intros k Hk Hne; rewrite Hoth by assumption; ring).
      rewrite HW'. field. lra. }
    assert (Hq : s ^ 2 = 0).
    { rewrite Hm. rewrite (rsum_single n (fun k => (v k - m) ^ 2 * w k) k0 Hk0) by (intros k Hk Hne; rewrite Hoth by assumption; ring).
      rewrite Hm'. unfold Rdiv. ring. }
    nra.
Qed.
(** The duration never exceeds the width of the window. *)
Lemma weighted_std_bound n v w s lo hi : (forall k, (k < n)%nat -> 0 <= w k) -> (forall k, (k < n)%nat -> lo <= v k <= hi) ->
  weighted_std n v w = Ok s -> s <= hi - lo.
Proof.
  intros Hw Hv Hs. destruct (weighted_std_spec n v w Hw) as (HZ & HN).
  destruct (Req_EM_T (rsum n w) 0) as [E|E]; [rewrite HZ in Hs by exact E; discriminate|].
  destruct (HN E) as (s' & Hs' & Hp & Hm). rewrite Hs in Hs'. injection Hs' as <-. cbn zeta in Hm.
  set (m := rsum n (fun k => v k * w k) / rsum n w) in *. set (W := rsum n w) in *.
  assert (HW : 0 < W) by (pose proof (rsum_nonneg n w Hw); unfold W in *; lra).
  assert (Hml : lo <= m <= hi).
  { assert (A : rsum n (fun k => lo * w k) <= rsum n (fun k => v k * w k)).
    { apply rsum_le. intros k Hk. apply Rmult_le_compat_r; [apply Hw, Hk|apply Hv, Hk]. }
    assert (B : rsum n (fun k => v k * w k) <= rsum n (fun k => hi * w k)).
    { apply rsum_le. intros k Hk. apply Rmult_le_compat_r; [apply Hw, Hk|apply Hv, Hk]. }
    rewrite rsum_scal_l in A, B. fold W in A, B. unfold m.
    assert (Hx : rsum n (fun k => v k * w k) / W * W = rsum n (fun k => v k * w k)) by (field; lra).
    split; apply (Rmult_le_reg_r W); lra. }
  assert (Hlh : lo <= hi) by lra.
  assert (Hq : s ^ 2 <= (hi - lo) ^ 2).
  { rewrite Hm. assert (A : rsum n (fun k => (v k - m) ^ 2 * w k) <= rsum n (fun k => (hi - lo) ^ 2 * w k)).
    { apply rsum_le. intros k Hk. apply Rmult_le_compat_r; [apply Hw, Hk|]. specialize (Hv k Hk). nra. }
    rewrite rsum_scal_l in A. fold W in A. apply (Rmult_le_reg_r W); [exact HW|].
    replace (rsum n (fun k => (v k - m) ^ 2 * w k) / W * W) with (rsum n (fun k => (v k - m) ^ 2 * w k)) by (field; lra). lra. }
  nra.
Qed.

(** ** get_duration *)
Lemma duration_eq d g f : tread g = Ok f ->
  snd (get_duration d g) = weighted_std (dim2 f) (fun k => vget (time_axis g) k) (duration_weight d g f).
Proof.
  intros H. unfold get_duration, with_field. cbn [snd]. change (snd (get_temporal_field g)) with (tread g). rewrite H.
  destruct (get_t_meta g) as (E1&E2&E3&E4&E5&_).
  apply weighted_std_ext; intros k _.
  - unfold time_axis. rewrite E4. reflexivity.
  - unfold duration_weight, cell_volume, cell_volume_xyt, cell_volume_rt. rewrite E4, E5. reflexivity.
Qed.

(** Field multiplied by c <> 0, time axis t -> s t + tau (s >= 0), cell volumes multiplied by u <> 0. *)
Lemma c34_affine d g g' a b c u s tau : tread g = Ok a -> tread g' = Ok b -> is_scaled c a b -> c <> RtoC 0 ->
  0 <= s -> u <> 0 -> (forall k, (k < dim2 a)%nat -> vget (time_axis g') k = s * vget (time_axis g) k + tau) ->
  (forall j, (j < dim1 a)%nat -> cell_volume d g' j = u * cell_volume d g j) ->
  snd (get_duration d g') = do x <- snd (get_duration d g); Ok (s * x).
Proof.
  intros Ha Hb (Hs & _ & Hv) Hc Hsp Hu Ht HV. rewrite (duration_eq d g a Ha), (duration_eq d g' b Hb).
  assert (D0 : dim0 b = dim0 a) by (unfold dim0; rewrite Hs; reflexivity).
  assert (D1 : dim1 b = dim1 a) by (unfold dim1; rewrite Hs; reflexivity).
  assert (D2 : dim2 b = dim2 a) by (unfold dim2; rewrite Hs; reflexivity). rewrite D2.
  rewrite <- (weighted_std_affine (dim2 a) (fun k => vget (time_axis g) k) (duration_weight d g a) (Cnorm2 c * u) s tau).
  - apply weighted_std_ext; [exact Ht|]. intros k Hk. unfold duration_weight. rewrite D0, D1, <- rsum_scal_l.
    apply rsum_ext. intros i Hi. rewrite <- rsum_scal_l. apply rsum_ext. intros j Hj.
    rewrite Hv by (unfold inb; auto). rewrite HV by exact Hj. rewrite !Cmod_sq, Cnorm2_mult. ring.
  - apply Rmult_integral_contrapositive. split; [|exact Hu]. pose proof (Cnorm2_pos c Hc). lra.
  - exact Hsp.
Qed.
(** Scaling the field. *)
Lemma c34_scale d g g' a b c : same_meta g g' -> tread g = Ok a -> tread g' = Ok b -> is_scaled c a b -> c <> RtoC 0 ->
  snd (get_duration d g') = snd (get_duration d g).
Proof.
  intros (_&_&_&E4&E5&_) Ha Hb Hs Hc. rewrite (c34_affine d g g' a b c 1 1 0 Ha Hb Hs Hc); try lra.
  - destruct (snd (get_duration d g)) as [x|e]; cbn [bind]; [rewrite Rmult_1_l|]; reflexivity.
  - intros k _. unfold time_axis. rewrite E4. ring.
  - intros j _. unfold cell_volume, cell_volume_xyt, cell_volume_rt. rewrite E4, E5. destruct d; ring.
Qed.
(** Normalizing a laser (any of the three kinds, when it succeeds) keeps the duration. *)
Lemma duration_values d g a : tread g = Ok a -> (forall j, (j < dim1 a)%nat -> 0 <= cell_volume d g j) ->
  (forall i j, (i < j < dim2 a)%nat -> vget (time_axis g) i < vget (time_axis g) j) ->
  let w k := rsum (dim0 a) (fun i => rsum (dim1 a) (fun j => Cnorm2 (at3 a i j k) * cell_volume d g j)) in
  (rsum (dim2 a) w = 0 -> snd (get_duration d g) = Err OtherException) /\
  (rsum (dim2 a) w <> 0 -> exists s, snd (get_duration d g) = Ok s /\ 0 <= s /\
     s <= vget (time_axis g) (dim2 a - 1) - vget (time_axis g) 0 /\
     (let m := rsum (dim2 a) (fun k => vget (time_axis g) k * w k) / rsum (dim2 a) w in
      s ^ 2 = rsum (dim2 a) (fun k => (vget (time_axis g) k - m) ^ 2 * w k) / rsum (dim2 a) w) /\
     (s = 0 <-> exists k0, (k0 < dim2 a)%nat /\ 0 < w k0 /\ forall k, (k < dim2 a)%nat -> k <> k0 -> w k = 0)).
Proof.
  intros Ha HV Ht. cbn zeta. rewrite (duration_eq d g a Ha).
  set (w := fun k => rsum (dim0 a) (fun i => rsum (dim1 a) (fun j => Cnorm2 (at3 a i j k) * cell_volume d g j))).
  assert (Hw : forall k, (k < dim2 a)%nat -> 0 <= w k).
  { intros k _. apply rsum_nonneg. intros i _. apply rsum_nonneg. intros j Hj. apply Rmult_le_pos; [apply Cnorm2_nonneg|apply HV, Hj]. }
  rewrite (weighted_std_ext _ _ (fun k => vget (time_axis g) k) _ w); [|reflexivity|].
  2:{ intros k _. unfold duration_weight, w. apply rsum_ext. intros i _. apply rsum_ext. intros j _. rewrite Cmod_sq. reflexivity. }
  destruct (weighted_std_spec (dim2 a) (fun k => vget (time_axis g) k) w Hw) as (HZ & HN).
  split; [exact HZ|]. intros H. destruct (HN H) as (s & Hs & Hp & Hm). exists s.
  split; [exact Hs|]. split; [exact Hp|]. split; [|split; [exact Hm|]].
  - apply (weighted_std_bound (dim2 a) (fun k => vget (time_axis g) k) w s (vget (time_axis g) 0) (vget (time_axis g) (dim2 a - 1)) Hw).
    + intros k Hk. split.
      * destruct k; [lra|]. apply Rlt_le, Ht. lia.
      * destruct (Nat.eq_dec k (dim2 a - 1)) as [->|]; [lra|]. apply Rlt_le, Ht. lia.
    + exact Hs.
  - apply (weighted_std_zero (dim2 a) (fun k => vget (time_axis g) k) w s Hw); [|exact Hs].
    intros i j Hij E. specialize (Ht i j Hij). lra.
Qed.
