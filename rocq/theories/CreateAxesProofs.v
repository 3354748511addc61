(** create_grid and the axes it is given (C37), field_to_envelope of a carrier (C85). *)
From Verif Require Import PyBase CSum NpFFT FFTProofs NumPy NpMath GridModel GridSpec GridProofs LaserSpec GridObs EnergyModel EnergyProofs
  LaserModel LaserInv AnalysisModel AnalysisSpec OpenPMDModel DurationProofs FrequencyProofs CreateGridProofs HilbertModel HilbertProofs.
Open Scope R_scope.

Lemma Rabs_le_between x a : Rabs x <= a <-> - a <= x <= a.
Proof. split; [intros H; unfold Rabs in H; destruct (Rcase_abs x); lra|intros H; unfold Rabs; destruct (Rcase_abs x); lra]. Qed.
Lemma axis_eqb_true a b : axis_eqb a b = true -> a = b.
Proof. unfold axis_eqb. destruct (list_eq_dec Req_EM_T a b); [auto|discriminate]. Qed.
Lemma allclose_true a b k : allclose_t a b = true -> (k < length a)%nat -> (k < length b)%nat ->
  Rabs (vget a k - vget b k) <= / 10 ^ 8 + / 10 ^ 14 * Rabs (vget b k).
Proof.
  unfold allclose_t. intros H Ha Hb. rewrite forallb_forall in H. specialize (H (vget a k, vget b k)). cbn [fst snd] in H.
  apply Rleb_true, H. clear H. revert b k Ha Hb. induction a as [|x a IH]; intros [|y b] [|k] Ha Hb; simpl in *; try lia; [left; reflexivity|].
  right. apply (IH b k); lia.
Qed.
Lemma linspace_len lo hi n : length (linspace lo hi n) = n.
Proof. unfold linspace. destruct n as [|[|n]]; [reflexivity|reflexivity|]. rewrite map_length, seq_length. reflexivity. Qed.
Lemma linspace_at lo hi n k : (2 <= n)%nat -> (k < n)%nat -> vget (linspace lo hi n) k = lo + INR k * ((hi - lo) / (INR n - 1)).
Proof.
  intros Hn Hk. destruct n as [|[|n]]; try lia. unfold linspace, vget.
  rewrite (nth_indep _ 0 (lo + INR 0 * ((hi - lo) / (INR (S (S n)) - 1)))) by (rewrite map_length, seq_length; exact Hk).
  rewrite (map_nth (fun i => lo + INR i * ((hi - lo) / (INR (S (S n)) - 1)))), seq_nth by exact Hk. reflexivity.
Qed.
(** What create_grid does with three-dimensional data on any axes. *)
Lemma create_xyt_eq a ax ay at_ isenv : (2 <= length ax)%nat -> (2 <= length ay)%nat -> (2 <= length at_)%nat ->
  let G := [linspace (vget ax 0) (last ax 0) (length ax); linspace (vget ay 0) (last ay 0) (length ay); linspace (vget at_ 0) (last at_ 0) (length at_)] in
  exists g0, g_axes g0 = G /\ g_shape g0 = [length ax; length ay; length at_] /\ g_lo g0 = [vget ax 0; vget ay 0; vget at_ 0] /\
    g_hi g0 = [last ax 0; last ay 0; last at_ 0] /\
    shp (g_tf g0) = [length ax; length ay; length at_] /\ g_dtype g0 = dtype_of_env isenv /\ dty (g_tf g0) = dtype_of_env isenv /\
    create_grid Xyt a [ax; ay; at_] isenv =
      (do _ <- pyassert (axes_match G [ax; ay; at_]); match snd (set_temporal_field g0 a) with Err e => Err e | Ok _ => Ok (fst (set_temporal_field g0 a)) end).
Proof.
  intros Ux Uy Ut G.
  pose proof (build_axis_step (map (fun l => vget l 0) [ax;ay;at_]) (map (fun l => last l 0) [ax;ay;at_]) (map (@length R) [ax;ay;at_]) 2 0 (length ax) eq_refl Ux) as B0.
  pose proof (build_axis_step (map (fun l => vget l 0) [ax;ay;at_]) (map (fun l => last l 0) [ax;ay;at_]) (map (@length R) [ax;ay;at_]) 1 1 (length ay) eq_refl Uy) as B1.
  pose proof (build_axis_step (map (fun l => vget l 0) [ax;ay;at_]) (map (fun l => last l 0) [ax;ay;at_]) (map (@length R) [ax;ay;at_]) 0 2 (length at_) eq_refl Ut) as B2.
  unfold create_grid, grid_init. cbn [pyassert bind].
  change (Nat.eqb (length (map (fun l : list R => vget l 0) [ax; ay; at_])) 3) with true.
  change (Nat.eqb (length (map (fun l : list R => last l 0) [ax; ay; at_])) 3) with true. cbn [pyassert bind].
  rewrite B0, B1, B2. cbn [build_axes bind fst snd map vget nth].
  change (nth 0 ax 0) with (vget ax 0). change (nth 0 ay 0) with (vget ay 0). change (nth 0 at_ 0) with (vget at_ 0).
  cbn [g_axes]. change ([linspace (vget ax 0) (last ax 0) (length ax); linspace (vget ay 0) (last ay 0) (length ay); linspace (vget at_ 0) (last at_ 0) (length at_)]) with G.
  match goal with |- context [set_temporal_field ?g a] => exists g end. repeat split.
Qed.
(** Accepted Cartesian data: the transverse axes are exactly the given ones (so they are uniform), the time axis only up to 1e-8 s. *)
Lemma c37_axes a ax ay at_ isenv g : (2 <= length ax)%nat -> (2 <= length ay)%nat -> (2 <= length at_)%nat ->
  create_grid Xyt a [ax; ay; at_] isenv = Ok g ->
  exists t, g_axes g = [ax; ay; t] /\ uniform ax /\ uniform ay /\ t = linspace (vget at_ 0) (last at_ 0) (length at_) /\
    forall k, (k < length at_)%nat -> Rabs (vget t k - vget at_ k) <= / 10 ^ 8 + / 10 ^ 14 * Rabs (vget at_ k).
Proof.
  intros Hx Hy Ht H. destruct (create_xyt_eq a ax ay at_ isenv Hx Hy Ht) as (g0 & A & _ & _ & _ & _ & _ & _ & E). rewrite E in H. clear E.
  unfold axes_match in H. cbn [removelast combine forallb fst snd last] in H.
  destruct (axis_eqb _ ax) eqn:E1 in H; [|discriminate]. destruct (axis_eqb _ ay) eqn:E2 in H; [|discriminate]. cbn [andb] in H.
  destruct (allclose_t _ at_) eqn:E3 in H; [|discriminate]. cbn [pyassert bind] in H.
  apply axis_eqb_true in E1. apply axis_eqb_true in E2.
  assert (Hg : g_axes g = g_axes g0).
  { revert H. unfold set_temporal_field. destruct (negb _); [discriminate|]. destruct (negb _); [discriminate|]. cbn [snd fst]. intros H. injection H as <-. reflexivity. }
  rewrite E1, E2 in A. rewrite A in Hg. eexists. split; [exact Hg|].
  assert (U : forall l, (2 <= length l)%nat -> linspace (vget l 0) (last l 0) (length l) = l -> uniform l).
  { intros l Hl E. split; [exact Hl|]. exists ((last l 0 - vget l 0) / (INR (length l) - 1)). intros i Hi.
    rewrite <- E at 1 2. rewrite !linspace_at by lia. rewrite S_INR. ring. }
  split; [apply U; assumption|]. split; [apply U; assumption|]. split; [reflexivity|].
  intros k Hk. apply allclose_true; [exact E3|rewrite linspace_len; exact Hk|exact Hk].
Qed.
(** Any time axis within a window of 5 ns is accepted and replaced by a uniform one. *)
Lemma c37_time_axis a ax ay at_ isenv : uniform ax -> uniform ay -> (2 <= length at_)%nat ->
  (forall k, (k < length at_)%nat -> Rabs (vget at_ k) <= / 2 * / 10 ^ 8) ->
  shp a = [length ax; length ay; length at_] -> dty a = dtype_of_env isenv ->
  exists g, create_grid Xyt a [ax; ay; at_] isenv = Ok g /\ g_axes g = [ax; ay; linspace (vget at_ 0) (last at_ 0) (length at_)].
Proof.
  intros Ux Uy Ht Hb Hs Hd. destruct (create_xyt_eq a ax ay at_ isenv (proj1 Ux) (proj1 Uy) Ht) as (g0 & A & _ & _ & _ & S0 & D0 & _ & E). rewrite E. clear E.
  rewrite (uniform_linspace ax Ux), (uniform_linspace ay Uy) in A |- *. unfold axes_match. cbn [removelast combine forallb fst snd last]. rewrite !axis_eqb_refl. cbn [andb].
  assert (C : allclose_t (linspace (vget at_ 0) (last at_ 0) (length at_)) at_ = true).
  { unfold allclose_t. apply forallb_forall. intros (u, v) Hin. cbn [fst snd]. apply Rleb_true.
    set (e := / 10 ^ 8) in *. assert (He : 0 < e) by (apply Rinv_0_lt_compat, pow_lt; lra).
    assert (He' : 0 < / 10 ^ 14) by (apply Rinv_0_lt_compat, pow_lt; lra).
    apply In_nth with (d := (0, 0)) in Hin. destruct Hin as (k & Hk & Hn). rewrite combine_length, linspace_len, Nat.min_id in Hk.
    rewrite combine_nth in Hn by (rewrite linspace_len; reflexivity). injection Hn as <- <-.
    change (nth k (linspace (vget at_ 0) (last at_ 0) (length at_)) 0) with (vget (linspace (vget at_ 0) (last at_ 0) (length at_)) k).
    change (nth k at_ 0) with (vget at_ k). rewrite linspace_at by assumption.
    assert (H1 : 1 < INR (length at_)) by (replace 1 with (INR 1) by reflexivity; apply lt_INR; lia).
    set (s := INR k / (INR (length at_) - 1)).
    assert (Hs01 : 0 <= s <= 1).
    { unfold s. assert (INR k <= INR (length at_) - 1) by (replace 1 with (INR 1) by reflexivity; rewrite <- minus_INR by lia; apply le_INR; lia).
      pose proof (pos_INR k). split; [apply Rle_mult_inv_pos; lra|]. apply (Rmult_le_reg_r (INR (length at_) - 1)); [lra|]. unfold Rdiv. rewrite Rmult_assoc, Rinv_l by lra. lra. }
    replace (vget at_ 0 + INR k * ((last at_ 0 - vget at_ 0) / (INR (length at_) - 1))) with ((1 - s) * vget at_ 0 + s * last at_ 0) by (unfold s; field; lra).
    pose proof (Hb 0%nat ltac:(lia)) as B0. pose proof (Hb (length at_ - 1)%nat ltac:(lia)) as B1. pose proof (Hb k Hk) as Bk.
    assert (EL : last at_ 0 = vget at_ (length at_ - 1)) by (rewrite last_nth; reflexivity). rewrite EL.
    apply Rabs_le_between in B0, B1. pose proof (Rabs_pos (vget at_ k)). pose proof (Rmult_le_pos (/ 10 ^ 14) (Rabs (vget at_ k)) ltac:(lra) ltac:(lra)).
    set (x0 := vget at_ 0) in *. set (x1 := vget at_ (length at_ - 1)) in *.
    assert (L : Rabs ((1 - s) * x0 + s * x1) <= / 2 * e).
    { apply Rabs_le_between. split; nra. }
    pose proof (Rabs_triang ((1 - s) * x0 + s * x1) (- vget at_ k)) as T. rewrite Rabs_Ropp in T. unfold Rminus at 1. lra. }
  rewrite C. cbn [pyassert bind]. unfold set_temporal_field. rewrite S0, <- Hs, shape_eqb_refl, D0, Hd, dtype_eqb_refl. cbn [negb fst snd].
  eexists. split; [reflexivity|]. exact A.
Qed.

(** ** The carrier is not removed *)
Lemma c85_not_removed ax ay at_ A p a : uniform ax -> uniform ay -> uniform at_ -> vget at_ 0 <> last at_ 0 ->
  (0 < p)%nat -> (2 * p < length at_)%nat ->
  shp a = [length ax; length ay; length at_] -> dty a = Float64 ->
  let w := 2 * PI * INR p / (INR (length at_) * (vget at_ 1 - vget at_ 0)) in
  let t k := vget at_ k - (vget at_ 0 + last at_ 0) / 2 in
  (forall i j k, at3 a i j k = RtoC (A i j * cos (w * t k))) -> some_nonzero a ->
  exists g e, create_grid Xyt a [ax; ay; at_] false = Ok g /\ snd (field_to_envelope scipy_hilbert Xyt g) = Ok 0 /\
    tread (fst (field_to_envelope scipy_hilbert Xyt g)) = Ok e /\ shp e = shp a /\
    forall i j k, inb a i j k -> at3 e i j k = Cmult (RtoC (A i j)) (cis (- (w * t k))).
Proof.
  intros Ux Uy Ut Hne H0 Hp Hs Hd w t Ha Hnz.
  destruct (c37_frequency_zero scipy_hilbert ax ay at_ A w a Ux Uy Ut ltac:(lia) Hne Hs Hd Ha Hnz) as (g & Hg & Hw).
  destruct (c37_create_xyt a ax ay at_ false Ux Uy Ut Hs Hd) as (g1 & b & Hg1 & Gax & _ & _ & _ & _ & _ & Hb & (B1 & B2 & B3)); [intros _ i j k; rewrite Ha; reflexivity|].
  assert (g1 = g) by congruence. subst g1.
  assert (D2 : dim2 b = length at_) by (unfold dim2; rewrite <- B1, Hs; reflexivity).
  assert (HT : time_axis g = at_) by (unfold time_axis; rewrite Gax; reflexivity).
  destruct (proj2 Ut) as (dt & Hdt). pose proof (uniform_step_neq0 at_ dt Ut Hdt Hne) as Hdt0.
  assert (E1 : vget at_ 1 - vget at_ 0 = dt) by (apply Hdt; lia).
  assert (Hin : forall i j k, inb b i j k <-> inb a i j k) by (intros; unfold inb, dim0, dim1, dim2; rewrite B1; tauto).
  destruct (c85_envelope Xyt g b 0 dt p A (fun _ _ => - (w * ((vget at_ 0 + last at_ 0) / 2))) Hb) as (e & He & Hse & Hv); rewrite ?D2, ?HT; try assumption.
  - intros q Hq. apply (uniform_at at_ dt q Ut Hdt Hq).
  - intros i j k H. rewrite <- E1. fold w. rewrite <- B3 by (apply Hin; exact H). rewrite Ha. unfold t. do 3 f_equal. ring.
  - exists g, e. conj; try assumption; [congruence|]. intros i j k H. apply Hin in H. destruct (Hv i j k H) as (V & _). rewrite V, HT, D2, <- E1.
    fold w. f_equal. f_equal. unfold t. ring.
Qed.
