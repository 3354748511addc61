(** create_grid: which arrays it accepts. *)
From Verif Require Import PyBase CSum NpFFT NumPy NpMath GridModel GridSpec GridProofs LaserSpec GridObs EnergyModel EnergyProofs
  LaserModel LaserInv AnalysisModel AnalysisSpec OpenPMDModel DurationProofs FrequencyProofs.
Open Scope R_scope.

Lemma uniform_linspace l : uniform l -> linspace (vget l 0) (last l 0) (length l) = l.
Proof.
  intros (Hl & d & Hd).
  assert (Hx : forall q, (q < length l)%nat -> vget l q = vget l 0 + INR q * d).
  { intros q. induction q as [|q IH]; intros Hq; [simpl; ring|]. pose proof (Hd q Hq) as E. specialize (IH ltac:(lia)).
    rewrite S_INR. replace (vget l (S q)) with (vget l q + d) by lra. rewrite IH. ring. }
  assert (Hlast : last l 0 = vget l 0 + INR (length l - 1) * d).
  { rewrite last_nth. change (nth (length l - 1) l 0) with (vget l (length l - 1)). apply Hx. lia. }
  assert (HL : INR (length l - 1) = INR (length l) - 1) by (rewrite minus_INR by lia; reflexivity).
  assert (H1 : 1 < INR (length l)).
  { replace 1 with (INR 1) by reflexivity. apply lt_INR. lia. }
  unfold linspace. remember (length l) as n eqn:En. destruct n as [|[|n]]; try lia.
  apply nth_ext with (d := 0) (d' := 0); [rewrite map_length, seq_length; exact En|].
  intros q Hq. rewrite map_length, seq_length in Hq. rewrite (nth_indep _ 0 ((fun i => vget l 0 + INR i * ((last l 0 - vget l 0) / (INR (S (S n)) - 1))) 0%nat)) by (rewrite map_length, seq_length; exact Hq).
  rewrite (map_nth (fun i => vget l 0 + INR i * ((last l 0 - vget l 0) / (INR (S (S n)) - 1)))).
  rewrite seq_nth by exact Hq. cbn [Nat.add]. change (nth q l 0) with (vget l q). rewrite (Hx q Hq), Hlast, HL. field. lra.
Qed.
Lemma axis_eqb_refl l : axis_eqb l l = true.
Proof. unfold axis_eqb. destruct (list_eq_dec Req_EM_T l l); [reflexivity|congruence]. Qed.
Lemma allclose_refl l : allclose_t l l = true.
Proof.
  unfold allclose_t. apply forallb_forall. intros (u, v) H. assert (E : u = v).
  { clear - H. induction l as [|x l IH]; [destruct H|]. cbn [combine] in H. destruct H as [H|H]; [congruence|exact (IH H)]. }
  subst v. cbn [fst snd]. apply Rleb_true. replace (u - u) with 0 by ring. rewrite Rabs_R0. pose proof (Rabs_pos u).
  assert (0 < / 10 ^ 8) by (apply Rinv_0_lt_compat, pow_lt; lra). assert (0 < / 10 ^ 14) by (apply Rinv_0_lt_compat, pow_lt; lra).
  pose proof (Rmult_le_pos (/ 10 ^ 14) (Rabs u)). lra.
Qed.
Lemma axes_match_refl l : axes_match l l = true.
Proof.
  unfold axes_match. rewrite allclose_refl, andb_true_r. apply forallb_forall. intros (u, v) H. assert (E : u = v).
  { revert H. induction (removelast l) as [|x t IH]; intros H; [destruct H|]. cbn [combine] in H. destruct H as [H|H]; [congruence|exact (IH H)]. }
  subst v. apply axis_eqb_refl.
Qed.
Lemma build_axis_step lo hi np nd i n : nth_error np i = Some n -> (2 <= n)%nat ->
  build_axes (S nd) i lo hi np =
    do r <- build_axes nd (S i) lo hi np; Ok (linspace (vget lo i) (vget hi i) n :: fst r,
      (vget (linspace (vget lo i) (vget hi i) n) 1 - vget (linspace (vget lo i) (vget hi i) n) 0) :: snd r).
Proof.
  intros H Hn. cbn [build_axes]. rewrite H. destruct (nth_error (linspace (vget lo i) (vget hi i) n) 1) eqn:E.
  - apply (nth_error_nth _ _ 0) in E. change (vget (linspace (vget lo i) (vget hi i) n) 1 = r) in E. rewrite E. reflexivity.
  - exfalso. apply nth_error_None in E. destruct n as [|[|n]]; try lia. unfold linspace in E. rewrite map_length, seq_length in E. lia.
Qed.
(** 3-D data on uniform axes is accepted whatever the axes. *)
Lemma c37_create_xyt a ax ay at_ isenv : uniform ax -> uniform ay -> uniform at_ ->
  shp a = [length ax; length ay; length at_] -> dty a = dtype_of_env isenv ->
  (isenv = false -> forall i j k, Im (at3 a i j k) = 0) ->
  exists g b, create_grid Xyt a [ax; ay; at_] isenv = Ok g /\ g_axes g = [ax; ay; at_] /\ g_isenv g = isenv /\
    g_dx g = [vget ax 1 - vget ax 0; vget ay 1 - vget ay 0; vget at_ 1 - vget at_ 0] /\
    g_shape g = shp a /\ g_dtype g = dtype_of_env isenv /\ shp (g_tf g) = shp a /\
    tread g = Ok b /\ arr_eq a b.
Proof.
  intros Ux Uy Ut Hs Hd Hr.
  pose proof (build_axis_step (map (fun l => vget l 0) [ax;ay;at_]) (map (fun l => last l 0) [ax;ay;at_]) (map (@length R) [ax;ay;at_]) 2 0 (length ax) eq_refl (proj1 Ux)) as B0.
  pose proof (build_axis_step (map (fun l => vget l 0) [ax;ay;at_]) (map (fun l => last l 0) [ax;ay;at_]) (map (@length R) [ax;ay;at_]) 1 1 (length ay) eq_refl (proj1 Uy)) as B1.
  pose proof (build_axis_step (map (fun l => vget l 0) [ax;ay;at_]) (map (fun l => last l 0) [ax;ay;at_]) (map (@length R) [ax;ay;at_]) 0 2 (length at_) eq_refl (proj1 Ut)) as B2.
  unfold create_grid, grid_init. cbn [pyassert bind]. 
  change (Nat.eqb (length (map (fun l : list R => vget l 0) [ax; ay; at_])) 3) with true.
  change (Nat.eqb (length (map (fun l : list R => last l 0) [ax; ay; at_])) 3) with true. cbn [pyassert bind].
  rewrite B0, B1, B2. cbn [build_axes bind fst snd map vget nth].
  change (nth 0 ax 0) with (vget ax 0). change (nth 0 ay 0) with (vget ay 0). change (nth 0 at_ 0) with (vget at_ 0).
  rewrite (uniform_linspace ax Ux), (uniform_linspace ay Uy), (uniform_linspace at_ Ut).
  cbn [g_axes]. rewrite axes_match_refl. cbn [pyassert bind].
  unfold set_temporal_field. cbn [g_tf g_dtype]. unfold zeros; cbn [shp dty]. rewrite Hs, shape_eqb_refl, Hd, dtype_eqb_refl. cbn [negb fst snd].
  eexists. eexists. split; [reflexivity|]. cbn [g_axes g_isenv g_shape g_dtype with_t g_tf]. cbn [g_dx]; do 6 (split; [reflexivity|]).
  unfold tread, get_temporal_field. cbn [g_tv with_t snd g_tf]. split; [reflexivity|].
  split; [cbn [shp]; exact Hs|]. split; [cbn [dty]; exact Hd|].
  intros i j k _. cbn [at3]. destruct isenv; cbn [dtype_of_env cast]; [reflexivity|].
  specialize (Hr eq_refl i j k). destruct (at3 a i j k) as (x, y). simpl in *. subst y. reflexivity.
Qed.
(** REFUTED half of C37: the 2-D arrays that reorder_array_rt returns are never accepted. *)
Lemma c37_create_rt a ax h nl isenv : shp a = [h; nl] -> exists e, create_grid Rt a ax isenv = Err e.
Proof.
  intros Hs. unfold create_grid. destruct (grid_init _ _ _ _ _ _) as [g|e] eqn:Hg; cbn [bind]; [|eexists; reflexivity].
  destruct (pyassert _) as [[]|e]; cbn [bind]; [|eexists; reflexivity].
  assert (Hz : length (shp (g_tf g)) = 3%nat).
  { unfold grid_init in Hg. cbn [pyassert bind] in Hg. destruct (Nat.eqb _ 2); [|discriminate]. cbn [pyassert bind] in Hg.
    destruct (Nat.eqb _ 2); [|discriminate]. cbn [pyassert bind] in Hg. destruct (build_axes _ _ _ _ _); [|discriminate]. cbn [bind] in Hg.
    destruct (Z.ltb _ _); [discriminate|]. injection Hg as <-. reflexivity. }
  unfold set_temporal_field. destruct (shape_eqb (shp a) (shp (g_tf g))) eqn:E; cbn [negb snd]; [|eexists; reflexivity].
  apply shape_eqb_true in E. rewrite <- E, Hs in Hz. discriminate.
Qed.

(** REFUTED half of C37: field_to_envelope of cos(w (t - t_mid)) reports frequency 0. *)
Lemma uniform_mid l k : uniform l -> (k < length l)%nat ->
  vget l (length l - 1 - k) - (vget l 0 + last l 0) / 2 = - (vget l k - (vget l 0 + last l 0) / 2).
Proof.
  intros (Hl & d & Hd) Hk.
  assert (Hx : forall q, (q < length l)%nat -> vget l q = vget l 0 + INR q * d).
  { intros q. induction q as [|q IH]; intros Hq; [simpl; ring|]. pose proof (Hd q Hq) as E. specialize (IH ltac:(lia)).
    rewrite S_INR. replace (vget l (S q)) with (vget l q + d) by lra. rewrite IH. ring. }
  rewrite last_nth. change (nth (length l - 1) l 0) with (vget l (length l - 1)).
  rewrite (Hx (length l - 1 - k)%nat), (Hx k), (Hx (length l - 1)%nat) by lia.
  rewrite !minus_INR by lia. simpl (INR 1). field.
Qed.
Lemma uniform_step_neq0 l d : uniform l -> (forall i, (S i < length l)%nat -> vget l (S i) - vget l i = d) -> vget l 0 <> last l 0 -> d <> 0.
Proof.
  intros (Hl & _) Hd Hne H. subst d. apply Hne. rewrite last_nth. change (nth (length l - 1) l 0) with (vget l (length l - 1)).
  assert (X : forall q, (q < length l)%nat -> vget l q = vget l 0).
  { intros q. induction q as [|q IH]; intros Hq; [reflexivity|]. specialize (Hd q Hq). specialize (IH ltac:(lia)). lra. }
  symmetry. apply X. lia.
Qed.
Lemma c37_frequency_zero hilb ax ay at_ A w a : uniform ax -> uniform ay -> uniform at_ -> (3 <= length at_)%nat -> vget at_ 0 <> last at_ 0 ->
  shp a = [length ax; length ay; length at_] -> dty a = Float64 ->
  (forall i j k, at3 a i j k = RtoC (A i j * cos (w * (vget at_ k - (vget at_ 0 + last at_ 0) / 2)))) -> some_nonzero a ->
  exists g, create_grid Xyt a [ax; ay; at_] false = Ok g /\ snd (field_to_envelope hilb Xyt g) = Ok 0.
Proof.
  intros Ux Uy Ut Hn Hne Hs Hd Ha Hnz.
  destruct (c37_create_xyt a ax ay at_ false Ux Uy Ut Hs Hd) as (g & b & Hg & Gax & Ge & _ & Gs & Gd & Gt & Hb & (B1 & B2 & B3)).
  { intros _ i j k. rewrite Ha. reflexivity. }
  exists g. split; [exact Hg|].
  assert (D0 : dim0 b = length ax) by (unfold dim0; rewrite <- B1, Hs; reflexivity).
  assert (D1 : dim1 b = length ay) by (unfold dim1; rewrite <- B1, Hs; reflexivity).
  assert (D2 : dim2 b = length at_) by (unfold dim2; rewrite <- B1, Hs; reflexivity).
  assert (Hv : forall i j k, inb b i j k -> at3 b i j k = RtoC (A i j * cos (w * (vget at_ k - (vget at_ 0 + last at_ 0) / 2)))).
  { intros i j k H. rewrite <- B3; [apply Ha|]. unfold inb, dim0, dim1, dim2 in *. rewrite B1. exact H. }
  assert (HT : time_axis g = at_) by (unfold time_axis; rewrite Gax; reflexivity).
  destruct Ut as (Ut1 & dt & Hdt).
  assert (Hdt0 : dt <> 0) by (apply (uniform_step_neq0 at_ dt); [split; [exact Ut1|exists dt; exact Hdt]|exact Hdt|exact Hne]).
  assert (Hz : forall x, snd (field_to_envelope hilb Xyt g) = Ok x -> x = 0).
  { apply (c37_zero hilb Xyt g b dt Hb Ge); rewrite ?D2; try assumption.
    - rewrite HT. exact Hdt.
    - intros i j k H. rewrite Hv by exact H. reflexivity.
    - intros i j k H. rewrite !Hv; [|exact H|].
      + rewrite uniform_mid; [|split; [exact Ut1|exists dt; exact Hdt]|unfold inb in H; lia]. rewrite <- Ropp_mult_distr_r, cos_neg. reflexivity.
      + unfold inb in *. rewrite D2 in *. lia. }
  assert (Hex : exists x, snd (field_to_envelope hilb Xyt g) = Ok x).
  { unfold field_to_envelope. rewrite Ge. change (snd (get_temporal_field g)) with (tread g). rewrite Hb.
    destruct (get_t_meta g) as (_&_&_&_&_&_&_&E8&E9&E10).
    rewrite (frequency_field_eq (fst (get_temporal_field g)) b); [|rewrite tread_get_t; exact Hb|rewrite E9; exact Ge].
    unfold frequency_field. cbn [negb]. destruct (Nat.ltb_spec (dim2 b) 3); [lia|].
    unfold average3. destruct (Reqb _ 0) eqn:E.
    - exfalso. apply Reqb_true in E. destruct Hnz as (i & j & k & Hin & Hx).
      assert (Hin' : inb b i j k) by (unfold inb, dim0, dim1, dim2 in *; rewrite <- B1; exact Hin).
      pose proof (rsum3_zero _ _ _ _ ltac:(intros; apply Cmod_ge_0) E i j k) as Z. unfold inb in Hin'.
      specialize (Z ltac:(tauto) ltac:(tauto) ltac:(tauto)). cbv beta in Z. rewrite <- B3 in Z by exact Hin. apply Cmod_eq_0 in Z. tauto.
    - cbn [bind]. cbn zeta.
      match goal with |- context [set_temporal_field ?G ?F] => assert (X : snd (set_temporal_field G F) = Ok tt) end.
      { unfold set_temporal_field. cbn [shp dty hilbert_transform].
        assert (Sh : shp (g_tf (set_is_envelope (fst (get_frequency (fst (get_temporal_field g)) Xyt true None lb_default ub_default)) true)) = shp b).
        { unfold get_frequency, with_field; cbn [fst]. unfold set_is_envelope; cbn [g_tf astype shp].
          unfold get_temporal_field. destruct (g_tv g) eqn:Tv.
          - cbn [fst]. rewrite Tv. cbn [fst]. rewrite Gt. exact B1.
          - exfalso. revert Hg. unfold create_grid. destruct (grid_init _ _ _ _ _ _); cbn [bind]; [|discriminate].
            destruct (pyassert _); cbn [bind]; [|discriminate]. unfold set_temporal_field.
            destruct (negb _); [discriminate|]. destruct (negb _); [discriminate|]. cbn [snd fst]. intros Q. injection Q as <-. discriminate Tv. }
        rewrite Sh, shape_eqb_refl. cbn [negb set_is_envelope g_dtype dtype_of_env]. rewrite dtype_eqb_refl. reflexivity. }
      rewrite X. eexists. reflexivity. }
  destruct Hex as (x & Hx). rewrite Hx. f_equal. apply Hz, Hx.
Qed.

(** ** Example grids *)
Lemma uni2 : uniform [0;1].
Proof. split; [simpl; lia|]. exists 1. intros [|i] Hi; simpl in Hi; [unfold vget; simpl; ring|lia]. Qed.
Lemma uni3 : uniform [0;1;2].
Proof. split; [simpl; lia|]. exists 1. intros [|[|i]] Hi; simpl in Hi; try lia; unfold vget; simpl; ring. Qed.
Lemma times3 k : (k < 3)%nat -> vget [0;1;2] k = INR k.
Proof. intros H. destruct k as [|[|[|k]]]; try lia; unfold vget; simpl; ring. Qed.
Lemma mono_grid delta : exists g f, tread g = Ok f /\ g_isenv g = true /\ shp f = [2;2;3]%nat /\ time_axis g = [0;1;2] /\ g_dx g = [1;1;1] /\
  (forall i j k, inb f i j k -> at3 f i j k = Cmult (RtoC 2) (cis (- (delta * vget [0;1;2] k)))).
Proof.
  destruct (c37_create_xyt (mkArr [2;2;3]%nat Complex128 (fun i j k => Cmult (RtoC 2) (cis (- (delta * vget [0;1;2] k))))) [0;1] [0;1] [0;1;2] true uni2 uni2 uni3 eq_refl eq_refl)
    as (g & b & _ & Ha & He & Hdx & _ & _ & _ & Hb & (B1 & _ & B3)); [discriminate|].
  exists g, b. split; [exact Hb|]. split; [exact He|]. split; [rewrite <- B1; reflexivity|]. split; [unfold time_axis; rewrite Ha; reflexivity|].
  split; [rewrite Hdx; unfold vget; simpl; repeat f_equal; ring|].
  intros i j k H. rewrite <- B3; [reflexivity|]. unfold inb, dim0, dim1, dim2 in *. rewrite B1. exact H.
Qed.
Lemma c35_example : exists g f, tread g = Ok f /\ g_isenv g = true /\ (3 <= dim2 f)%nat /\
  (forall q, (S q < dim2 f)%nat -> vget (time_axis g) (S q) - vget (time_axis g) q = 1) /\
  (forall i j k, inb f i j k -> at3 f i j k = Cmult (RtoC 2) (cis (- (/ 2 * vget (time_axis g) k)))) /\
  (0 < dim0 f)%nat /\ (0 < dim1 f)%nat /\ Rabs (/ 2) * 1 < PI.
Proof.
  destruct (mono_grid (/ 2)) as (g & f & Hf & He & Hs & Ht & _ & Hv). exists g, f. rewrite Ht.
  assert (D0 : dim0 f = 2%nat) by (unfold dim0; rewrite Hs; reflexivity).
  assert (D1 : dim1 f = 2%nat) by (unfold dim1; rewrite Hs; reflexivity).
  assert (D2 : dim2 f = 3%nat) by (unfold dim2; rewrite Hs; reflexivity). rewrite D0, D1, D2.
  split; [exact Hf|]. split; [exact He|]. split; [lia|]. split.
  - intros q Hq. rewrite !times3 by lia. rewrite S_INR. ring.
  - split; [exact Hv|]. split; [lia|]. split; [lia|]. rewrite Rabs_pos_eq by lra. pose proof PI2_1. lra.
Qed.
Lemma c36_example : exists g f om c W, tread g = Ok f /\ g_isenv g = true /\
  (forall q, (S q < dim2 f)%nat -> vget (time_axis g) q < vget (time_axis g) (S q)) /\ phase_ok f /\ some_nonzero f /\ 0 < W /\
  snd (get_frequency g OtherDim false (Some 3) (/ 5) 5) = Ok (om, c) /\
  (forall i j k, inb f i j k -> exists w, at3 om i j k = RtoC w /\ / 5 * c < w < 5 * c /\ W <= w <= 5 * W).
Proof.
  destruct c35_example as (g & f & Hf & He & Hn & Ht & Hv & H0 & H1 & Hd).
  assert (HA : RtoC 2 <> RtoC 0) by (apply RtoC_neq0; lra).
  destruct (c35_mono g OtherDim false f 3 (/ 5) 5 (/ 2) 1 (fun _ _ => RtoC 2) Hf He Hn Ht ltac:(lra) Hd Hv) as (om & Hom & _ & Hw).
  { exists 0%nat, 0%nat. auto. }
  assert (Hp : forall i j k, inb f i j k -> at3 f i j k <> RtoC 0).
  { intros i j k H. rewrite Hv by exact H. apply Cmult_neq_0; [exact HA|apply cis_neq0]. }
  exists g, f, om, (3 + / 2), (3 + / 2). split; [exact Hf|]. split; [exact He|]. split.
  { intros q Hq. specialize (Ht q Hq). apply Rminus_gt_0_lt. rewrite Ht. lra. }
  split.
  { intros i j Hi Hj. right. intros k Hk. split; [apply Hp; unfold inb; auto|]. intros Hk2 r Hr E.
    rewrite !Hv in E by (unfold inb; auto).
    replace (- (/ 2 * vget (time_axis g) (S k))) with (- (/ 2 * vget (time_axis g) k) + - / 2) in E.
    2:{ replace (vget (time_axis g) (S k)) with (vget (time_axis g) k + 1) by (rewrite <- (Ht k Hk2); ring). field. }
    rewrite cis_plus in E.
    assert (E2 : cis (- / 2) = RtoC (- r)).
    { transitivity (Cdiv (Cmult (RtoC 2) (Cmult (cis (- (/ 2 * vget (time_axis g) k))) (cis (- / 2)))) (Cmult (RtoC 2) (cis (- (/ 2 * vget (time_axis g) k))))).
      - field. split; [apply cis_neq0|exact HA].
      - rewrite E. rewrite RtoC_opp. field. split; [apply cis_neq0|exact HA]. }
    unfold cis, RtoC in E2. injection E2 as Ec _. rewrite cos_neg in Ec.
    assert (0 < cos (/ 2)); [|lra]. apply cos_gt_0; pose proof PI2_1; lra. }
  split; [exists 0%nat, 0%nat, 0%nat; split; [unfold inb; repeat split; lia|apply Hp; unfold inb; repeat split; lia]|].
  split; [lra|]. split; [exact Hom|]. intros i j k H. exists (3 + / 2). split; [apply Hw; try lra; try exact H; exact HA|lra].
Qed.
Lemma c37_example : exists a, uniform [0;1] /\ uniform [0;1;2] /\ vget [0;1;2] 0 <> last [0;1;2] 0 /\ shp a = [2;2;3]%nat /\ dty a = Float64 /\
  (forall i j k, at3 a i j k = RtoC (1 * cos (1 * (vget [0;1;2] k - (vget [0;1;2] 0 + last [0;1;2] 0) / 2)))) /\ some_nonzero a.
Proof.
  exists (mkArr [2;2;3]%nat Float64 (fun i j k => RtoC (1 * cos (1 * (vget [0;1;2] k - (vget [0;1;2] 0 + last [0;1;2] 0) / 2))))).
  split; [exact uni2|]. split; [exact uni3|]. split; [unfold vget; simpl; lra|]. split; [reflexivity|]. split; [reflexivity|]. split; [reflexivity|].
  exists 0%nat, 0%nat, 1%nat. split; [unfold inb, dim0, dim1, dim2; simpl; repeat split; lia|]. cbn [at3]. apply RtoC_neq0.
  unfold vget; simpl. replace (1 * (1 - (0 + 2) / 2)) with 0 by field. rewrite cos_0. lra.
Qed.
Lemma c34_example : exists g a, tread g = Ok a /\ (forall j, (j < dim1 a)%nat -> 0 <= cell_volume Xyt g j) /\
  (forall i j, (i < j < dim2 a)%nat -> vget (time_axis g) i < vget (time_axis g) j) /\ snd (get_duration Xyt g) = Ok (sqrt (2 / 3)).
Proof.
  destruct (mono_grid 0) as (g & f & Hf & He & Hs & Ht & Hdx & Hv). exists g, f.
  assert (D0 : dim0 f = 2%nat) by (unfold dim0; rewrite Hs; reflexivity).
  assert (D1 : dim1 f = 2%nat) by (unfold dim1; rewrite Hs; reflexivity).
  assert (D2 : dim2 f = 3%nat) by (unfold dim2; rewrite Hs; reflexivity).
  assert (HV : forall j, cell_volume Xyt g j = c_light).
  { intros j. unfold cell_volume, cell_volume_xyt, lastR. rewrite Hdx. unfold vget; simpl. ring. }
  pose proof c_light_pos as Pc.
  split; [exact Hf|]. split; [intros j _; rewrite HV; lra|]. split.
  { intros i j Hij. rewrite Ht, !times3 by lia. apply lt_INR. lia. }
  rewrite (duration_eq Xyt g f Hf). rewrite D2.
  assert (HW : forall k, (k < 3)%nat -> duration_weight Xyt g f k = 16 * c_light).
  { intros k Hk. unfold duration_weight. rewrite D0, D1.
    assert (E : forall i j, (i < 2)%nat -> (j < 2)%nat -> Cmod (at3 f i j k) ^ 2 * cell_volume Xyt g j = 4 * c_light).
    { intros i j Hi Hj. rewrite HV, Hv by (unfold inb; lia). rewrite Cmod_mult, Cmod_cis, Cmod_R, Rabs_pos_eq by lra. ring. }
    cbn [rsum]. rewrite !E by lia. ring. }
  unfold weighted_std, average1.
  assert (R3 : rsum 3 (duration_weight Xyt g f) = 48 * c_light) by (simpl; rewrite !HW by lia; ring).
  rewrite R3. assert (N : 48 * c_light <> 0) by lra.
  destruct (Reqb (48 * c_light) 0) eqn:E; [apply Reqb_true in E; lra|]. cbn [bind].
  assert (M : rsum 3 (fun k => vget (time_axis g) k * duration_weight Xyt g f k) / (48 * c_light) = 1).
  { simpl. rewrite !HW by lia. rewrite Ht. unfold vget; simpl. field. lra. }
  rewrite M. f_equal. f_equal. simpl. rewrite !HW by lia. rewrite Ht. unfold vget; simpl. field. lra.
Qed.

(** An rt grid built from a three-dimensional array of one azimuthal mode. *)
Lemma create_rt3 a ar at_ isenv : uniform ar -> uniform at_ ->
  shp a = [1%nat; length ar; length at_] -> dty a = dtype_of_env isenv ->
  (isenv = false -> forall i j k, Im (at3 a i j k) = 0) ->
  exists g b, create_grid Rt a [ar; at_] isenv = Ok g /\ g_axes g = [ar; at_] /\ g_isenv g = isenv /\
    tread g = Ok b /\ arr_eq a b.
Proof.
  intros Ur Ut Hs Hd Hr.
  pose proof (build_axis_step (map (fun l => vget l 0) [ar;at_]) (map (fun l => last l 0) [ar;at_]) (map (@length R) [ar;at_]) 1 0 (length ar) eq_refl (proj1 Ur)) as B0.
  pose proof (build_axis_step (map (fun l => vget l 0) [ar;at_]) (map (fun l => last l 0) [ar;at_]) (map (@length R) [ar;at_]) 0 1 (length at_) eq_refl (proj1 Ut)) as B1.
  unfold create_grid, grid_init. cbn [pyassert bind].
  change (Nat.eqb (length (map (fun l : list R => vget l 0) [ar; at_])) 2) with true.
  change (Nat.eqb (length (map (fun l : list R => last l 0) [ar; at_])) 2) with true. cbn [pyassert bind].
  rewrite B0, B1. cbn [build_axes bind fst snd map vget nth].
  change (nth 0 ar 0) with (vget ar 0). change (nth 0 at_ 0) with (vget at_ 0).
  rewrite (uniform_linspace ar Ur), (uniform_linspace at_ Ut).
  change (Z.ltb (2 * 1 - 1) 0) with false. cbn iota. cbn [bind].
  cbn [g_axes]. rewrite axes_match_refl. cbn [pyassert bind].
  unfold set_temporal_field. cbn [g_tf g_dtype]. unfold zeros; cbn [shp dty].
  change (Z.to_nat (2 * 1 - 1)) with 1%nat. rewrite Hs, shape_eqb_refl, Hd, dtype_eqb_refl. cbn [negb fst snd].
  eexists. eexists. split; [reflexivity|]. cbn [g_axes g_isenv with_t]. do 2 (split; [reflexivity|]).
  unfold tread, get_temporal_field. cbn [g_tv with_t snd g_tf]. split; [reflexivity|].
  split; [cbn [shp]; exact Hs|]. split; [cbn [dty]; exact Hd|].
  intros i j k _. cbn [at3]. destruct isenv; cbn [dtype_of_env cast]; [reflexivity|].
  specialize (Hr eq_refl i j k). destruct (at3 a i j k) as (x, y). simpl in *. subst y. reflexivity.
Qed.
