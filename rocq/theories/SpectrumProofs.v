(** C33: get_spectrum. *)
From Coq Require Import Permutation Sorting.Sorted.
From Verif Require Import PyBase CSum NpFFT FFTProofs NumPy NpMath NpMathProofs GridModel GridSpec GridProofs LaserSpec GridObs
  EnergyModel EnergyProofs AngularProofs LaserModel OpticsModel LaserOps LaserInv LaserInitProofs LaserStepProofs
  PropagateProofs HistoryProofs OpticsProofs LaserExamples AnalysisModel AnalysisSpec AnalysisExamples.
Open Scope R_scope.

Definition om_le (x y : R * R) : Prop := fst x <= fst y.

(** ** Insertion sort *)
Lemma insert_perm x l : Permutation (insert_om x l) (x :: l).
Proof.
  induction l as [|y t IH]; simpl; [constructor; constructor|].
  destruct (Rleb (fst x) (fst y)); [reflexivity|]. rewrite IH. apply perm_swap.
Qed.
Lemma sort_perm l : Permutation (sort_om l) l.
Proof. induction l as [|x t IH]; simpl; [constructor|]. rewrite insert_perm. constructor. exact IH. Qed.
Lemma insert_sorted x l : StronglySorted om_le l -> StronglySorted om_le (insert_om x l).
Proof.
  induction 1 as [|y t Hs IH Hf]; simpl; [repeat constructor|].
  destruct (Rleb (fst x) (fst y)) eqn:E.
  - apply Rleb_true in E. constructor; [constructor; assumption|]. constructor; [exact E|].
    eapply Forall_impl; [|exact Hf]. intros z Hz. unfold om_le in *. lra.
  - apply Rleb_false in E. constructor; [exact IH|].
    rewrite (insert_perm x t). constructor; [unfold om_le; lra|exact Hf].
Qed.
Lemma sort_sorted l : StronglySorted om_le (sort_om l).
Proof. induction l; simpl; [constructor|apply insert_sorted; assumption]. Qed.
Lemma sorted_unique l : forall l', StronglySorted om_le l -> StronglySorted om_lt l' -> Permutation l l' -> l = l'.
Proof.
  induction l as [|x l IH]; intros l' H H' HP.
  - apply Permutation_nil in HP. subst; reflexivity.
  - destruct l' as [|y l']; [apply Permutation_sym, Permutation_nil in HP; discriminate|].
    inversion H as [|? ? Hs Hf]; subst. inversion H' as [|? ? Hs' Hf']; subst.
    assert (x = y).
    { assert (Hx : In x (y :: l')) by (eapply Permutation_in; [exact HP|left; reflexivity]).
      assert (Hy : In y (x :: l)) by (eapply Permutation_in; [symmetry; exact HP|left; reflexivity]).
      destruct Hx as [->|Hx]; [reflexivity|]. destruct Hy as [->|Hy]; [reflexivity|].
      rewrite Forall_forall in Hf, Hf'. specialize (Hf y Hy). specialize (Hf' x Hx). unfold om_le, om_lt in *. lra. }
    subst y. f_equal. apply IH; try assumption. apply Permutation_cons_inv in HP. exact HP.
Qed.
Lemma lsum_perm l l' : Permutation l l' -> lsum l = lsum l'.
Proof. induction 1; unfold lsum in *; simpl; lra. Qed.
Lemma lsum_map (F : nat -> R * R) n : lsum (map F (seq 0 n)) = rsum n (fun k => snd (F k)).
Proof.
  assert (H : forall l1 l2, lsum (l1 ++ l2) = lsum l1 + lsum l2).
  { induction l1; intros; unfold lsum in *; simpl; [lra|]. rewrite IHl1. lra. }
  induction n as [|n IH]; [reflexivity|]. rewrite seq_S, map_app, H, IH. unfold lsum; simpl. lra.
Qed.
Lemma lsum_filter f l : (forall x, In x l -> 0 <= snd x) -> lsum (filter f l) <= lsum l.
Proof.
  induction l as [|x l IH]; intros H; [unfold lsum; simpl; lra|]. specialize (IH (fun y Hy => H y (or_intror Hy))).
  simpl. pose proof (H x (or_introl eq_refl)). destruct (f x); unfold lsum in *; simpl; lra.
Qed.
Lemma filter_all {A} (f : A -> bool) l : (forall x, In x l -> f x = true) -> filter f l = l.
Proof. induction l as [|x l IH]; intros H; simpl; [reflexivity|]. rewrite H by (left; reflexivity). f_equal. apply IH. intros; apply H; right; assumption. Qed.
Lemma filter_sorted f l : StronglySorted om_lt l -> StronglySorted om_lt (filter f l).
Proof.
  induction 1 as [|x l Hs IH Hf]; simpl; [constructor|]. destruct (f x); [|exact IH].
  constructor; [exact IH|]. rewrite Forall_forall in *. intros y Hy. apply filter_In in Hy. apply Hf, Hy.
Qed.

(** ** The frequency axis: position i of the sorted spectrum is DFT bin [bin nt i]. *)
Definition bin (nt i : nat) : nat := if Nat.leb i ((nt - 1) / 2) then ((nt - 1) / 2 - i)%nat else (nt + (nt - 1) / 2 - i)%nat.
Lemma bin_lt nt i : (i < nt)%nat -> (bin nt i < nt)%nat.
Proof. intros H. unfold bin. assert ((nt - 1) / 2 < nt)%nat by (apply Nat.div_lt_upper_bound; lia). destruct (Nat.leb_spec i ((nt - 1) / 2)); lia. Qed.
Lemma bin_freq nt i : (i < nt)%nat -> fftfreq_int nt (bin nt i) = (Z.of_nat ((nt - 1) / 2) - Z.of_nat i)%Z.
Proof.
  intros H. unfold fftfreq_int, bin. destruct (Nat.leb_spec i ((nt - 1) / 2)).
  - destruct (Nat.ltb_spec ((nt - 1) / 2 - i) ((nt - 1) / 2 + 1)); lia.
  - destruct (Nat.ltb_spec (nt + (nt - 1) / 2 - i) ((nt - 1) / 2 + 1)); lia.
Qed.
Lemma bin_inj nt i j : (i < nt)%nat -> (j < nt)%nat -> bin nt i = bin nt j -> i = j.
Proof. intros Hi Hj E. apply (f_equal (fftfreq_int nt)) in E. rewrite !bin_freq in E by assumption. lia. Qed.
Lemma map_NoDup_in {A B} (f : A -> B) l : (forall x y, In x l -> In y l -> f x = f y -> x = y) -> NoDup l -> NoDup (map f l).
Proof.
  intros H HN. induction HN as [|x l Hx HN IH]; simpl; constructor.
  - intros HI. apply in_map_iff in HI. destruct HI as (y & E & Hy). apply Hx.
    rewrite <- (H y x); [exact Hy|right; exact Hy|left; reflexivity|exact E].
  - apply IH. intros a b Ha Hb. apply H; right; assumption.
Qed.
Lemma bin_perm nt : Permutation (map (bin nt) (seq 0 nt)) (seq 0 nt).
Proof.
  apply NoDup_Permutation_bis.
  - apply map_NoDup_in; [|apply seq_NoDup].
    intros x y Hx Hy. apply in_seq in Hx. apply in_seq in Hy. apply bin_inj; lia.
  - rewrite map_length. reflexivity.
  - intros x Hx. apply in_map_iff in Hx. destruct Hx as (i & <- & Hi). apply in_seq in Hi. apply in_seq.
    pose proof (bin_lt nt i). lia.
Qed.

Lemma sort_pairs (F : nat -> R * R) nt w0 dw : 0 < dw ->
  (forall k, (k < nt)%nat -> fst (F k) = w0 - dw * IZR (fftfreq_int nt k)) ->
  sort_om (map F (seq 0 nt)) = map (fun i => F (bin nt i)) (seq 0 nt) /\
  StronglySorted om_lt (map (fun i => F (bin nt i)) (seq 0 nt)).
Proof.
  intros Hdw HF.
  assert (HV : forall i, (i < nt)%nat -> fst (F (bin nt i)) = w0 + dw * (INR i - INR ((nt - 1) / 2))).
  { intros i Hi. rewrite HF by (apply bin_lt; exact Hi). rewrite bin_freq by exact Hi.
    rewrite minus_IZR, <- !INR_IZR_INZ. ring. }
  assert (HS : forall m s, (s + m <= nt)%nat -> StronglySorted om_lt (map (fun i => F (bin nt i)) (seq s m))).
  { induction m as [|m IH]; intros s Hm; simpl; [constructor|]. constructor; [apply IH; lia|].
    apply Forall_forall. intros y Hy. apply in_map_iff in Hy. destruct Hy as (i & <- & Hi). apply in_seq in Hi.
    unfold om_lt. rewrite !HV by lia. assert (INR s < INR i) by (apply lt_INR; lia). nra. }
  split; [|apply HS; lia].
  apply sorted_unique; [apply sort_sorted|apply HS; lia|].
  rewrite sort_perm. rewrite <- (map_map (bin nt) F). apply Permutation_map. symmetry. apply bin_perm.
Qed.

(** ** Parseval *)
Definition used_modes (d : pydim) (f : ndarray) : ndarray :=
  match d with Xyt => f | _ => mkArr [1%nat; dim1 f; dim2 f] (dty f) (at3 f) end.

Lemma rsum3_one n1 n2 F : rsum3 1 n1 n2 F = rsum n1 (fun j => rsum n2 (fun k => F 0%nat j k)).
Proof. unfold rsum3. cbn [rsum]. ring. Qed.
Lemma spectrum_energy d g f : g_isenv g = true -> (0 < dim2 f)%nat -> 0 < lastR (g_dx g) ->
  rsum (dim2 f) (spectrum_sum d g f) * (2 * PI / (INR (dim2 f) * lastR (g_dx g))) = energy_of d g (used_modes d f).
Proof.
  intros He Hn Hdt. set (dt := lastR (g_dx g)) in *. set (N := dim2 f) in *.
  pose proof (INR_pos N Hn) as HN. pose proof PI_RGT_0 as HP. pose proof c_light_pos as Hc.
  set (A := 2 * PI / (INR N * dt)).
  assert (HD : forall i j, rsum N (fun k => spectrum_density f dt i j k) =
                 / 4 * dt ^ 2 * eps0 * c_light / PI * INR N * rsum N (fun k => Cnorm2 (at3 f i j k))).
  { intros i j.
    rewrite (rsum_ext N _ (fun k => (/ 4 * dt ^ 2 * eps0 * c_light / PI) * Cnorm2 (fft1 N (fun q => at3 f i j q) k))).
    - rewrite rsum_scal_l, parseval_fft by exact Hn. ring.
    - intros k _. unfold spectrum_density, spectrum_raw. fold N. rewrite Cmod_sq, !Cnorm2_mult, !Cnorm2_R. field. lra. }
  rewrite energy_of_eq. unfold env_factor. rewrite He. fold N.
  destruct d; cbn [used_modes cell_volume]; unfold spectrum_sum; fold dt.
  - (* rt *)
    match goal with |- _ = _ * rsum3 _ _ _ ?F => change (rsum3 _ _ _ F) with (rsum3 1 (dim1 f) N (fun i j k => cell_volume_rt g j * Cnorm2 (at3 f i j k))) end.
    rewrite rsum3_one, rsum_swap. rewrite <- rsum_scal_r, <- rsum_scal_l. apply rsum_ext. intros j _.
    rewrite (rsum_ext N _ (fun k => (cell_volume_rt g j / (dt * c_light)) * spectrum_density f dt 0 j k)) by (intros; field; lra).
    rewrite !rsum_scal_l, HD. unfold A. field. repeat split; lra.
  - (* xyt *)
    unfold rsum3. fold N. 
    rewrite rsum_swap. rewrite <- rsum_scal_r, <- rsum_scal_l. apply rsum_ext. intros i _.
    rewrite rsum_swap. rewrite <- rsum_scal_r, <- rsum_scal_l. apply rsum_ext. intros j _.
    rewrite (rsum_ext N _ (fun k => (cell_volume_xyt g / (dt * c_light)) * spectrum_density f dt i j k)) by (intros; field; lra).
    rewrite !rsum_scal_l, HD. unfold A. field. repeat split; lra.
  - match goal with |- _ = _ * rsum3 _ _ _ ?F => change (rsum3 _ _ _ F) with (rsum3 1 (dim1 f) N (fun i j k => cell_volume_rt g j * Cnorm2 (at3 f i j k))) end.
    rewrite rsum3_one, rsum_swap. rewrite <- rsum_scal_r, <- rsum_scal_l. apply rsum_ext. intros j _.
    rewrite (rsum_ext N _ (fun k => (cell_volume_rt g j / (dt * c_light)) * spectrum_density f dt 0 j k)) by (intros; field; lra).
    rewrite !rsum_scal_l, HD. unfold A. field. repeat split; lra.
Qed.

Lemma spectrum_sum_nonneg d g f k : (forall j, (j < dim1 f)%nat -> 0 <= cell_volume d g j) -> 0 < lastR (g_dx g) -> 0 <= spectrum_sum d g f k.
Proof.
  intros HV Hdt. pose proof c_light_pos. pose proof eps0_pos. pose proof PI_RGT_0.
  assert (HD : forall i j, 0 <= spectrum_density f (lastR (g_dx g)) i j k).
  { intros. unfold spectrum_density. unfold Rdiv. pose proof (pow2_ge_0 (Cmod (spectrum_raw f (lastR (g_dx g)) i j k))) as Hq.
    generalize dependent (Cmod (spectrum_raw f (lastR (g_dx g)) i j k) ^ 2). intros q Hq.
    assert (0 < / PI) by (apply Rinv_0_lt_compat; lra). repeat apply Rmult_le_pos; lra. }
  assert (0 < lastR (g_dx g) * c_light) by (apply Rmult_lt_0_compat; lra).
  unfold spectrum_sum. destruct d; [|apply rsum_nonneg; intros i _|]; apply rsum_nonneg; intros j Hj.
  all: unfold Rdiv; apply Rmult_le_pos; [apply Rmult_le_pos; [apply HD|exact (HV j Hj)]|].
  all: apply Rlt_le, Rinv_0_lt_compat; assumption.
Qed.

(** ** Grid level *)
Lemma spectrum_grid d g f w0 nt dt : tread g = Ok f -> shp f = g_shape g -> dim2 f = nt -> lastN (g_shape g) = nt -> (2 <= nt)%nat ->
  g_isenv g = true -> lastR (g_dx g) = dt -> 0 < dt -> vget (time_axis g) 1 - vget (time_axis g) 0 = dt ->
  (forall j, (j < dim1 f)%nat -> 0 <= cell_volume d g j) ->
  let dw := 2 * PI / (INR nt * dt) in
  let om i := w0 + dw * (INR i - INR ((nt - 1) / 2)) in
  exists l, snd (get_spectrum_sum d g (Some w0)) = Ok l /\
    StronglySorted om_lt l /\ (forall x, In x l -> 0 <= fst x /\ 0 <= snd x) /\
    lsum l * dw <= energy_of d g (used_modes d f) /\
    ((forall i, (i < nt)%nat -> 0 <= om i) ->
       length l = nt /\ (forall i, (i < nt)%nat -> fst (nth i l (0, 0)) = om i /\ snd (nth i l (0,0)) = spectrum_sum d g f (bin nt i)) /\
       lsum l * dw = energy_of d g (used_modes d f)).
Proof.
  intros Hf Hs Hd2 Hln Hnt He Hdx Hdt Hta HV. cbn zeta.
  pose proof PI_RGT_0 as HP. assert (HN : 0 < INR nt) by (apply INR_pos; lia).
  set (dw := 2 * PI / (INR nt * dt)). assert (Hdw : 0 < dw).
  { unfold dw. apply Rdiv_lt_0_compat; [lra|]. apply Rmult_lt_0_compat; lra. }
  destruct (get_t_meta g) as (E1&E2&E3&E4&E5&E6&E7&E8&E9&E10). set (g' := fst (get_temporal_field g)) in *.
  set (F := fun k => (w0 - 2 * PI * fftfreq nt dt k, spectrum_sum d g f k)).
  assert (HSg : forall k, spectrum_sum d g' f k = spectrum_sum d g f k).
  { intros k. unfold spectrum_sum, cell_volume_xyt, cell_volume_rt. rewrite E5, E4. reflexivity. }
  assert (HF : forall k, (k < nt)%nat -> fst (F k) = w0 - dw * IZR (fftfreq_int nt k)).
  { intros k _. unfold F, fftfreq, dw; cbn [fst]. field. lra. }
  destruct (sort_pairs F nt w0 dw Hdw HF) as (HSo & HSt).
  set (l0 := map (fun i => F (bin nt i)) (seq 0 nt)) in *.
  assert (Hl0 : forall x, In x l0 -> 0 <= snd x).
  { intros x Hx. apply in_map_iff in Hx. destruct Hx as (i & <- & _). cbn [F snd]. apply spectrum_sum_nonneg; [exact HV|lra]. }
  assert (Hsum : lsum l0 * dw = energy_of d g (used_modes d f)).
  { rewrite (lsum_perm l0 (map F (seq 0 nt))).
    - rewrite lsum_map. cbn [F snd]. rewrite <- (spectrum_energy d g f); [|assumption|lia|lra].
      rewrite Hd2, Hdx. reflexivity.
    - unfold l0. rewrite <- (map_map (bin nt) F). apply Permutation_map, bin_perm. }
  exists (filter (fun x => Rleb 0 (fst x)) l0). split.
  { unfold get_spectrum_sum, with_field. cbn [snd]. change (snd (get_temporal_field g)) with (tread g). rewrite Hf.
    f_equal. f_equal. rewrite <- HSo. f_equal. unfold spectrum_pairs. fold g'. rewrite Hd2, E8, Hln.
    unfold time_axis in *. rewrite E4, Hta. apply map_ext. intros k. unfold F. rewrite HSg. reflexivity. }
  split; [apply filter_sorted; exact HSt|]. split.
  { intros x Hx. apply filter_In in Hx. destruct Hx as (Hx & Hp). apply Rleb_true in Hp. split; [exact Hp|apply Hl0; exact Hx]. }
  split.
  { rewrite <- Hsum. apply Rmult_le_compat_r; [lra|]. apply lsum_filter, Hl0. }
  intros Hpos. rewrite filter_all.
  2:{ intros x Hx. apply Rleb_true. apply in_map_iff in Hx. destruct Hx as (i & <- & Hi). apply in_seq in Hi.
      rewrite HF by (apply bin_lt; lia). rewrite bin_freq by lia. rewrite minus_IZR, <- !INR_IZR_INZ.
      specialize (Hpos i ltac:(lia)). lra. }
  split; [unfold l0; rewrite map_length, seq_length; reflexivity|]. split; [|exact Hsum].
  intros i Hi. unfold l0. rewrite (nth_indep _ _ (F (bin nt 0))) by (rewrite map_length, seq_length; exact Hi).
  rewrite (map_nth (fun i => F (bin nt i))), seq_nth by exact Hi. cbn [Nat.add]. split; [|reflexivity].
  rewrite HF by (apply bin_lt; exact Hi). rewrite bin_freq by exact Hi. rewrite minus_IZR, <- !INR_IZR_INZ. ring.
Qed.

(** ** Laser level *)
Lemma c33_xyt S lo hi n0 n1 nt p nm nte L0 h w0 :
  laser_init Xyt lo hi [n0;n1;nt] p nm nte = Ok L0 ->
  nth 0 lo 0 < nth 0 hi 0 -> nth 1 lo 0 < nth 1 hi 0 -> nth 2 lo 0 < nth 2 hi 0 ->
  let L := lrun S L0 h in
  let dw := 2 * PI / (INR nt * spacing (nth 2 lo 0) (nth 2 hi 0) nt) in
  let om i := w0 + dw * (INR i - INR ((nt - 1) / 2)) in
  exists l e, snd (get_spectrum_sum Xyt (l_grid L) (Some w0)) = Ok l /\
    snd (compute_laser_energy Xyt (l_grid L)) = Ok e /\
    StronglySorted om_lt l /\ (forall x, In x l -> 0 <= fst x /\ 0 <= snd x) /\ lsum l * dw <= e /\
    ((forall i, (i < nt)%nat -> 0 <= om i) ->
       length l = nt /\ (forall i, (i < nt)%nat -> fst (nth i l (0, 0)) = om i) /\ lsum l * dw = e).
Proof.
  intros Hi B0 B1 B2. cbn zeta.
  destruct (laser_init_Inv _ _ _ _ _ _ _ _ Hi) as (g & m0 & m1 & mt & Hg & Hmt & D1 & D2 & D3 & D4 & D5 & Hn' & GS & HI).
  destruct (history_plain S L0 m0 m1 mt h HI (or_introl D1)) as (HR & HM & R1 & R2 & R3).
  destruct (window_plain S Xyt lo hi [n0;n1;nt] p nm nte L0 h Hi (or_introl eq_refl)) as (nt' & N' & La & Wlo & Whi & Lt & Ht & Hdt & Hax).
  simpl in N'. injection N' as <-. simpl ndims_of in *. simpl Nat.sub in *.
  assert (Hex : exists g, grid_init Xyt lo hi [n0;n1;nt] (Some nm) true = Ok g) by eauto.
  apply grid_init_ok_iff in Hex. destruct Hex as (_ & _ & _ & Hnn & _).
  destruct (Hnn 2%nat ltac:(simpl; lia)) as (? & Q & G2). injection Q as <-.
  set (L := lrun S L0 h) in *.
  destruct (i_read _ _ _ _ HR) as (a & Ha).
  destruct (c13_xyt S lo hi n0 n1 nt p nm nte L0 h a Hi Ha) as (HE & Hsh). fold L in HE.
  pose proof (run_volumes_nonneg S Xyt lo hi [n0;n1;nt] p nm nte L0 h Hi (or_introl eq_refl)) as HVol.
  assert (Ldx : length (g_dx (l_grid L)) = 3%nat).
  { pose proof (gs_dx _ _ _ _ _ (i_shape _ _ _ _ HR)) as Q. rewrite R1, D1 in Q. exact Q. }
  assert (Hsp : 0 < spacing (nth 2 lo 0) (nth 2 hi 0) nt) by (apply spacing_pos; assumption).
  assert (Hgs : g_shape (l_grid L) = shp a).
  { symmetry. apply (tread_shape _ _ (proj1 (i_coh _ _ _ _ HR)) Ha). }
  assert (HLdx : lastR (g_dx (l_grid L)) = spacing (nth 2 lo 0) (nth 2 hi 0) nt).
  { unfold lastR. rewrite last_nth, Ldx. exact Hdt. }
  destruct (spectrum_grid Xyt (l_grid L) a w0 nt (spacing (nth 2 lo 0) (nth 2 hi 0) nt)) as (l & Hl & Hso & Hin & Hle & Heq); try assumption.
  - congruence.
  - unfold dim2. rewrite Hsh. reflexivity.
  - rewrite Hgs, Hsh. reflexivity.
  - apply (proj1 (i_coh _ _ _ _ HR)).
  - unfold time_axis. rewrite last_nth, La. cbn [Nat.sub].
    destruct (Ht 1%nat ltac:(lia)) as (T1 & _). destruct (Ht 0%nat ltac:(lia)) as (T0 & _). unfold axis_at in *.
    rewrite T1, T0. unfold coord, spacing. simpl (INR 1). simpl (INR 0). ring.
  - intros j _. rewrite <- D1, <- R1. unfold L. apply HVol; [|discriminate].
    intros q Hq. simpl in Hq. destruct q as [|[|[|q]]]; try assumption; lia.
  - destruct (compute_energy_eq Xyt _ _ Ha) as (Hc & _). rewrite Hc in HE. injection HE as HE.
    exists l. eexists. split; [exact Hl|]. split; [exact Hc|]. split; [exact Hso|]. split; [exact Hin|].
    split; [exact Hle|]. intros Hp. destruct (Heq Hp) as (H1 & H2 & H3). split; [exact H1|]. split; [|exact H3].
    intros i Hi'. apply H2, Hi'.
Qed.

Lemma c33_rt S lo hi n1 nt p (M : nat) nte L0 h w0 :
  laser_init Rt lo hi [n1;nt] p (Z.of_nat M) nte = Ok L0 -> Forall no_resample h ->
  0 <= nth 0 lo 0 -> nth 0 lo 0 < nth 0 hi 0 -> nth 1 lo 0 < nth 1 hi 0 ->
  let L := lrun S L0 h in
  let dw := 2 * PI / (INR nt * spacing (nth 1 lo 0) (nth 1 hi 0) nt) in
  let om i := w0 + dw * (INR i - INR ((nt - 1) / 2)) in
  exists l e a, snd (get_spectrum_sum Rt (l_grid L) (Some w0)) = Ok l /\
    snd (compute_laser_energy Rt (l_grid L)) = Ok e /\ snd (get_temporal_field (l_grid L)) = Ok a /\
    StronglySorted om_lt l /\ (forall x, In x l -> 0 <= fst x /\ 0 <= snd x) /\
    lsum l * dw <= E_rt lo hi 1 n1 nt (at3 a) /\
    ((forall i, (i < nt)%nat -> 0 <= om i) ->
       length l = nt /\ (forall i, (i < nt)%nat -> fst (nth i l (0, 0)) = om i) /\
       lsum l * dw = E_rt lo hi 1 n1 nt (at3 a) /\ (M = 1%nat -> lsum l * dw = e)).
Proof.
  intros Hi Hh B00 B0 B1. cbn zeta.
  destruct (laser_init_Inv _ _ _ _ _ _ _ _ Hi) as (g & m0 & m1 & mt & Hg & Hmt & D1 & D2 & D3 & D4 & D5 & Hn' & GS & HI).
  destruct (history_plain S L0 m0 m1 mt h HI (or_intror Hh)) as (HR & HM & R1 & R2 & R3).
  destruct (window_plain S Rt lo hi [n1;nt] p (Z.of_nat M) nte L0 h Hi (or_intror Hh)) as (nt' & N' & La & Wlo & Whi & Lt & Ht & Hdt & Hax).
  simpl in N'. injection N' as <-. simpl ndims_of in *. simpl Nat.sub in *.
  assert (Hex : exists g, grid_init Rt lo hi [n1;nt] (Some (Z.of_nat M)) true = Ok g) by eauto.
  apply grid_init_ok_iff in Hex. destruct Hex as (_ & _ & _ & Hnn & _).
  destruct (Hnn 1%nat ltac:(simpl; lia)) as (? & Q & G2). injection Q as <-.
  set (L := lrun S L0 h) in *.
  destruct (i_read _ _ _ _ HR) as (a & Ha).
  destruct (c13_rt S lo hi [n1;nt] n1 nt p M nte L0 h a Hi Hh eq_refl eq_refl Ha) as (HE & Hsh & HM1). fold L in HE.
  pose proof (run_volumes_nonneg S Rt lo hi [n1;nt] p (Z.of_nat M) nte L0 h Hi (or_intror Hh)) as HVol.
  assert (Ldx : length (g_dx (l_grid L)) = 2%nat).
  { pose proof (gs_dx _ _ _ _ _ (i_shape _ _ _ _ HR)) as Q. rewrite R1, D1 in Q. exact Q. }
  assert (Hsp : 0 < spacing (nth 1 lo 0) (nth 1 hi 0) nt) by (apply spacing_pos; assumption).
  assert (Hgs : g_shape (l_grid L) = shp a).
  { symmetry. apply (tread_shape _ _ (proj1 (i_coh _ _ _ _ HR)) Ha). }
  assert (HLdx : lastR (g_dx (l_grid L)) = spacing (nth 1 lo 0) (nth 1 hi 0) nt).
  { unfold lastR. rewrite last_nth, Ldx. exact Hdt. }
  assert (H0 : energy_of Rt (l_grid L) (used_modes Rt a) = E_rt lo hi 1 n1 nt (at3 a)).
  { rewrite (energy_of_meta _ _ _ _ HM). rewrite D1 in *.
    rewrite (energy_shift Rt _ _ _ m0 m1 mt); [|pose proof (i_shape _ _ _ _ HI) as Q; rewrite D1 in Q; exact Q|auto].
    rewrite (energy_of_rt lo hi [n1;nt] 1 n1 nt (Z.of_nat M) g (l_grid L0) (used_modes Rt a)); try reflexivity; try assumption.
    cbn [used_modes shp]. unfold dim1, dim2. rewrite Hsh. reflexivity. }
  destruct (spectrum_grid Rt (l_grid L) a w0 nt (spacing (nth 1 lo 0) (nth 1 hi 0) nt)) as (l & Hl & Hso & Hin & Hle & Heq); try assumption.
  - congruence.
  - unfold dim2. rewrite Hsh. reflexivity.
  - rewrite Hgs, Hsh. reflexivity.
  - apply (proj1 (i_coh _ _ _ _ HR)).
  - unfold time_axis. rewrite last_nth, La. cbn [Nat.sub].
    destruct (Ht 1%nat ltac:(lia)) as (T1 & _). destruct (Ht 0%nat ltac:(lia)) as (T0 & _). unfold axis_at in *.
    rewrite T1, T0. unfold coord, spacing. simpl (INR 1). simpl (INR 0). ring.
  - intros j _. rewrite <- D1, <- R1. unfold L. apply HVol; [|intros _; exact B00].
    intros q Hq. simpl in Hq. destruct q as [|[|q]]; try assumption; lia.
  - exists l. do 2 eexists. split; [exact Hl|]. split; [exact HE|]. split; [exact Ha|]. split; [exact Hso|]. split; [exact Hin|].
    rewrite H0 in *. split; [exact Hle|]. intros Hp. destruct (Heq Hp) as (H1 & H2 & H3).
    split; [exact H1|]. split; [intros i Hi'; apply H2, Hi'|]. split; [exact H3|].
    intros ->. exact H3.
Qed.
Lemma c33_no_omega0 d g a : snd (get_temporal_field g) = Ok a -> snd (get_spectrum_sum d g None) = Err AssertionError.
Proof. intros H. unfold get_spectrum_sum, with_field. cbn [snd]. rewrite H. reflexivity. Qed.

(** The vortex has energy but no component with m = 0: its "spectrum" is identically zero. *)
Lemma c33_rt_refuted : exists L e,
  laser_init Rt [0;-3] [2;4] [4;5]%nat ex_vortex 2 None = Ok L /\
  snd (compute_laser_energy Rt (l_grid L)) = Ok e /\ 0 < e /\
  forall w0 l, snd (get_spectrum_sum Rt (l_grid L) (Some w0)) = Ok l -> forall x, In x l -> snd x = 0.
Proof.
  destruct vortex_field as (L & a & HL & Ha & Hs & Hd & _ & _ & _ & Hv).
  destruct (c13_rt id_solvers [0;-3] [2;4] [4;5]%nat 4 5 ex_vortex 2 None L [] a HL ltac:(constructor) eq_refl eq_refl Ha) as (HE & _ & _).
  cbn [lrun] in HE. exists L. eexists. split; [exact HL|]. split; [exact HE|]. split.
  - assert (Hn : 0 <= E_rt [0;-3] [2;4] (2 * 2 - 1) 4 5 (at3 a)) by (apply E_rt_nonneg; simpl; lia || lra).
    unfold E_rt in *. pose proof eps0_pos. pose proof c_light_pos as Pc. pose proof PI_RGT_0 as Pp.
    apply Rmult_lt_0_compat; [lra|].
    set (F := fun i j k => _) at 1.
    assert (Hp : forall i j k, 0 <= F i j k).
    { intros i j k. unfold F. cbn [nth].
      assert (0 <= coord 0 2 4 j) by (unfold coord; pose proof (pos_INR j); simpl (INR 4); assert (0 <= (2 - 0) / (1 + 1 + 1 + 1 - 1)) by lra; nra).
      assert (0 <= spacing 0 2 4) by (unfold spacing; simpl; lra). assert (0 <= spacing (-3) 4 5) by (unfold spacing; simpl; lra).
      pose proof (Cnorm2_nonneg (at3 a i j k)).
      generalize dependent (coord 0 2 4 j). generalize dependent (spacing 0 2 4). generalize dependent (spacing (-3) 4 5).
      generalize dependent (Cnorm2 (at3 a i j k)). clear - Pc Pp. generalize dependent PI. intros.
      repeat apply Rmult_le_pos; try assumption; lra. }
    assert (Hq : 0 < F 1%nat 3%nat 0%nat).
    { unfold F. cbn [nth]. destruct (Hv 3%nat 0%nat) as (_ & V & _); [lia|lia|]. rewrite V.
      replace (coord 0 2 4 3) with 2 by (unfold coord; simpl; field).
      replace (spacing 0 2 4) with (2/3) by (unfold spacing; simpl; field). replace (spacing (-3) 4 5) with (7/4) by (unfold spacing; simpl; field).
      rewrite Cnorm2_R. clear - Pc Pp. generalize dependent PI. generalize dependent c_light. intros c0 Pc q Pp.
      assert (0 < q * c0) by (apply Rmult_lt_0_compat; lra). lra. }
    assert (Hg : F 1%nat 3%nat 0%nat <= rsum3 (2 * 2 - 1) 4 5 F).
    { unfold rsum3. simpl. 
      pose proof (Hp 0%nat 0%nat 0%nat).
      assert (forall i j, 0 <= rsum 5 (fun k => F i j k)) by (intros; apply rsum_nonneg; intros; apply Hp).
      assert (HQ : F 1%nat 3%nat 0%nat <= rsum 5 (fun k => F 1%nat 3%nat k)).
      { simpl. pose proof (Hp 1 3 1)%nat. pose proof (Hp 1 3 2)%nat. pose proof (Hp 1 3 3)%nat. pose proof (Hp 1 3 4)%nat. lra. }
      pose proof (H1 0 0)%nat. pose proof (H1 0 1)%nat. pose proof (H1 0 2)%nat. pose proof (H1 0 3)%nat.
      pose proof (H1 1 0)%nat. pose proof (H1 1 1)%nat. pose proof (H1 1 2)%nat.
      pose proof (H1 2 0)%nat. pose proof (H1 2 1)%nat. pose proof (H1 2 2)%nat. pose proof (H1 2 3)%nat.
      simpl in *. lra. }
    lra.
  - intros w0 l Hl x Hx. unfold get_spectrum_sum, with_field in Hl. cbn [snd] in Hl. rewrite Ha in Hl. injection Hl as <-.
    apply filter_In in Hx. destruct Hx as (Hx & _).
    eapply Permutation_in in Hx; [|apply sort_perm]. unfold spectrum_pairs in Hx. apply in_map_iff in Hx.
    destruct Hx as (k & <- & Hk). cbn [snd]. unfold spectrum_sum.
    rewrite <- (rsum_0 (dim1 a)). apply rsum_ext. intros j Hj. unfold spectrum_density, spectrum_raw.
    rewrite (fft1_ext _ _ (fun _ => RtoC 0)).
    2:{ intros n Hn. unfold dim1, dim2 in *. rewrite Hs in *. cbn [nth] in *. apply Hv; assumption. }
    unfold fft1. rewrite csum_zero by (intros; ring). rewrite Cmult_0_r, Cmult_0_l, Cmod_0. unfold Rdiv. ring.
Qed.
