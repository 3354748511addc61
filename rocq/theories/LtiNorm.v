From Verif Require Import PyBase CSum NpFFT FFTProofs NumPy GridModel GridSpec GridProofs GridObs EnergyModel EnergyProofs LaserSpec LaserModel LaserOps LaserInv LaserStepProofs PropagateProofs HistoryProofs LaserInitProofs LtiSpec LtiProofs LtiStep LtiMain.
Open Scope R_scope.

(** A laser whose field was replaced. *)
Lemma Par_field L n0 n1 nt g' : Inv L n0 n1 nt -> CohG g' -> same_meta (l_grid L) g' -> (exists a, tread g' = Ok a) ->
  Par 0 L (set_grid L g') n0 n1 nt.
Proof.
  intros HI HG HM HR. pose proof HI as [I1 I2 I3 I4 I5 I6].
  assert (HI' : Inv (set_grid L g') n0 n1 nt).
  { constructor; cbn [set_grid l_dim l_grid l_omega l_prop]; try assumption.
    - eapply GShape_meta; eassumption.
    - destruct I6 as [H|(b & H)]; [left; exact H|right; exists b]. rewrite H. f_equal. symmetry.
      apply (fresh_prop_ext L (set_grid L g')); try reflexivity; [exists 0|apply (gs_lo _ _ _ _ _ I1)|apply (gs_hi _ _ _ _ _ I1)|apply (gs_axes _ _ _ _ _ I1)|exact I3].
      rewrite (shift_0 _ _ _ _ _ I1). exact HM. }
  constructor; try reflexivity; try assumption.
  cbn [set_grid l_grid]. rewrite (shift_0 _ _ _ _ _ I1). exact HM.
Qed.
Lemma Par_trans0 D L L' L'' n0 n1 nt : Par D L L' n0 n1 nt -> Par 0 L' L'' n0 n1 nt -> Par D L L'' n0 n1 nt.
Proof.
  intros [A1 A2 A3 A4 A5 A6 A7] [B1 B2 B3 B4 B5 B6 B7]. constructor; try assumption; try congruence.
  rewrite (shift_0 _ _ _ _ _ (i_shape _ _ _ _ B1)) in B7. eapply same_meta_trans; eassumption.
Qed.
Lemma Par0_axes L L' n0 n1 nt : Par 0 L L' n0 n1 nt -> g_axes (l_grid L') = g_axes (l_grid L).
Proof.
  intros HP. destruct (pa_meta _ _ _ _ _ _ HP) as (_ & _ & _ & Z & _). rewrite Z.
  rewrite (shift_0 _ _ _ _ _ (i_shape _ _ _ _ (pa_inv _ _ _ _ _ _ HP))). reflexivity.
Qed.

(** ** A spectral element can be moved through a history *)
Lemma lrun_app S L h1 h2 : lrun S L (h1 ++ h2) = lrun S (lrun S L h1) h2.
Proof. revert L. induction h1 as [|o h IH]; intros L; [reflexivity|]. cbn [app lrun]. apply IH. Qed.
Lemma step_optic_inv S L n0 n1 nt e : Inv L n0 n1 nt -> exists g' s s', fst (lstep S L (OpOptics e)) = set_grid L g' /\ snd (lstep S L (OpOptics e)) = Ok tt /\
  Par 0 L (fst (lstep S L (OpOptics e))) n0 n1 nt /\ sread (l_grid L) = Ok s /\ sread g' = Ok s' /\
  forall i j k, at3 s' i j k = Cmult (at3 s i j k) (optic_factor L e i j k).
Proof.
  intros HI. pose proof (i_coh _ _ _ _ HI) as HG. destruct (i_read _ _ _ _ HI) as (a & Ha).
  destruct (tread_sread_ok _ _ (proj1 HG) Ha) as (s & Hs).
  destruct (apply_optics_spec L e a s HG Ha Hs) as (g' & s' & E1 & E2 & E3 & E4 & E5 & _ & _ & E8).
  exists g', s, s'. cbn [lstep]. rewrite E1. cbn [fst snd]. conj; try reflexivity; try assumption.
  apply Par_field; try assumption. eauto.
Qed.
Theorem c94_commute S L e h : linear_solver S -> reachable S L -> spectral_element e -> Forall linear_op h -> clean S L h ->
  let A := lrun S L (OpOptics e :: h) in let B := lrun S L (h ++ [OpOptics e]) in
  outcomes S (fst (lstep S L (OpOptics e))) h = outcomes S L h /\
  g_axes (l_grid A) = g_axes (l_grid B) /\
  exists m0 m1 nt fa fb, snd (get_temporal_field (l_grid A)) = Ok fa /\ shp fa = [m0; m1; nt] /\
    snd (get_temporal_field (l_grid B)) = Ok fb /\ shp fb = [m0; m1; nt] /\
    forall i j k, (i < m0)%nat -> (j < m1)%nat -> (k < nt)%nat -> at3 fa i j k = at3 fb i j k.
Proof.
  intros HS Hr He Hl Hc. cbn zeta. destruct (reachable_Inv S L Hr) as (n0 & n1 & nt & HI).
  destruct (lti_run S h HS Hl L n0 n1 nt HI Hc) as (m0 & m1 & T & _ & HR).
  destruct (step_optic_inv S L n0 n1 nt e HI) as (g1 & s & s1 & E1 & _ & P1 & Hs & Hs1 & Hat).
  destruct (HR _ _ (Par_refl _ _ _ _ HI)) as (Q1 & _ & _ & Q4).
  destruct (HR _ _ P1) as (R1 & R2 & _ & R4).
  split; [exact R2|]. rewrite lrun_app. cbn [lrun].
  pose proof (pa_inv _ _ _ _ _ _ Q1) as IB.
  destruct (step_optic_inv S (lrun S L h) m0 m1 nt e IB) as (g2 & t & t1 & E2 & _ & P2 & Ht & Ht1 & Hat2).
  split. { rewrite (Par0_axes _ _ _ _ _ R1), (Par0_axes _ _ _ _ _ P2). reflexivity. }
  destruct (Inv_reads _ _ _ _ (pa_inv' _ _ _ _ _ _ R1)) as (fa & sa & F1 & F2 & F3 & F4).
  destruct (Inv_reads _ _ _ _ (pa_inv' _ _ _ _ _ _ P2)) as (fb & sb & G1 & G2 & G3 & G4).
  exists m0, m1, nt, fa, fb. conj; try assumption. intros i j k Hi Hj Hk.
  destruct (spectral_zero_like _ _ _ _ _ _ i j k (pa_inv' _ _ _ _ _ _ R1) F1 F3 Hi Hj Hk) as (-> & _).
  destruct (spectral_zero_like _ _ _ _ _ _ i j k (pa_inv' _ _ _ _ _ _ P2) G1 G3 Hi Hj Hk) as (-> & _).
  apply fft1_ext. intros q Hq.
  assert (Esb : sb = t1) by (rewrite E2 in G3; cbn [l_grid set_grid] in G3; congruence). subst sb.
  assert (Hs1' : sread (l_grid (fst (lstep S L (OpOptics e)))) = Ok s1) by (rewrite E1; exact Hs1).
  rewrite (R4 s1 sa Hs1' F3) by assumption. rewrite Hat2, (Q4 s t Hs Ht) by assumption.
  set (u := e 0 0 (vget (l_omega L) q) (p_omega0 (l_prof L))).
  assert (U : forall K i j, l_omega K = l_omega L -> p_omega0 (l_prof K) = p_omega0 (l_prof L) -> optic_factor K e i j q = u).
  { intros K a b W1 W2. unfold optic_factor, u. rewrite W1, W2. destruct (l_dim K); apply He. }
  assert (Ho : l_omega (lrun S L h) = l_omega L /\ p_omega0 (l_prof (lrun S L h)) = p_omega0 (l_prof L)).
  { destruct Hr as (d & lo & hi & np & p & nm & nte & L0 & h0 & X1 & X2 & X3 & ->).
    destruct (run_clean_inv S _ n0 n1 nt h HI) as (a0 & a1 & _ & Y1 & Y2 & Y3); [|exact Hc|].
    - eapply Forall_impl; [|exact Hl]. intros o Ho; destruct o; try exact I; exact Ho.
    - split; [exact Y1|]. rewrite ?Y2, ?Y3. congruence. }
  rewrite (U _ i j (proj1 Ho) (proj2 Ho)).
  rewrite (kapply_ext n0 n1 T (at3 s1) (fun i j k => Cplus (Cmult u (at3 s i j k)) (Cmult (RtoC 0) (at3 s i j k)))).
  - rewrite kapply_lin. ring.
  - intros a b Ha Hb. rewrite Hat, (U L) by reflexivity. ring.
Qed.

(** ** normalize only rescales *)
Lemma rmaxl_abs_nonneg (l : list R) : (forall x, In x l -> 0 <= x) -> 0 <= rmaxl l.
Proof. intros H. destruct l as [|a l]; [simpl; lra|]. apply H, rmaxl_in. discriminate. Qed.
Lemma in_flat3 n0 n1 n2 (f : nat -> nat -> nat -> R) x : In x (flat3 n0 n1 n2 f) -> exists i j k, x = f i j k.
Proof.
  unfold flat3. rewrite in_flat_map. intros (i & _ & H). rewrite in_flat_map in H. destruct H as (j & _ & H).
  rewrite in_map_iff in H. destruct H as (k & <- & _). eauto.
Qed.
Lemma abs_max_nonneg a : 0 <= abs_max a.
Proof.
  unfold abs_max. apply rmaxl_abs_nonneg. intros x H. apply in_flat3 in H. destruct H as (i & j & k & ->). apply Cmod_ge_0.
Qed.
Lemma normalize_scaled d v k g a n0 n1 nt : CohG g -> g_shape g = [n0; n1; nt] -> tread g = Ok a -> vol_nonneg d g n1 ->
  (forall x, v = Some x -> 0 < x) ->
  exists c b, 0 < c /\ tread (fst (normalize_grid d v k g)) = Ok b /\ forall i j q, at3 b i j q = Cmult (RtoC c) (at3 a i j q).
Proof.
  intros HG Hsh Ha Hv Hx.
  assert (Hsame : forall g2, tread g2 = tread g -> exists c b, 0 < c /\ tread g2 = Ok b /\ forall i j q, at3 b i j q = Cmult (RtoC c) (at3 a i j q)).
  { intros g2 E. exists 1, a. split; [lra|]. split; [congruence|]. intros; ring. }
  destruct (tread_shape _ _ (proj1 HG) Ha) as (Sa & _). rewrite Hsh in Sa.
  destruct v as [x|].
  2: { destruct k; cbn [normalize_grid normalize_energy normalize_peak_field_amplitude normalize_peak_intensity fst]; apply Hsame; reflexivity. }
  specialize (Hx x eq_refl). pose proof (tread_get_t g) as HT. rewrite Ha in HT.
  destruct k; cbn [normalize_grid].
  - unfold normalize_energy. destruct (compute_energy_eq d g a Ha) as (C1 & C2). rewrite C1, C2.
    destruct (Reqb (energy_of d g a) 0) eqn:E0.
    + cbn [fst]. apply Hsame, tread_get_t.
    + apply Reqb_false in E0. assert (0 <= energy_of d g a).
      { apply energy_nonneg. unfold dim1. rewrite Sa. exact Hv. }
      destruct (rescale (fst (get_temporal_field g)) a (sqrt (x / energy_of d g a)) (get_t_Wf _ (proj1 HG)) HT) as (R1 & R2 & R3 & R4).
      unfold tread in HT. rewrite HT.
      exists (sqrt (x / energy_of d g a)), (scale_arr (sqrt (x / energy_of d g a)) a). split; [|split; [exact R4|intros; reflexivity]].
      apply sqrt_lt_R0, Rdiv_lt_0_compat; lra.
  - unfold normalize_peak_field_amplitude. change (snd (get_temporal_field g)) with (tread g). rewrite Ha. cbn zeta.
    destruct (Reqb (abs_max a) 0) eqn:E0; [apply Hsame, tread_get_t|]. apply Reqb_false in E0. pose proof (abs_max_nonneg a).
    destruct (rescale g a (x / abs_max a) (proj1 HG) Ha) as (R1 & R2 & R3 & R4).
    exists (x / abs_max a), (scale_arr (x / abs_max a) a). split; [apply Rdiv_lt_0_compat; lra|]. split; [exact R4|intros; reflexivity].
  - unfold normalize_peak_intensity. change (snd (get_temporal_field g)) with (tread g). rewrite Ha. cbn zeta.
    match goal with |- context [Reqb ?m 0] => destruct (Reqb m 0) end; [apply Hsame, tread_get_t|].
    apply Hsame. unfold set_temporal_field.
    destruct (get_t_Wf g (proj1 HG)) as (_ & W2).
    assert (Hs2 : shp (g_tf (fst (get_temporal_field g))) = [n0; n1; nt]).
    { destruct (tread_shape _ _ (get_t_Wf g (proj1 HG)) HT) as (Q & _).
      pose proof (proj1 (get_t_Coh _ HG)) as HW. rewrite <- Hsh. destruct (get_t_meta g) as (_ & _ & _ & _ & _ & _ & _ & Z & _).
      rewrite <- Z. apply HW. }
    rewrite Hs2. cbn [np_float_scalar shp shape_eqb negb fst]. apply tread_get_t.
  - cbn [fst]. apply Hsame. reflexivity.
Qed.

Lemma Forall_nth_nonneg (l : list R) i : Forall (fun r => 0 <= r) l -> 0 <= nth i l 0.
Proof.
  intros H. destruct (Nat.lt_ge_cases i (length l)) as [Hi|Hi].
  - rewrite Forall_forall in H. apply H, nth_In, Hi.
  - rewrite nth_overflow by exact Hi. lra.
Qed.
Lemma Forall_pos_le (l : list R) : Forall (fun r => 0 < r) l -> Forall (fun r => 0 <= r) l.
Proof. apply Forall_impl. intros; lra. Qed.
Lemma pc_vol d g n : (d = Rt \/ d = Xyt) -> positive_cells d g -> vol_nonneg d g n.
Proof.
  intros Hd (H1 & H2) j _. apply Forall_pos_le in H1.
  assert (Hl : 0 <= lastR (g_dx g)) by (unfold lastR; rewrite last_nth; apply Forall_nth_nonneg, H1).
  pose proof (Forall_nth_nonneg _ 0 H1). pose proof (Forall_nth_nonneg _ 1 H1). pose proof c_light_pos.
  destruct Hd as [-> | ->]; unfold cell_volume, cell_volume_rt, cell_volume_xyt, vget.
  - pose proof (Forall_nth_nonneg _ j (H2 eq_refl)). pose proof PI_RGT_0.
    set (r := nth j (nth 0 (g_axes g) []) 0) in *. set (hh := nth 0 (g_dx g) 0) in *.
    replace (PI * ((r + / 2 * hh) ^ 2 - (r - / 2 * hh) ^ 2)) with (PI * (2 * (r * hh))) by field.
    apply Rmult_le_pos; [|apply Rmult_le_pos; lra]. apply Rmult_le_pos; [lra|]. apply Rmult_le_pos; [lra|]. apply Rmult_le_pos; assumption.
  - apply Rmult_le_pos; [apply Rmult_le_pos; assumption|apply Rmult_le_pos; lra].
Qed.
Lemma pc_meta d g g' : same_meta g g' -> positive_cells d g -> positive_cells d g'.
Proof. intros (_ & _ & _ & Ha & Hd & _) (H1 & H2). unfold positive_cells. rewrite Ha, Hd. auto. Qed.
Lemma pc_shift d g n0 n1 nt D : GShape d g n0 n1 nt -> positive_cells d g -> positive_cells d (shift_domain g D).
Proof.
  intros GS (H1 & H2). split; [exact H1|]. intros E. cbn [shift_domain with_domain g_axes].
  rewrite set_last_nth; [apply H2, E|]. rewrite (gs_axes _ _ _ _ _ GS), E. simpl. lia.
Qed.
Lemma scaling_user o : scaling_op o -> user_op o.
Proof. destruct o as [? ? [gn|] ?|e|v k|w]; try exact (fun _ => I). intros (H & _). exact H. Qed.
Lemma step_pc S L n0 n1 nt o : Inv L n0 n1 nt -> scaling_op o -> (no_resample o \/ snd (lstep S L o) = Ok tt) ->
  positive_cells (l_dim L) (l_grid L) -> positive_cells (l_dim (fst (lstep S L o))) (l_grid (fst (lstep S L o))).
Proof.
  intros HI Hu Hc HP.
  assert (Hplain : (l_dim L = Xyt \/ no_resample o) -> positive_cells (l_dim (fst (lstep S L o))) (l_grid (fst (lstep S L o)))).
  { intros Ho. destruct (step_plain S L n0 n1 nt o HI Ho) as (_ & HM & Hd & _). rewrite Hd.
    eapply pc_meta; [exact HM|]. eapply pc_shift; [apply (i_shape _ _ _ _ HI)|exact HP]. }
  destruct (i_dim _ _ _ _ HI) as [Ed|Ed]; [|auto].
  destruct Hc as [Hn|Hok]; [auto|]. destruct o as [dist nr [gn|] b|e|v k|w]; try (apply Hplain; right; exact I).
  destruct Hu as (Hu & Hpc). destruct (user_grid_props gn Hu) as (HGn & m0 & m1 & mt & HSn).
  destruct (absorb_par _ L L n0 n1 nt nr (Par_refl _ _ _ _ HI)) as (Q1 & _).
  destruct (absorb_code (l_dim L) nr n0 n1) as [[]|e] eqn:Ecode.
  2: { cbn [lstep] in Hok. destruct (propagate_absorb_fail S L dist nr (Some gn) b e (i_coh _ _ _ _ HI) Q1) as (g & Eg & _). rewrite Eg in Hok. discriminate Hok. }
  pose proof (i_coh _ _ _ _ HI) as HG.
  destruct (proj1 (tread_sread_iff _ (proj1 HG)) (i_read _ _ _ _ HI)) as (s & Hs).
  destruct (absorb_form (l_dim L) nr _ n0 n1 nt s HG (gs_shape _ _ _ _ _ (i_shape _ _ _ _ HI)) Hs) as (C1 & C2).
  rewrite Ecode in C1, C2. destruct (C2 eq_refl) as (s1 & Hs1 & _).
  destruct (propagate_resample S L n0 n1 nt dist nr gn b s1 m0 m1 mt HI Ed HSn HGn C1 Hs1) as [(A & B & g1 & E1 & _ & HM & _)|[(_ & B)|(_ & _ & B)]];
    cbn [lstep] in Hok |- *; [|rewrite B in Hok; discriminate Hok|rewrite B in Hok; discriminate Hok].
  rewrite E1. cbn [fst l_dim l_grid set_grid set_prop]. rewrite Ed.
  assert (GS1 : GShape Rt g1 m0 m1 nt).
  { eapply GShape_meta; [exact HM|]. subst mt. apply overwrite_GShape; [exact HSn|]. apply (gs_tax _ _ _ _ _ (i_shape _ _ _ _ HI)). }
  eapply pc_shift; [exact GS1|]. eapply pc_meta; [exact HM|].
  destruct Hpc as (P1 & P2). split; [exact P1|]. intros _. cbn [overwrite_time with_domain g_axes].
  rewrite set_last_nth; [apply P2; reflexivity|]. rewrite (gs_axes _ _ _ _ _ HSn). simpl. lia.
Qed.

Definition scaled_by (c : R) (L L' : laser) (n0 n1 nt : nat) : Prop :=
  forall s s', sread (l_grid L) = Ok s -> sread (l_grid L') = Ok s' ->
    forall i j k, (i < n0)%nat -> (j < n1)%nat -> (k < nt)%nat -> at3 s' i j k = Cmult (RtoC c) (at3 s i j k).

Lemma strip_run S h : linear_solver S -> forall L L' n0 n1 nt c, Par 0 L L' n0 n1 nt -> 0 < c -> scaled_by c L L' n0 n1 nt ->
  positive_cells (l_dim L) (l_grid L) -> Forall scaling_op h -> clean S L (without_normalize h) ->
  exists m0 m1 c', 0 < c' /\ Par 0 (lrun S L (without_normalize h)) (lrun S L' h) m0 m1 nt /\
    scaled_by c' (lrun S L (without_normalize h)) (lrun S L' h) m0 m1 nt /\
    other_outcomes S L' h = other_outcomes S L (without_normalize h) /\ clean S L' h.
Proof.
  intros HS. induction h as [|o h IH]; intros L L' n0 n1 nt c HP Hc HSc Hpc Hl Hcl.
  - exists n0, n1, c. cbn. auto.
  - inversion Hl as [|? ? Hl1 Hl2]; subst. destruct (is_normalize o) eqn:En.
    + destruct o as [| |v k|]; try discriminate. cbn [without_normalize filter is_normalize negb] in *. fold (without_normalize h) in *.
      pose proof HP as [P1 P2 P3 P4 P5 P6 P7].
      destruct (Inv_reads _ _ _ _ P2) as (a & sa & Ha & _ & Hsa & _).
      assert (Hpc' : positive_cells (l_dim L') (l_grid L')).
      { rewrite P3. eapply pc_meta; [exact P7|]. eapply pc_shift; [apply (i_shape _ _ _ _ P1)|exact Hpc]. }
      assert (Hdim' : l_dim L' = Rt \/ l_dim L' = Xyt) by apply (i_dim _ _ _ _ P2).
      destruct (normalize_scaled (l_dim L') v k (l_grid L') a n0 n1 nt (i_coh _ _ _ _ P2) (gs_shape _ _ _ _ _ (i_shape _ _ _ _ P2)) Ha (pc_vol _ _ _ Hdim' Hpc')) as (f & b & Hf & Hb & Hbat).
      { intros x ->. exact Hl1. }
      destruct (normalize_grid_steps (l_dim L') v k (l_grid L') (i_coh _ _ _ _ P2)) as (N1 & N2 & _).
      assert (E : fst (lstep S L' (OpNormalize v k)) = set_grid L' (fst (normalize_grid (l_dim L') v k (l_grid L')))) by reflexivity.
      pose proof (Par_field L' n0 n1 nt _ P2 N1 N2 (ex_intro _ b Hb)) as HP2.
      assert (HP3 : Par 0 L (fst (lstep S L' (OpNormalize v k))) n0 n1 nt) by (rewrite E; eapply Par_trans0; eassumption).
      destruct (IH L (fst (lstep S L' (OpNormalize v k))) n0 n1 nt (f * c) HP3) as (m0 & m1 & c' & Z1 & Z2 & Z3 & Z4 & Z5); try assumption.
      * apply Rmult_lt_0_compat; assumption.
      * intros s s' Hs Hs' i j q Hi Hj Hq.
        pose proof (pa_inv' _ _ _ _ _ _ HP3) as I3. rewrite E in Hs'. cbn [set_grid l_grid] in Hs'.
        assert (Hrb : tread (l_grid (set_grid L' (fst (normalize_grid (l_dim L') v k (l_grid L'))))) = Ok b) by exact Hb.
        rewrite E in I3.
        destruct (spectral_zero_like _ _ _ _ _ _ i j q I3 Hrb Hs' Hi Hj Hq) as (_ & ->).
        rewrite RtoC_mult, <- Cmult_assoc, <- (HSc s sa Hs Hsa i j q Hi Hj Hq).
        destruct (spectral_zero_like _ _ _ _ _ _ i j q P2 Ha Hsa Hi Hj Hq) as (_ & ->).
        rewrite <- ifft1_scal. apply ifft1_ext. intros u _. apply Hbat.
      * exists m0, m1, c'. cbn [lrun other_outcomes clean app]. conj; try assumption. left; exact I.
    + assert (Ew : without_normalize (o :: h) = o :: without_normalize h) by (unfold without_normalize; cbn [filter]; rewrite En; reflexivity).
      rewrite Ew in *. destruct Hcl as (Hc1 & Hc2).
      assert (Hlin : linear_op o) by (destruct o; try discriminate; apply scaling_user in Hl1; exact Hl1).
      pose proof (pa_inv _ _ _ _ _ _ HP) as HI.
      destruct (lti_step S L n0 n1 nt o HS HI Hlin Hc1) as (m0 & m1 & T & _ & HK).
      destruct (HK 0 L (Par_refl _ _ _ _ HI)) as (_ & _ & K3). destruct (HK 0 L' HP) as (Q1 & Q2 & Q3).
      pose proof (step_pc S L n0 n1 nt o HI Hl1 Hc1 Hpc) as Hpc1.
      destruct (Inv_reads _ _ _ _ HI) as (_ & s0 & _ & _ & Hs0 & _).
      destruct (Inv_reads _ _ _ _ (pa_inv' _ _ _ _ _ _ HP)) as (_ & s0' & _ & _ & Hs0' & _).
      destruct (IH _ _ m0 m1 nt c Q1 Hc) as (q0 & q1 & c' & Z1 & Z2 & Z3 & Z4 & Z5); try assumption.
      * intros s s' Hs Hs' i j q Hi Hj Hq. rewrite (K3 s0 s Hs0 Hs) by assumption. rewrite (Q3 s0' s' Hs0' Hs') by assumption.
        rewrite (kapply_ext n0 n1 T (at3 s0') (fun i j k => Cplus (Cmult (RtoC c) (at3 s0 i j k)) (Cmult (RtoC 0) (at3 s0 i j k)))).
        -- rewrite kapply_lin. ring.
        -- intros a b Ha Hb. rewrite (HSc s0 s0' Hs0 Hs0') by assumption. ring.
      * exists q0, q1, c'. cbn [lrun clean]. split; [exact Z1|]. split; [exact Z2|]. split; [exact Z3|]. split.
        -- cbn [other_outcomes]. rewrite Z4. destruct o; try discriminate; try reflexivity; rewrite Q2 by (intros H; exact H); reflexivity.
        -- split; [|exact Z5]. destruct Hc1 as [Hn|Hok]; [left; exact Hn|].
           destruct o; try discriminate; try (left; exact I). right. rewrite Q2 by (intros H; exact H). exact Hok.
Qed.

Theorem c95_normalize S L h : linear_solver S -> reachable S L -> positive_cells (l_dim L) (l_grid L) ->
  Forall scaling_op h -> clean S L (without_normalize h) ->
  let A := lrun S L h in let B := lrun S L (without_normalize h) in
  other_outcomes S L h = other_outcomes S L (without_normalize h) /\
  g_axes (l_grid A) = g_axes (l_grid B) /\
  exists c m0 m1 nt fa fb, 0 < c /\ snd (get_temporal_field (l_grid A)) = Ok fa /\ shp fa = [m0; m1; nt] /\
    snd (get_temporal_field (l_grid B)) = Ok fb /\ shp fb = [m0; m1; nt] /\
    forall i j k, (i < m0)%nat -> (j < m1)%nat -> (k < nt)%nat -> at3 fa i j k = Cmult (RtoC c) (at3 fb i j k).
Proof.
  intros HS Hr Hpc Hl Hc. cbn zeta. destruct (reachable_Inv S L Hr) as (n0 & n1 & nt & HI).
  destruct (strip_run S h HS L L n0 n1 nt 1 (Par_refl _ _ _ _ HI)) as (m0 & m1 & c & Z1 & Z2 & Z3 & Z4 & Z5); try assumption; [lra| |].
  - intros s s' Hs Hs' i j k _ _ _. rewrite Hs in Hs'. injection Hs' as <-. ring.
  - split; [exact Z4|]. split; [exact (Par0_axes _ _ _ _ _ Z2)|].
    destruct (Inv_reads _ _ _ _ (pa_inv' _ _ _ _ _ _ Z2)) as (fa & sa & F1 & F2 & F3 & F4).
    destruct (Inv_reads _ _ _ _ (pa_inv _ _ _ _ _ _ Z2)) as (fb & sb & G1 & G2 & G3 & G4).
    exists c, m0, m1, nt, fa, fb. conj; try assumption. intros i j k Hi Hj Hk.
    destruct (spectral_zero_like _ _ _ _ _ _ i j k (pa_inv' _ _ _ _ _ _ Z2) F1 F3 Hi Hj Hk) as (-> & _).
    destruct (spectral_zero_like _ _ _ _ _ _ i j k (pa_inv _ _ _ _ _ _ Z2) G1 G3 Hi Hj Hk) as (-> & _).
    rewrite <- fft1_scal. apply fft1_ext. intros q Hq. apply (Z3 sb sa G3 F3); assumption.
Qed.

(** Proportional fields become equal when normalized to the same value. *)
Lemma norm_equal_energy d g g' a a' c v n0 n1 nt : CohG g -> CohG g' -> same_meta g g' -> g_shape g = [n0; n1; nt] ->
  tread g = Ok a -> tread g' = Ok a' -> 0 < c -> 0 < v -> energy_of d g a <> 0 -> 0 <= energy_of d g a ->
  (forall i j k, (i < n0)%nat -> (j < n1)%nat -> (k < nt)%nat -> at3 a' i j k = Cmult (RtoC c) (at3 a i j k)) ->
  exists b b', tread (fst (normalize_grid d (Some v) KEnergy g)) = Ok b /\ tread (fst (normalize_grid d (Some v) KEnergy g')) = Ok b' /\
    forall i j k, (i < n0)%nat -> (j < n1)%nat -> (k < nt)%nat -> at3 b' i j k = at3 b i j k.
Proof.
  intros HG HG' HM Hsh Ha Ha' Hc Hv He0 He Hat.
  destruct (tread_shape _ _ (proj1 HG) Ha) as (Sa & Da). destruct (tread_shape _ _ (proj1 HG') Ha') as (Sa' & Da').
  assert (Hsh' : g_shape g' = g_shape g) by (destruct HM as (_ & _ & _ & _ & _ & _ & _ & Z & _); exact Z).
  assert (Hdt : g_dtype g' = g_dtype g) by (destruct HM as (_ & _ & _ & _ & _ & _ & _ & _ & _ & Z); exact Z).
  assert (Hsc : is_scaled (RtoC c) a a').
  { split; [congruence|]. split; [congruence|]. intros i j k (Hi & Hj & Hk). unfold dim0, dim1, dim2 in *. rewrite Sa, Hsh in *. apply Hat; assumption. }
  assert (He' : energy_of d g' a' = c ^ 2 * energy_of d g a).
  { rewrite (energy_of_meta d _ _ _ HM), (energy_scaled d g (RtoC c) a a' Hsc), Cmod_R, pow2_abs. ring. }
  assert (Hf : forall g a, CohG g -> tread g = Ok a -> energy_of d g a <> 0 ->
     tread (fst (normalize_grid d (Some v) KEnergy g)) = Ok (scale_arr (sqrt (v / energy_of d g a)) a)).
  { clear. intros g a HG Ha H0. cbn [normalize_grid]. unfold normalize_energy. destruct (compute_energy_eq d g a Ha) as (C1 & C2). rewrite C1, C2.
    rewrite (proj2 (Reqb_false _ _) H0). pose proof (tread_get_t g) as HT. rewrite Ha in HT.
    destruct (rescale (fst (get_temporal_field g)) a (sqrt (v / energy_of d g a)) (get_t_Wf _ (proj1 HG)) HT) as (R1 & R2 & R3 & R4).
    unfold tread in HT. rewrite HT. exact R4. }
  exists (scale_arr (sqrt (v / energy_of d g a)) a), (scale_arr (sqrt (v / energy_of d g' a')) a').
  split; [apply Hf; assumption|]. split.
  { apply Hf; try assumption. rewrite He'. apply Rmult_integral_contrapositive_currified; [apply pow_nonzero; lra|exact He0]. }
  intros i j k Hi Hj Hk. cbn [scale_arr amap at3]. rewrite Hat by assumption. rewrite Cmult_assoc, <- RtoC_mult. f_equal. f_equal.
  rewrite He'. replace (v / (c ^ 2 * energy_of d g a)) with ((v / energy_of d g a) / c ^ 2) by (field; split; [exact He0|lra]).
  rewrite sqrt_div_alt by (apply pow_lt; exact Hc). rewrite sqrt_pow2 by lra. field. lra.
Qed.
Lemma abs_max_scaled a a' c n0 n1 nt : 0 < c -> shp a = [n0; n1; nt] -> shp a' = [n0; n1; nt] ->
  (forall i j k, (i < n0)%nat -> (j < n1)%nat -> (k < nt)%nat -> at3 a' i j k = Cmult (RtoC c) (at3 a i j k)) ->
  abs_max a' = c * abs_max a.
Proof.
  intros Hc Sa Sa' Hat. unfold abs_max, dim0, dim1, dim2. rewrite Sa, Sa'. cbn [nth].
  assert (Hl : flat3 n0 n1 nt (fun i j k => Cmod (at3 a' i j k)) = map (Rmult c) (flat3 n0 n1 nt (fun i j k => Cmod (at3 a i j k)))).
  { unfold flat3.
    assert (FM : forall (A B D : Type) (f : A -> list B) (h : B -> D) l, map h (flat_map f l) = flat_map (fun x => map h (f x)) l).
    { intros A B D f h l. induction l as [|x l IH]; [reflexivity|]. cbn [flat_map]. rewrite map_app, IH. reflexivity. }
    assert (FE : forall (A B : Type) (f h : A -> list B) l, (forall x, In x l -> f x = h x) -> flat_map f l = flat_map h l).
    { intros A B f h l H. induction l as [|x l IH]; [reflexivity|]. cbn [flat_map]. rewrite H by (left; reflexivity). f_equal. apply IH. intros y Hy. apply H. right; exact Hy. }
    rewrite FM. apply FE. intros i Hi. apply in_seq in Hi. rewrite FM. apply FE. intros j Hj. apply in_seq in Hj.
    rewrite map_map. apply map_ext_in. intros k Hk. apply in_seq in Hk.
    rewrite Hat by lia. rewrite Cmod_mult, Cmod_R, Rabs_right by lra. reflexivity. }
  rewrite Hl. generalize (flat3 n0 n1 nt (fun i j k => Cmod (at3 a i j k))). intros l.
  induction l as [|x l IH]; [simpl; ring|]. destruct l as [|y l]; [reflexivity|].
  change (rmaxl (map (Rmult c) (x :: y :: l))) with (Rmax (c * x) (rmaxl (map (Rmult c) (y :: l)))). rewrite IH.
  change (rmaxl (x :: y :: l)) with (Rmax x (rmaxl (y :: l))). rewrite RmaxRmult by lra. reflexivity.
Qed.
Lemma abs_max_zero a n0 n1 nt : shp a = [n0; n1; nt] -> abs_max a = 0 ->
  forall i j k, (i < n0)%nat -> (j < n1)%nat -> (k < nt)%nat -> at3 a i j k = RtoC 0.
Proof.
  intros Sa H i j k Hi Hj Hk. apply Cmod_eq_0. apply Rle_antisym; [|apply Cmod_ge_0]. rewrite <- H. unfold abs_max, dim0, dim1, dim2. rewrite Sa. cbn [nth].
  apply rmaxl_ge. unfold flat3. rewrite in_flat_map. exists i. split; [apply in_seq; lia|]. rewrite in_flat_map. exists j. split; [apply in_seq; lia|].
  apply in_map_iff. exists k. split; [reflexivity|apply in_seq; lia].
Qed.
Lemma norm_equal_field d g g' a a' c v n0 n1 nt : CohG g -> CohG g' -> same_meta g g' -> g_shape g = [n0; n1; nt] ->
  tread g = Ok a -> tread g' = Ok a' -> 0 < c ->
  (forall i j k, (i < n0)%nat -> (j < n1)%nat -> (k < nt)%nat -> at3 a' i j k = Cmult (RtoC c) (at3 a i j k)) ->
  exists b b', tread (fst (normalize_grid d (Some v) KField g)) = Ok b /\ tread (fst (normalize_grid d (Some v) KField g')) = Ok b' /\
    forall i j k, (i < n0)%nat -> (j < n1)%nat -> (k < nt)%nat -> at3 b' i j k = at3 b i j k.
Proof.
  intros HG HG' HM Hsh Ha Ha' Hc Hat.
  destruct (tread_shape _ _ (proj1 HG) Ha) as (Sa & Da). destruct (tread_shape _ _ (proj1 HG') Ha') as (Sa' & Da').
  assert (Hsh' : g_shape g' = g_shape g) by (destruct HM as (_ & _ & _ & _ & _ & _ & _ & Z & _); exact Z).
  rewrite Hsh' in Sa'. rewrite Hsh in Sa, Sa'.
  pose proof (abs_max_scaled a a' c n0 n1 nt Hc Sa Sa' Hat) as Hmx.
  cbn [normalize_grid]. unfold normalize_peak_field_amplitude.
  change (snd (get_temporal_field g)) with (tread g). change (snd (get_temporal_field g')) with (tread g'). rewrite Ha, Ha'. cbn zeta.
  destruct (Req_dec (abs_max a) 0) as [E|E].
  - assert (E' : abs_max a' = 0) by (rewrite Hmx, E; ring).
    rewrite (proj2 (Reqb_true _ _) E), (proj2 (Reqb_true _ _) E'). cbn [fst]. exists a, a'. rewrite !tread_get_t. split; [exact Ha|]. split; [exact Ha'|].
    intros i j k Hi Hj Hk. rewrite (abs_max_zero a n0 n1 nt Sa E), (abs_max_zero a' n0 n1 nt Sa' E') by assumption. reflexivity.
  - assert (E' : abs_max a' <> 0) by (rewrite Hmx; apply Rmult_integral_contrapositive_currified; [lra|exact E]).
    rewrite (proj2 (Reqb_false _ _) E), (proj2 (Reqb_false _ _) E').
    destruct (rescale g a (v / abs_max a) (proj1 HG) Ha) as (_ & _ & _ & R4).
    destruct (rescale g' a' (v / abs_max a') (proj1 HG') Ha') as (_ & _ & _ & R4').
    exists (scale_arr (v / abs_max a) a), (scale_arr (v / abs_max a') a'). split; [exact R4|]. split; [exact R4'|].
    intros i j k Hi Hj Hk. cbn [scale_arr amap at3]. rewrite Hat by assumption. rewrite Cmult_assoc, <- RtoC_mult. f_equal. f_equal.
    rewrite Hmx. field. split; [exact E|lra].
Qed.

Theorem c95_last S L h v kd : linear_solver S -> reachable S L -> positive_cells (l_dim L) (l_grid L) ->
  Forall scaling_op h -> clean S L (without_normalize h) -> 0 < v ->
  (kd = KField \/ (kd = KEnergy /\ snd (compute_laser_energy (l_dim L) (l_grid (lrun S L (without_normalize h)))) <> Ok 0)) ->
  let A := lrun S L (h ++ [OpNormalize (Some v) kd]) in let B := lrun S L (without_normalize h ++ [OpNormalize (Some v) kd]) in
  g_axes (l_grid A) = g_axes (l_grid B) /\
  exists m0 m1 nt fa fb, snd (get_temporal_field (l_grid A)) = Ok fa /\ shp fa = [m0; m1; nt] /\
    snd (get_temporal_field (l_grid B)) = Ok fb /\ shp fb = [m0; m1; nt] /\
    forall i j k, (i < m0)%nat -> (j < m1)%nat -> (k < nt)%nat -> at3 fa i j k = at3 fb i j k.
Proof.
  intros HS Hr Hpc Hl Hc Hv Hk. cbn zeta. destruct (reachable_Inv S L Hr) as (n0 & n1 & nt & HI).
  destruct (strip_run S h HS L L n0 n1 nt 1 (Par_refl _ _ _ _ HI)) as (m0 & m1 & c & Z1 & Z2 & Z3 & Z4 & Z5); try assumption; [lra| |].
  { intros s s' Hs Hs' i j k _ _ _. rewrite Hs in Hs'. injection Hs' as <-. ring. }
  rewrite !lrun_app. cbn [lrun lstep]. set (A := lrun S L h) in *. set (B := lrun S L (without_normalize h)) in *.
  pose proof Z2 as [P1 P2 P3 P4 P5 P6 P7]. rewrite (shift_0 _ _ _ _ _ (i_shape _ _ _ _ P1)) in P7.
  unfold normalize. cbn [fst l_grid set_grid]. rewrite P3.
  destruct (normalize_grid_steps (l_dim B) (Some v) kd (l_grid A) (i_coh _ _ _ _ P2)) as (NA1 & NA2 & _).
  destruct (normalize_grid_steps (l_dim B) (Some v) kd (l_grid B) (i_coh _ _ _ _ P1)) as (NB1 & NB2 & _).
  split. { destruct NA2 as (_ & _ & _ & X & _). destruct NB2 as (_ & _ & _ & Y & _). rewrite X, Y. apply (Par0_axes _ _ _ _ _ Z2). }
  destruct (Inv_reads _ _ _ _ P2) as (fa & sa & F1 & F2 & F3 & F4).
  destruct (Inv_reads _ _ _ _ P1) as (fb & sb & G1 & G2 & G3 & G4).
  pose proof (gs_shape _ _ _ _ _ (i_shape _ _ _ _ P1)) as Hsh.
  assert (Hat : forall i j k, (i < m0)%nat -> (j < m1)%nat -> (k < nt)%nat -> at3 fa i j k = Cmult (RtoC c) (at3 fb i j k)).
  { intros i j k Hi Hj Hk'.
    destruct (spectral_zero_like _ _ _ _ _ _ i j k P2 F1 F3 Hi Hj Hk') as (-> & _).
    destruct (spectral_zero_like _ _ _ _ _ _ i j k P1 G1 G3 Hi Hj Hk') as (-> & _).
    rewrite <- fft1_scal. apply fft1_ext. intros q Hq. apply (Z3 sb sa G3 F3); assumption. }
  assert (HdB : l_dim B = l_dim L).
  { destruct (run_clean_inv S L n0 n1 nt (without_normalize h) HI) as (a0 & a1 & _ & _ & Y & _); [|exact Hc|exact Y].
    apply Forall_forall. intros o Ho. unfold without_normalize in Ho. apply filter_In in Ho. rewrite Forall_forall in Hl. apply scaling_user, Hl, Ho. }
  assert (Hend : exists b b', tread (fst (normalize_grid (l_dim B) (Some v) kd (l_grid B))) = Ok b /\ tread (fst (normalize_grid (l_dim B) (Some v) kd (l_grid A))) = Ok b' /\
     forall i j k, (i < m0)%nat -> (j < m1)%nat -> (k < nt)%nat -> at3 b' i j k = at3 b i j k).
  { destruct Hk as [-> | (-> & He)].
    - eapply norm_equal_field; [apply (i_coh _ _ _ _ P1)|apply (i_coh _ _ _ _ P2)|exact P7|exact Hsh|exact G1|exact F1|exact Z1|exact Hat].
    - assert (He' : energy_of (l_dim B) (l_grid B) fb <> 0).
      { intros E. apply He. destruct (compute_energy_eq (l_dim L) (l_grid B) fb G1) as (X & _). rewrite X, <- HdB, E. reflexivity. }
      assert (HpB : positive_cells (l_dim B) (l_grid B)).
      { assert (Hall : forall h L n0 n1 nt, Inv L n0 n1 nt -> Forall scaling_op h -> clean S L h -> positive_cells (l_dim L) (l_grid L) -> positive_cells (l_dim (lrun S L h)) (l_grid (lrun S L h))).
        { clear. induction h as [|o h IH]; intros L n0 n1 nt HI Hf Hc HP; [exact HP|]. inversion Hf; subst. destruct Hc as (C1 & C2). cbn [lrun].
          destruct (run_clean_inv S L n0 n1 nt [o] HI) as (a0 & a1 & HI2 & _).
          - constructor; [apply scaling_user; assumption|constructor].
          - split; [exact C1|exact I].
          - cbn [lrun] in HI2. eapply IH; [exact HI2|assumption|exact C2|]. eapply step_pc; eassumption. }
        apply (Hall _ _ n0 n1 nt HI); [|exact Hc|exact Hpc].
        apply Forall_forall. intros o Ho. apply filter_In in Ho. rewrite Forall_forall in Hl. apply Hl, Ho. }
      eapply norm_equal_energy; [apply (i_coh _ _ _ _ P1)|apply (i_coh _ _ _ _ P2)|exact P7|exact Hsh|exact G1|exact F1|exact Z1|exact Hv|exact He'| |exact Hat].
      apply energy_nonneg. apply pc_vol; [apply (i_dim _ _ _ _ P1)|exact HpB]. }
  destruct Hend as (b & b' & B1 & B2 & B3).
  exists m0, m1, nt, b', b. conj; try assumption.
  - destruct (tread_shape _ _ (proj1 NA1) B2) as (E & _). rewrite E. destruct NA2 as (_ & _ & _ & _ & _ & _ & _ & X & _). rewrite X. apply (gs_shape _ _ _ _ _ (i_shape _ _ _ _ P2)).
  - destruct (tread_shape _ _ (proj1 NB1) B1) as (E & _). rewrite E. destruct NB2 as (_ & _ & _ & _ & _ & _ & _ & X & _). rewrite X. exact Hsh.
Qed.

(** Ordinary windows have positive cells. *)
Lemma grid_cells d lo hi np nm b g : grid_init d lo hi np nm b = Ok g ->
  (forall q, (q < ndims_of d)%nat -> nth q lo 0 < nth q hi 0) -> (d = Rt -> 0 <= nth 0 lo 0) -> positive_cells d g.
Proof.
  intros H Hb H0. destruct (grid_init_axes _ _ _ _ _ _ _ H) as (_ & _ & _ & Hl & Hax).
  assert (Hnp : exists g, grid_init d lo hi np nm b = Ok g) by eauto. apply grid_init_ok_iff in Hnp. destruct Hnp as (_ & _ & _ & Hn & _).
  split.
  - apply Forall_forall. intros x Hx. apply (In_nth _ _ 0) in Hx. destruct Hx as (q & Hq & <-). rewrite Hl in Hq.
    destruct (Hax q Hq) as (n & En & _ & _ & _ & -> & _). destruct (Hn q Hq) as (n' & En' & Hn2). rewrite En in En'. injection En' as <-.
    specialize (Hb q Hq). apply le_INR in Hn2. simpl in Hn2. apply Rdiv_lt_0_compat; unfold vget; lra.
  - intros E. assert (Hq : (0 < ndims_of d)%nat) by (rewrite E; simpl; lia). apply Forall_forall. intros x Hx. apply (In_nth _ _ 0) in Hx. destruct Hx as (i & Hi & <-).
    destruct (Hax 0%nat Hq) as (n & En & El & _). destruct (Hn 0%nat Hq) as (n' & En' & Hn2). rewrite En in En'. injection En' as <-.
    rewrite El in Hi. change (nth i (nth 0 (g_axes g) []) 0) with (axis_at g 0 i). rewrite (axis_coord _ _ _ _ _ _ _ 0 n i H Hq En Hi).
    specialize (Hb 0%nat Hq). specialize (H0 E). apply le_INR in Hn2. simpl in Hn2. unfold coord.
    assert (0 <= INR i * ((nth 0 hi 0 - nth 0 lo 0) / (INR n - 1))); [|lra].
    apply Rmult_le_pos; [apply pos_INR|]. apply Rlt_le, Rdiv_lt_0_compat; lra.
Qed.
Lemma laser_cells d lo hi np p nm nte L : laser_init d lo hi np p nm nte = Ok L ->
  (forall q, (q < ndims_of d)%nat -> nth q lo 0 < nth q hi 0) -> (d = Rt -> 0 <= nth 0 lo 0) -> positive_cells (l_dim L) (l_grid L).
Proof.
  intros H Hb H0. destruct (laser_init_Inv _ _ _ _ _ _ _ _ H) as (g & n0 & n1 & nt & A1 & A2 & A3 & _). rewrite A3.
  eapply pc_meta; [exact A2|]. eapply grid_cells; eassumption.
Qed.
