(** C96. *)
From Verif Require Import PyBase CSum NpFFT FFTProofs NumPy GridModel GridSpec GridProofs GridObs EnergyModel EnergyProofs LaserSpec LaserModel LaserOps LaserInv LaserStepProofs PropagateProofs HistoryProofs LaserInitProofs OpticsProofs2 AnalysisModel DurationProofs ProfileModel AnalyticModel LtiSpec LtiProofs LtiStep LtiMain LtiNorm SepSpec.
Open Scope R_scope.

Lemma response_app h1 h2 w w0 : response (h1 ++ h2) w w0 = Cmult (response h2 w w0) (response h1 w w0).
Proof. induction h1 as [|o h IH]; cbn; [ring|]. destruct o; rewrite ?IH; ring. Qed.
Lemma shaped_nil nt dt w0 x k : (k < nt)%nat -> shaped nt dt w0 [] x k = x k.
Proof.
  intros Hk. unfold shaped. cbn [response]. rewrite (fft1_ext nt _ (ifft1 nt x)); [apply fft_ifft1; exact Hk|]. intros; ring.
Qed.
Lemma shaped_ext nt dt w0 h x y k : (forall q, (q < nt)%nat -> x q = y q) -> shaped nt dt w0 h x k = shaped nt dt w0 h y k.
Proof. intros H. unfold shaped. apply fft1_ext. intros q _. f_equal. apply ifft1_ext, H. Qed.
Lemma shaped_scal nt dt w0 h c x k : shaped nt dt w0 h (fun q => Cmult c (x q)) k = Cmult c (shaped nt dt w0 h x k).
Proof. unfold shaped. rewrite <- fft1_scal. apply fft1_ext. intros q _. rewrite ifft1_scal. ring. Qed.

(** ** A history of colour-only calls: one filter for all pixels, one positive factor. *)
Definition filtered_by (c : R) (h : list lop) (L L' : laser) (n0 n1 nt : nat) : Prop :=
  forall s s', sread (l_grid L) = Ok s -> sread (l_grid L') = Ok s' ->
  forall i j k, (i < n0)%nat -> (j < n1)%nat -> (k < nt)%nat ->
    at3 s' i j k = Cmult (RtoC c) (Cmult (response h (vget (l_omega L) k) (p_omega0 (l_prof L))) (at3 s i j k)).
Lemma colour_run S h : forall L n0 n1 nt, Inv L n0 n1 nt -> positive_cells (l_dim L) (l_grid L) -> Forall colour_op h ->
  exists c, 0 < c /\ Par 0 L (lrun S L h) n0 n1 nt /\ filtered_by c h L (lrun S L h) n0 n1 nt.
Proof.
  induction h as [|o h IH]; intros L n0 n1 nt HI Hpc Hh.
  - exists 1. split; [lra|]. split; [apply Par_refl, HI|]. intros s s' Hs Hs' i j k _ _ _. cbn in *. rewrite Hs in Hs'. injection Hs' as <-. ring.
  - inversion Hh as [|? ? Ho Hh']; subst.
    assert (Hstep : exists c, 0 < c /\ Par 0 L (fst (lstep S L o)) n0 n1 nt /\ filtered_by c [o] L (fst (lstep S L o)) n0 n1 nt).
    { destruct o as [dist nr ng b|e|v k|w].
      - destruct Ho.
      - destruct (step_optic_inv S L n0 n1 nt e HI) as (g' & s & s' & E1 & _ & P & Hs & Hs' & Hat).
        exists 1. split; [lra|]. split; [exact P|]. intros t t' Ht Ht' i j k _ _ _. rewrite E1 in Ht'. cbn [l_grid set_grid] in Ht'.
        rewrite Hs in Ht. injection Ht as <-. rewrite Hs' in Ht'. injection Ht' as <-. rewrite Hat. cbn [response].
        replace (optic_factor L e i j k) with (e 0 0 (vget (l_omega L) k) (p_omega0 (l_prof L))); [ring|].
        unfold optic_factor. destruct (l_dim L); apply Ho.
      - destruct (Inv_reads _ _ _ _ HI) as (a & sa & Ha & _ & Hsa & _).
        destruct (normalize_scaled (l_dim L) v k (l_grid L) a n0 n1 nt (i_coh _ _ _ _ HI) (gs_shape _ _ _ _ _ (i_shape _ _ _ _ HI)) Ha (pc_vol _ _ _ (i_dim _ _ _ _ HI) Hpc)) as (f & b & Hf & Hb & Hbat).
        { intros x ->. exact Ho. }
        destruct (normalize_grid_steps (l_dim L) v k (l_grid L) (i_coh _ _ _ _ HI)) as (N1 & N2 & _).
        assert (E : fst (lstep S L (OpNormalize v k)) = set_grid L (fst (normalize_grid (l_dim L) v k (l_grid L)))) by reflexivity.
        exists f. split; [exact Hf|]. rewrite E. pose proof (Par_field L n0 n1 nt _ HI N1 N2 (ex_intro _ b Hb)) as HP.
        split; [exact HP|]. intros s s' Hs Hs' i j q Hi Hj Hq. cbn [response].
        assert (Hrb : tread (l_grid (set_grid L (fst (normalize_grid (l_dim L) v k (l_grid L))))) = Ok b) by exact Hb.
        destruct (spectral_zero_like _ _ _ _ _ _ i j q (pa_inv' _ _ _ _ _ _ HP) Hrb Hs' Hi Hj Hq) as (_ & ->).
        destruct (spectral_zero_like _ _ _ _ _ _ i j q HI Ha Hs Hi Hj Hq) as (_ & ->).
        rewrite Cmult_1_l, <- ifft1_scal. apply ifft1_ext. intros u _. apply Hbat.
      - destruct (step_write S L n0 n1 nt w HI 0 L (Par_refl _ _ _ _ HI)) as (_ & _ & K3).
        destruct (step_plain S L n0 n1 nt (OpWrite w) HI (or_intror I)) as (I' & M' & D' & O' & P').
        exists 1. split; [lra|]. split.
        + constructor; try assumption; try congruence.
          * cbn [lstep]. unfold write_to_file. rewrite get_t_eq; cbn [fst snd].
            destruct (tread (l_grid L)) as [a|e]; [destruct (w _ _ _) as [u|e]|]; reflexivity.
        + intros s s' Hs Hs' i j k Hi Hj Hk. cbn [response]. rewrite (K3 s s' Hs Hs') by assumption. rewrite kid_apply by assumption. ring. }
    destruct Hstep as (c1 & Hc1 & P1 & F1).
    assert (Hpc1 : positive_cells (l_dim (fst (lstep S L o))) (l_grid (fst (lstep S L o)))).
    { rewrite (pa_dim _ _ _ _ _ _ P1). eapply pc_meta; [exact (pa_meta _ _ _ _ _ _ P1)|]. eapply pc_shift; [apply (i_shape _ _ _ _ HI)|exact Hpc]. }
    destruct (IH _ n0 n1 nt (pa_inv' _ _ _ _ _ _ P1) Hpc1 Hh') as (c2 & Hc2 & P2 & F2).
    exists (c2 * c1). split; [apply Rmult_lt_0_compat; assumption|]. cbn [lrun]. split; [eapply Par_trans0; eassumption|].
    intros s s' Hs Hs' i j k Hi Hj Hk.
    destruct (Inv_reads _ _ _ _ (pa_inv' _ _ _ _ _ _ P1)) as (_ & s1 & _ & _ & Hs1 & _).
    rewrite (F2 s1 s' Hs1 Hs' i j k Hi Hj Hk), (F1 s s1 Hs Hs1 i j k Hi Hj Hk).
    rewrite (pa_om _ _ _ _ _ _ P1), (pa_w0 _ _ _ _ _ _ P1), RtoC_mult.
    change (o :: h) with ([o] ++ h). rewrite response_app. ring.
Qed.
(** In the time domain. *)
Lemma colour_run_t S h d lo hi np p nm nte L nt : laser_init d lo hi np p nm nte = Ok L -> window_ok d lo hi ->
  nth_error np (ndims_of d - 1) = Some nt -> Forall colour_op h ->
  exists c n0 n1 a a', 0 < c /\ Inv L n0 n1 nt /\ Par 0 L (lrun S L h) n0 n1 nt /\
    tread (l_grid L) = Ok a /\ shp a = [n0; n1; nt] /\ tread (l_grid (lrun S L h)) = Ok a' /\ shp a' = [n0; n1; nt] /\
    forall i j k, (i < n0)%nat -> (j < n1)%nat -> (k < nt)%nat ->
      at3 a' i j k = Cmult (RtoC c) (shaped nt (spacing (nth (ndims_of d - 1) lo 0) (nth (ndims_of d - 1) hi 0) nt) (p_omega0 p) h (fun q => at3 a i j q) k).
Proof.
  intros H (HW1 & HW2) Hnt Hh.
  destruct (laser_init_Inv _ _ _ _ _ _ _ _ H) as (g & n0 & n1 & nt' & A1 & A2 & A3 & A4 & A5 & A6 & A7 & A8 & A9 & A10).
  rewrite Hnt in A8. injection A8 as <-.
  destruct (colour_run S h L n0 n1 nt A10 (laser_cells _ _ _ _ _ _ _ _ H HW1 HW2) Hh) as (c & Hc & HP & HF).
  destruct (Inv_reads _ _ _ _ A10) as (a & s & Ha & Sa & Hs & Ss).
  destruct (Inv_reads _ _ _ _ (pa_inv' _ _ _ _ _ _ HP)) as (a' & s' & Ha' & Sa' & Hs' & Ss').
  exists c, n0, n1, a, a'. conj; try assumption. intros i j k Hi Hj Hk.
  destruct (spectral_zero_like _ _ _ _ _ _ i j k (pa_inv' _ _ _ _ _ _ HP) Ha' Hs' Hi Hj Hk) as (-> & _).
  unfold shaped. rewrite <- fft1_scal. apply fft1_ext. intros q Hq. rewrite (HF s s' Hs Hs') by assumption.
  pose proof (run_omega S d lo hi np p nm nte L [] H (Forall_nil _) I nt q Hnt Hq) as Eo. cbn [lrun] in Eo. rewrite Eo, A4.
  destruct (spectral_zero_like _ _ _ _ _ _ i j q A10 Ha Hs Hi Hj Hq) as (_ & ->). reflexivity.
Qed.

Lemma combined_eval wl pol en long trans p : combined_profile wl pol en long trans = Ok p ->
  p_eval p = (fun x y t => Cmult (trans x y) (long t)) /\ p_energy p = Some en /\ p_omega0 p = 2 * PI * c_light / wl.
Proof.
  unfold combined_profile, profile_init. destruct pol as [|px [|py [|? ?]]]; cbn [bind]; try discriminate. intros [= <-]. auto.
Qed.
Lemma efactor_pos en e s : energy_positive en -> 0 <= e -> energy_factor (Some en) e s -> 0 < s.
Proof.
  destruct en as [E|]; cbn; intros HE He; [|intros ->; lra]. intros (Z & P). destruct (Req_dec e 0) as [->|Hn].
  - rewrite Z by reflexivity. lra.
  - rewrite P by lra. apply sqrt_lt_R0, Rdiv_lt_0_compat; lra.
Qed.
Lemma energy_positive_ok en : energy_positive en -> energy_request_ok (Some en).
Proof. destruct en as [E|]; cbn; [lra|trivial]. Qed.

(** ** Separable pulses *)
Theorem c96_xyt S lo hi n0 n1 nt wl pol en long trans p nm nte L h :
  combined_profile wl pol en long trans = Ok p -> energy_positive en ->
  laser_init Xyt lo hi [n0; n1; nt] p nm nte = Ok L -> window_ok Xyt lo hi -> Forall colour_op h ->
  exists a c, 0 < c /\ snd (get_temporal_field (l_grid (lrun S L h))) = Ok a /\ shp a = [n0; n1; nt] /\
    forall i j k, (i < n0)%nat -> (j < n1)%nat -> (k < nt)%nat ->
      at3 a i j k = Cmult (RtoC c) (Cmult
        (trans (coord (nth 0 lo 0) (nth 0 hi 0) n0 i) (coord (nth 1 lo 0) (nth 1 hi 0) n1 j))
        (shaped nt (spacing (nth 2 lo 0) (nth 2 hi 0) nt) (2 * PI * c_light / wl) h (trace long (nth 2 lo 0) (nth 2 hi 0) nt) k)).
Proof.
  intros Hp HE H HW Hh. destruct (combined_eval _ _ _ _ _ _ Hp) as (Ev & En & Eo).
  destruct (colour_run_t S h _ _ _ _ _ _ _ _ nt H HW eq_refl Hh) as (c & m0 & m1 & a & a' & Hc & HI & HP & Ha & Sa & Ha' & Sa' & Hat).
  destruct HW as (HW & _).
  destruct (xyt_samples lo hi n0 n1 nt p nm nte L H (HW 0%nat ltac:(cbn; lia)) (HW 1%nat ltac:(cbn; lia)) (HW 2%nat ltac:(cbn; lia)))
    as (a0 & s & Ha0 & Sa0 & Hs & Hv & Hf).
  { rewrite En. apply energy_positive_ok, HE. }
  change (snd (get_temporal_field (l_grid L))) with (tread (l_grid L)) in Ha0. rewrite Ha in Ha0. injection Ha0 as <-.
  rewrite Sa in Sa0. injection Sa0 as -> ->.
  exists a', (c * s). split.
  - apply Rmult_lt_0_compat; [exact Hc|]. rewrite En in Hf. apply (efactor_pos _ _ _ HE) in Hf; [exact Hf|].
    unfold E_xyt. pose proof eps0_pos. pose proof c_light_pos.
    assert (G : forall q n, (q < 3)%nat -> (2 <= n)%nat -> 0 < spacing (nth q lo 0) (nth q hi 0) n).
    { intros q n Hq Hn. unfold spacing. apply Rdiv_lt_0_compat; [pose proof (HW q Hq); lra|]. assert (2 <= INR n) by (apply (le_INR 2); lia). lra. }
    destruct (laser_init_Inv _ _ _ _ _ _ _ _ H) as (g & q0 & q1 & q2 & A1 & _).
    destruct (proj1 (grid_init_ok_iff _ _ _ _ _ _) (ex_intro _ g A1)) as (_ & _ & _ & HN & _).
    assert (N : (2 <= n0)%nat /\ (2 <= n1)%nat /\ (2 <= nt)%nat).
    { destruct (HN 0%nat ltac:(cbn; lia)) as (? & [= <-] & ?). destruct (HN 1%nat ltac:(cbn; lia)) as (? & [= <-] & ?). destruct (HN 2%nat ltac:(cbn; lia)) as (? & [= <-] & ?). auto. }
    apply Rmult_le_pos.
    + apply Rmult_le_pos; [lra|]. apply Rlt_le. destruct N as (N0 & N1 & N2). pose proof (G 0%nat n0 ltac:(lia) N0). pose proof (G 1%nat n1 ltac:(lia) N1). pose proof (G 2%nat nt ltac:(lia) N2).
      apply Rmult_lt_0_compat; apply Rmult_lt_0_compat; assumption.
    + apply rsum3_nonneg. intros. apply Cnorm2_nonneg.
  - split; [exact Ha'|]. split; [exact Sa'|]. intros i j k Hi Hj Hk. rewrite (Hat i j k Hi Hj Hk), RtoC_mult.
    rewrite (shaped_ext nt _ _ h _ (fun q => Cmult (Cmult (RtoC s) (trans (coord (nth 0 lo 0) (nth 0 hi 0) n0 i) (coord (nth 1 lo 0) (nth 1 hi 0) n1 j)))
        (trace long (nth 2 lo 0) (nth 2 hi 0) nt q))).
    + rewrite shaped_scal, Eo. cbn [ndims_of Nat.sub]. ring.
    + intros q Hq. rewrite (Hv i j q Hi Hj Hq), Ev. unfold trace. ring.
Qed.

Theorem c96_rt S lo hi np n1 nt wl pol en long trans p M nte L h (K : nat) (A : Z -> R -> C) :
  combined_profile wl pol en long trans = Ok p -> energy_positive en ->
  laser_init Rt lo hi np p (Z.of_nat M) nte = Ok L -> nth_error np 0 = Some n1 -> nth_error np 1 = Some nt -> window_ok Rt lo hi ->
  (forall r theta, trans (r * cos theta) (r * sin theta) = recon (Datatypes.S K) (fun m => A m r) theta) ->
  (Z.of_nat K + Z.of_nat M <= match nte with None => 2 * Z.of_nat M - 1 | Some n => n end)%Z ->
  Forall colour_op h ->
  exists a c, 0 < c /\ snd (get_temporal_field (l_grid (lrun S L h))) = Ok a /\ shp a = [(2 * M - 1)%nat; n1; nt] /\
    forall m j k, (- Z.of_nat M < m < Z.of_nat M)%Z -> (j < n1)%nat -> (k < nt)%nat ->
      at3 a (mode_slot M m) j k = Cmult (RtoC c) (Cmult
        (if (Z.abs m <=? Z.of_nat K)%Z then A m (coord (nth 0 lo 0) (nth 0 hi 0) n1 j) else RtoC 0)
        (shaped nt (spacing (nth 1 lo 0) (nth 1 hi 0) nt) (2 * PI * c_light / wl) h (trace long (nth 1 lo 0) (nth 1 hi 0) nt) k)).
Proof.
  intros Hp HE H Hn1 Hnt HW HT HK Hh. destruct (combined_eval _ _ _ _ _ _ Hp) as (Ev & En & Eo).
  destruct (colour_run_t S h _ _ _ _ _ _ _ _ nt H HW Hnt Hh) as (c & m0 & m1 & a & a' & Hc & HI & HP & Ha & Sa & Ha' & Sa' & Hat).
  destruct HW as (HW & HW0). specialize (HW0 eq_refl).
  destruct (rt_modes lo hi np n1 nt p M nte L K (fun m r t => Cmult (A m r) (long t)) H Hn1 Hnt HW0 (HW 0%nat ltac:(cbn; lia)) (HW 1%nat ltac:(cbn; lia)))
    as (a0 & s & Ha0 & Sa0 & Hs & Hv & Hf).
  { rewrite En. apply energy_positive_ok, HE. }
  { intros r t theta. rewrite Ev, HT. symmetry. apply recon_scale. }
  { exact HK. }
  change (snd (get_temporal_field (l_grid L))) with (tread (l_grid L)) in Ha0. rewrite Ha in Ha0. injection Ha0 as <-.
  rewrite Sa in Sa0. injection Sa0 as Z0 Z1. subst m0 m1.
  exists a', (c * s). split.
  - apply Rmult_lt_0_compat; [exact Hc|]. rewrite En in Hf. apply (efactor_pos _ _ _ HE) in Hf; [exact Hf|].
    unfold E_rt. pose proof eps0_pos. pose proof c_light_pos. pose proof PI_RGT_0.
    destruct (laser_init_Inv _ _ _ _ _ _ _ _ H) as (g & q0 & q1 & q2 & A1 & _).
    destruct (proj1 (grid_init_ok_iff _ _ _ _ _ _) (ex_intro _ g A1)) as (_ & _ & _ & HN & _).
    destruct (HN 0%nat ltac:(cbn; lia)) as (x0 & X0 & Y0). destruct (HN 1%nat ltac:(cbn; lia)) as (x1 & X1 & Y1).
    rewrite Hn1 in X0. injection X0 as <-. rewrite Hnt in X1. injection X1 as <-.
    assert (G : forall q n, (q < 2)%nat -> (2 <= n)%nat -> 0 < spacing (nth q lo 0) (nth q hi 0) n).
    { intros q n Hq Hn. unfold spacing. apply Rdiv_lt_0_compat; [pose proof (HW q Hq); lra|]. assert (2 <= INR n) by (apply (le_INR 2); lia). lra. }
    pose proof (G 0%nat n1 ltac:(lia) Y0) as G0. pose proof (G 1%nat nt ltac:(lia) Y1) as G1.
    apply Rmult_le_pos; [lra|]. apply rsum3_nonneg. intros i j k _ Hj _.
    assert (0 <= coord (nth 0 lo 0) (nth 0 hi 0) n1 j).
    { unfold coord. fold (spacing (nth 0 lo 0) (nth 0 hi 0) n1). pose proof (pos_INR j). nra. }
    apply Rmult_le_pos; [|apply Cnorm2_nonneg].
    assert (0 <= c_light * spacing (nth 1 lo 0) (nth 1 hi 0) nt) by (apply Rmult_le_pos; lra).
    apply Rmult_le_pos; [|assumption]. apply Rmult_le_pos; [|lra]. apply Rmult_le_pos; [lra|assumption].
  - split; [exact Ha'|]. split; [exact Sa'|]. intros m j k Hm Hj Hk.
    assert (Hslot : (mode_slot M m < 2 * M - 1)%nat) by (unfold mode_slot; destruct (Z.leb_spec 0 m); lia).
    rewrite (Hat _ j k Hslot Hj Hk), RtoC_mult.
    set (B := if (Z.abs m <=? Z.of_nat K)%Z then A m (coord (nth 0 lo 0) (nth 0 hi 0) n1 j) else RtoC 0).
    rewrite (shaped_ext nt _ _ h _ (fun q => Cmult (Cmult (RtoC s) B) (trace long (nth 1 lo 0) (nth 1 hi 0) nt q))).
    + rewrite shaped_scal, Eo. cbn [ndims_of Nat.sub]. ring.
    + intros q Hq. rewrite (Hv m j q Hm Hj Hq). unfold trace, B. destruct (Z.abs m <=? Z.of_nat K)%Z; ring.
Qed.

(** ** The duration *)
Lemma init_lin_sep d g nm nte trans long i j k : (d = Rt \/ d = Xyt) ->
  init_lin d g nm nte (fun x y t => Cmult (trans x y) (long t)) i j k =
  Cmult (init_lin d g nm nte (fun x y _ => trans x y) i j 0) (long (axis_at g (ndims_of d - 1) k)).
Proof.
  intros [-> | ->]; unfold init_lin; cbn [ndims_of Nat.sub]; [|reflexivity]. cbn zeta.
  rewrite Cmult_comm, <- ifft1_scal. apply ifft1_ext. intros q _. ring.
Qed.
Lemma c96_dur S d lo hi np nt wl pol en long trans p nm nte L h :
  combined_profile wl pol en long trans = Ok p ->
  laser_init d lo hi np p nm nte = Ok L -> nth_error np (ndims_of d - 1) = Some nt -> window_ok d lo hi -> Forall colour_op h ->
  snd (compute_laser_energy d (l_grid L)) <> Ok 0 ->
  snd (get_duration d (l_grid (lrun S L h))) =
  weighted_std nt (coord (nth (ndims_of d - 1) lo 0) (nth (ndims_of d - 1) hi 0) nt)
    (fun k => Cnorm2 (shaped nt (spacing (nth (ndims_of d - 1) lo 0) (nth (ndims_of d - 1) hi 0) nt) (2 * PI * c_light / wl) h
                        (trace long (nth (ndims_of d - 1) lo 0) (nth (ndims_of d - 1) hi 0) nt) k)).
Proof.
  intros Hp H Hnt HW Hh HE. destruct (combined_eval _ _ _ _ _ _ Hp) as (Ev & En & Eo).
  destruct (colour_run_t S h _ _ _ _ _ _ _ _ nt H HW Hnt Hh) as (c & n0 & n1 & a & a' & Hc & HI & HP & Ha & Sa & Ha' & Sa' & Hat).
  destruct (laser_init_Inv _ _ _ _ _ _ _ _ H) as (g & q0 & q1 & q2 & A1 & A2 & A3 & _).
  assert (Hd : d = Rt \/ d = Xyt) by (rewrite <- A3; apply (i_dim _ _ _ _ HI)).
  assert (Hq : (ndims_of d - 1 < ndims_of d)%nat) by (destruct Hd as [-> | ->]; cbn; lia).
  destruct (init_field_full _ _ _ _ _ _ _ _ H) as (g2 & b & B1 & B2 & _ & B4). rewrite A1 in B1. injection B1 as <-. rewrite Ha in B2. injection B2 as <-.
  set (s := norm_fac (p_energy p) (energy_of d g (init_arr d g p nm nte))) in *.
  set (T := fun i j => init_lin d g nm nte (fun x y _ => trans x y) i j 0).
  set (tlo := nth (ndims_of d - 1) lo 0) in *. set (thi := nth (ndims_of d - 1) hi 0) in *.
  assert (Hv : forall i j k, (k < nt)%nat -> at3 a i j k = Cmult (Cmult (RtoC s) (T i j)) (trace long tlo thi nt k)).
  { intros i j k Hk. rewrite B4, init_arr_lin, Ev, init_lin_sep by exact Hd. unfold trace.
    rewrite (axis_coord _ _ _ _ _ _ _ _ _ _ A1 Hq Hnt Hk). fold s; unfold T; rewrite Cmult_assoc; reflexivity. }
  set (ell := shaped nt (spacing tlo thi nt) (2 * PI * c_light / wl) h (trace long tlo thi nt)).
  assert (Hv' : forall i j k, (i < n0)%nat -> (j < n1)%nat -> (k < nt)%nat -> at3 a' i j k = Cmult (Cmult (RtoC (c * s)) (T i j)) (ell k)).
  { intros i j k Hi Hj Hk. rewrite (Hat i j k Hi Hj Hk), (shaped_ext nt _ _ h _ (fun q => Cmult (Cmult (RtoC s) (T i j)) (trace long tlo thi nt q))).
    - rewrite shaped_scal, Eo, RtoC_mult. fold ell. ring.
    - intros q Hqq. apply Hv, Hqq. }
  set (V := fun j => cell_volume d (l_grid L) j).
  set (kap := rsum n0 (fun i => rsum n1 (fun j => V j * Cnorm2 (Cmult (RtoC s) (T i j))))).
  assert (Hk0 : kap <> 0).
  { intros Z. apply HE. destruct (compute_energy_eq d (l_grid L) a Ha) as (-> & _). f_equal. rewrite energy_of_eq.
    replace (rsum3 _ _ _ _) with (kap * rsum nt (fun k => Cnorm2 (trace long tlo thi nt k))); [rewrite Z; ring|].
    unfold dim0, dim1, dim2. rewrite Sa. cbn [nth]. unfold rsum3, kap. rewrite Rmult_comm, <- rsum_scal_l. apply rsum_ext. intros i Hi. rewrite <- rsum_scal_l.
    apply rsum_ext. intros j Hj. rewrite (rsum_ext nt (fun k => cell_volume d (l_grid L) j * Cnorm2 (at3 a i j k)) (fun k => V j * Cnorm2 (Cmult (RtoC s) (T i j)) * Cnorm2 (trace long tlo thi nt k))).
    - rewrite rsum_scal_l. ring.
    - intros k Hk. rewrite Hv, (Cnorm2_mult (Cmult (RtoC s) (T i j))) by exact Hk. unfold V. ring. }
  destruct (pa_meta _ _ _ _ _ _ HP) as (_ & _ & _ & M4 & M5 & _). rewrite (shift_0 _ _ _ _ _ (i_shape _ _ _ _ HI)) in M4, M5.
  rewrite (duration_eq d _ a' Ha').
  replace (weighted_std nt (coord tlo thi nt) (fun k => Cnorm2 (ell k)))
    with (weighted_std nt (fun k => 1 * coord tlo thi nt k + 0) (fun k => (c ^ 2 * kap) * Cnorm2 (ell k))).
  - unfold dim2 at 1. rewrite Sa'. cbn [nth]. apply weighted_std_ext; intros k Hk.
    + pose proof (axis_coord _ _ _ _ _ _ _ _ _ _ A1 Hq Hnt Hk) as AC. fold tlo thi in AC. rewrite <- AC. unfold axis_at, time_axis. rewrite M4.
      destruct A2 as (_ & _ & _ & A24 & _). rewrite A24, last_nth.
      destruct (grid_init_axes _ _ _ _ _ _ _ A1) as (_ & _ & La & _). rewrite La. ring.
    + unfold duration_weight, dim0, dim1. rewrite Sa'. cbn [nth].
      transitivity (c ^ 2 * Cnorm2 (ell k) * kap); [|ring]. unfold kap. rewrite <- rsum_scal_l. apply rsum_ext. intros i Hi. rewrite <- rsum_scal_l. apply rsum_ext. intros j Hj.
      rewrite (Hv' i j k Hi Hj Hk), Cmod_sq, !Cnorm2_mult. rewrite RtoC_mult, Cnorm2_mult.
      replace (cell_volume d (l_grid (lrun S L h)) j) with (V j) by (unfold V, cell_volume, cell_volume_xyt, cell_volume_rt; rewrite M4, M5; reflexivity).
      replace (Cnorm2 (RtoC c)) with (c ^ 2) by (unfold Cnorm2, RtoC; cbn; ring). ring.
  - rewrite weighted_std_affine; [|apply Rmult_integral_contrapositive; split; [apply pow_nonzero; lra|exact Hk0]|lra].
    destruct (weighted_std nt _ _); cbn [bind]; [rewrite Rmult_1_l|]; reflexivity.
Qed.
Theorem c96_duration S S' wl pol pol' en en' long trans trans' p p' d d' lo hi lo' hi' np np' nm nm' nte nte' nt L L' h :
  combined_profile wl pol en long trans = Ok p -> combined_profile wl pol' en' long trans' = Ok p' ->
  laser_init d lo hi np p nm nte = Ok L -> laser_init d' lo' hi' np' p' nm' nte' = Ok L' ->
  window_ok d lo hi -> window_ok d' lo' hi' ->
  nth_error np (ndims_of d - 1) = Some nt -> nth_error np' (ndims_of d' - 1) = Some nt ->
  nth (ndims_of d - 1) lo 0 = nth (ndims_of d' - 1) lo' 0 -> nth (ndims_of d - 1) hi 0 = nth (ndims_of d' - 1) hi' 0 ->
  snd (compute_laser_energy d (l_grid L)) <> Ok 0 -> snd (compute_laser_energy d' (l_grid L')) <> Ok 0 ->
  Forall colour_op h ->
  snd (get_duration d (l_grid (lrun S L h))) = snd (get_duration d' (l_grid (lrun S' L' h))).
Proof.
  intros Hp Hp' H H' HW HW' Hn Hn' E1 E2 HE HE' Hh.
  rewrite (c96_dur S d lo hi np nt wl pol en long trans p nm nte L h) by assumption.
  rewrite (c96_dur S' d' lo' hi' np' nt wl pol' en' long trans' p' nm' nte' L' h) by assumption.
  rewrite E1, E2. reflexivity.
Qed.

(** ** The amplitudes of the two parts do not matter *)
Theorem c96_amplitude wl pol pol' E long long' trans trans' p p' (u v : C) d lo hi np nm nte L L' :
  combined_profile wl pol (Some E) long trans = Ok p -> combined_profile wl pol' (Some E) long' trans' = Ok p' ->
  (forall x y, trans' x y = Cmult u (trans x y)) -> (forall t, long' t = Cmult v (long t)) -> u <> RtoC 0 -> v <> RtoC 0 -> 0 <= E ->
  window_ok d lo hi ->
  laser_init d lo hi np p nm nte = Ok L -> laser_init d lo hi np p' nm nte = Ok L' -> snd (compute_laser_energy d (l_grid L)) <> Ok 0 ->
  g_axes (l_grid L') = g_axes (l_grid L) /\
  exists a a', snd (get_temporal_field (l_grid L)) = Ok a /\ snd (get_temporal_field (l_grid L')) = Ok a' /\ shp a' = shp a /\
    forall i j k, inb a i j k -> at3 a' i j k = Cmult (Cdiv (Cmult u v) (RtoC (Cmod (Cmult u v)))) (at3 a i j k).
Proof.
  intros Hp Hp' HT HL Hu Hv HE (HW1 & HW2) H H' Hen.
  destruct (combined_eval _ _ _ _ _ _ Hp) as (Ev & En & Eo). destruct (combined_eval _ _ _ _ _ _ Hp') as (Ev' & En' & Eo').
  destruct (laser_init_Inv _ _ _ _ _ _ _ _ H) as (g & n0 & n1 & nt & A1 & A2 & A3 & _ & _ & _ & _ & _ & _ & A10).
  destruct (laser_init_Inv _ _ _ _ _ _ _ _ H') as (g' & n0' & n1' & nt' & A1' & A2' & _ & _ & _ & _ & _ & _ & _ & A10'). rewrite A1 in A1'. injection A1' as <-.
  destruct (init_field_full _ _ _ _ _ _ _ _ H) as (g2 & a & B1 & B2 & B3 & B4). rewrite A1 in B1. injection B1 as <-.
  destruct (init_field_full _ _ _ _ _ _ _ _ H') as (g3 & a' & C1 & C2 & C3 & C4). rewrite A1 in C1. injection C1 as <-.
  split. { destruct A2 as (_ & _ & _ & Z & _), A2' as (_ & _ & _ & Z' & _). congruence. }
  exists a, a'. split; [exact B2|]. split; [exact C2|].
  destruct (tread_shape _ _ (proj1 (i_coh _ _ _ _ A10)) B2) as (Sa & _). destruct (tread_shape _ _ (proj1 (i_coh _ _ _ _ A10')) C2) as (Sa' & _).
  assert (Sg : g_shape (l_grid L') = g_shape (l_grid L)).
  { destruct A2 as (_ & _ & _ & _ & _ & _ & _ & Z & _), A2' as (_ & _ & _ & _ & _ & _ & _ & Z' & _). congruence. }
  split; [congruence|]. intros i j k Hb. clear Hb. rewrite B4, C4.
  set (w := Cmult u v). assert (Hw : w <> RtoC 0) by (apply Cmult_neq_0; assumption).
  assert (Harr : forall i j k, at3 (init_arr d g p' nm nte) i j k = Cmult w (at3 (init_arr d g p nm nte) i j k)).
  { intros i' j' k'. rewrite !init_arr_lin, Ev, Ev'.
    rewrite (init_lin_comb d g nm nte w (RtoC 0) _ (fun x y t => Cmult (trans x y) (long t)) (fun x y t => Cmult (trans x y) (long t))).
    - ring.
    - intros x y t. rewrite HT, HL. unfold w. ring. }
  set (e := energy_of d g (init_arr d g p nm nte)) in *.
  assert (Hee : energy_of d g (init_arr d g p' nm nte) = Cmod w ^ 2 * e).
  { unfold e. rewrite !energy_of_eq. unfold dim0, dim1, dim2. rewrite B3, C3.
    rewrite (rsum3_ext _ _ _ _ (fun i j k => Cnorm2 w * (cell_volume d g j * Cnorm2 (at3 (init_arr d g p nm nte) i j k)))).
    - rewrite rsum3_scal, Cmod_sq. ring.
    - intros. rewrite Harr, Cnorm2_mult. ring. }
  assert (Hvol : forall n, vol_nonneg d g n).
  { intros n. apply pc_vol; [rewrite <- A3; apply (i_dim _ _ _ _ A10)|]. eapply grid_cells; eassumption. }
  assert (He0 : 0 <= e) by (apply energy_nonneg, Hvol).
  assert (Hne : e <> 0).
  { intros Z. apply Hen. destruct (compute_energy_eq d (l_grid L) a B2) as (-> & _). f_equal. rewrite (energy_of_meta d g _ _ A2).
    unfold e in Z. rewrite energy_of_eq in Z |- *. unfold dim0, dim1, dim2 in *. rewrite B3 in Z. rewrite Sa.
    assert (Sg2 : g_shape (l_grid L) = g_shape g) by (destruct A2 as (_ & _ & _ & _ & _ & _ & _ & Z' & _); exact Z'). rewrite Sg2.
    set (f := norm_fac (p_energy p) e).
    rewrite (rsum3_ext _ _ _ _ (fun i j k => f ^ 2 * (cell_volume d g j * Cnorm2 (at3 (init_arr d g p nm nte) i j k)))).
    - rewrite rsum3_scal, <- Rmult_assoc, (Rmult_comm _ (f ^ 2)), Rmult_assoc, Z. ring.
    - intros. rewrite B4, Cnorm2_mult. fold f. replace (Cnorm2 (RtoC f)) with (f ^ 2) by (unfold Cnorm2, RtoC; cbn; ring). ring. }
  assert (Hm : 0 < Cmod w) by (apply Cmod_gt_0; exact Hw).
  rewrite Harr, Hee, En, En'. unfold norm_fac.
  destruct (Reqb e 0) eqn:X1; [apply Reqb_true in X1; contradiction|].
  destruct (Reqb (Cmod w ^ 2 * e) 0) eqn:X2; [apply Reqb_true in X2; assert (0 < Cmod w ^ 2 * e) by (apply Rmult_lt_0_compat; [apply pow_lt; exact Hm|lra]); lra|].
  replace (E / (Cmod w ^ 2 * e)) with ((/ Cmod w) ^ 2 * (E / e)) by (field; split; lra).
  rewrite sqrt_mult; [|apply pow2_ge_0|apply Rmult_le_pos; [exact HE|apply Rlt_le, Rinv_0_lt_compat; lra]].
  rewrite sqrt_pow2 by (apply Rlt_le, Rinv_0_lt_compat; exact Hm). rewrite RtoC_mult, RtoC_inv by lra. unfold Cdiv. ring.
Qed.
