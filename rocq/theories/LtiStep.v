From Verif Require Import PyBase CSum NpFFT FFTProofs NumPy GridModel GridSpec GridProofs GridObs EnergyModel LaserSpec LaserModel LaserOps LaserInv LaserStepProofs PropagateProofs HistoryProofs LtiSpec LtiProofs.
Open Scope R_scope.

Lemma same_meta_sym g g' : same_meta g g' -> same_meta g' g.
Proof. unfold same_meta; intuition congruence. Qed.

(** What one call does to the spectral field, by kernels. *)
Definition step_kernel (S : solvers) (o : lop) (L : laser) (n0 n1 m0 m1 : nat) (nt : nat) (T : kernel) : Prop :=
  forall D L', Par D L L' n0 n1 nt ->
    Par D (fst (lstep S L o)) (fst (lstep S L' o)) m0 m1 nt /\
    (~ is_write o -> snd (lstep S L' o) = snd (lstep S L o)) /\
    forall s s', sread (l_grid L') = Ok s -> sread (l_grid (fst (lstep S L' o))) = Ok s' ->
      forall i j k, (i < m0)%nat -> (j < m1)%nat -> (k < nt)%nat -> at3 s' i j k = kapply n0 n1 T (at3 s) i j k.

(** Parallelism after a call that keeps the grid. *)
Lemma Par_plain S D L L' n0 n1 nt o : Par D L L' n0 n1 nt -> (l_dim L = Xyt \/ no_resample o) ->
  (~ is_write o -> snd (lstep S L' o) = snd (lstep S L o)) ->
  l_prop (fst (lstep S L' o)) = l_prop (fst (lstep S L o)) ->
  Par D (fst (lstep S L o)) (fst (lstep S L' o)) n0 n1 nt.
Proof.
  intros HP Ho Hout Hprop. pose proof HP as [H1 H2 H3 H4 H5 H6 H7].
  destruct (step_plain S L n0 n1 nt o H1 Ho) as (A1 & A2 & A3 & A4 & A5).
  destruct (step_plain S L' n0 n1 nt o H2) as (B1 & B2 & B3 & B4 & B5); [rewrite H3; exact Ho|].
  assert (Hd : step_dist S L' o = step_dist S L o).
  { unfold step_dist. destruct o; try reflexivity. rewrite Hout by (intros H; exact H). reflexivity. }
  constructor; try assumption; try congruence.
  rewrite Hd in B2. set (a := step_dist S L o) in *.
  eapply same_meta_trans; [apply shift_same_meta, same_meta_sym, A2|].
  rewrite shift_shift, Rplus_comm, <- shift_shift.
  eapply same_meta_trans; [apply shift_same_meta, H7|exact B2].
Qed.

Lemma absorb_par D L L' n0 n1 nt nr : Par D L L' n0 n1 nt ->
  snd (absorb_boundary (l_dim L) nr (l_grid L)) = absorb_code (l_dim L) nr n0 n1 /\
  snd (absorb_boundary (l_dim L') nr (l_grid L')) = absorb_code (l_dim L) nr n0 n1.
Proof.
  intros [H1 H2 H3 H4 H5 H6 H7].
  assert (Q : forall K, Inv K n0 n1 nt -> snd (absorb_boundary (l_dim K) nr (l_grid K)) = absorb_code (l_dim K) nr n0 n1).
  { intros K HK. pose proof (i_coh _ _ _ _ HK) as HG.
    destruct (proj1 (tread_sread_iff _ (proj1 HG)) (i_read _ _ _ _ HK)) as (s & Hs).
    apply (absorb_form _ nr _ n0 n1 nt s HG (gs_shape _ _ _ _ _ (i_shape _ _ _ _ HK)) Hs). }
  split; [apply Q, H1|rewrite (Q L' H2), H3; reflexivity].
Qed.

Lemma step_propagate_plain S L n0 n1 nt dist nr ng b : linear_solver S -> Inv L n0 n1 nt -> (l_dim L = Xyt \/ ng = None) ->
  exists T, (l_dim L = Rt -> mode_diagonal T) /\ step_kernel S (OpPropagate dist nr ng b) L n0 n1 n0 n1 nt T.
Proof.
  intros HS HI Hng.
  assert (Ho : l_dim L = Xyt \/ no_resample (OpPropagate dist nr ng b)).
  { destruct Hng as [?| ->]; [left; assumption|right; exact I]. }
  destruct (absorb_code (l_dim L) nr n0 n1) as [[]|e] eqn:Ecode.
  - exists (kmul (fun _ _ k => time_phase (l_omega L) (p_omega0 (l_prof L)) dist k)
       (kcomp n0 n1 (kprop S (used_prop L b) dist) (kmul (fun i j _ => absorb_fac (l_dim L) nr n0 n1 i j) kid))).
    destruct (used_is_fresh L n0 n1 nt b HI) as (b' & Hb').
    split.
    + intros Ed. apply kmul_diag, kcomp_diag; [|apply kmul_diag, kid_diag].
      rewrite Hb'. unfold fresh_prop. rewrite Ed. apply kprop_diag.
    + intros D L' HP. destruct (absorb_par _ L L' n0 n1 nt nr HP) as (Q1 & Q2). rewrite Ecode in Q1, Q2.
      assert (Hform : forall D1 K, Par D1 L K n0 n1 nt -> exists g1 s1, lstep S K (OpPropagate dist nr ng b) =
          (set_grid (set_prop K (Some (used_prop K b))) (shift_domain g1 dist), Ok tt) /\
          sread g1 = Ok (apply_phase (l_omega K) (p_omega0 (l_prof K)) dist (stepped S (used_prop K b) s1 dist)) /\
          forall s, sread (l_grid K) = Ok s -> forall i j k, (i < n0)%nat -> (j < n1)%nat -> (k < nt)%nat ->
            at3 s1 i j k = Cmult (absorb_fac (l_dim L) nr n0 n1 i j) (at3 s i j k)).
      { intros D' K HK. destruct HK as [K1 K2 K3 K4 K5 K6 K7].
        pose proof (i_coh _ _ _ _ K2) as HG.
        destruct (proj1 (tread_sread_iff _ (proj1 HG)) (i_read _ _ _ _ K2)) as (s & Hs).
        destruct (absorb_form (l_dim K) nr _ n0 n1 nt s HG (gs_shape _ _ _ _ _ (i_shape _ _ _ _ K2)) Hs) as (C1 & C2).
        rewrite K3 in *. rewrite Ecode in C1, C2. destruct (C2 eq_refl) as (s1 & Hs1 & Hat).
        destruct (propagate_plain S K n0 n1 nt dist nr ng b s1 K2) as (g1 & E1 & _ & _ & E4 & _).
        - rewrite K3; exact Hng.
        - rewrite K3; exact C1.
        - rewrite K3; exact Hs1.
        - exists g1, s1. split; [exact E1|]. split; [exact E4|]. intros s0 Hs0. rewrite Hs in Hs0. injection Hs0 as <-. exact Hat. }
      destruct (Hform 0 L (Par_refl _ _ _ _ HI)) as (gL & sL & EL & _).
      destruct (Hform D L' HP) as (gL' & sL' & EL' & Hsp & Hat).
      assert (Hout : snd (lstep S L' (OpPropagate dist nr ng b)) = snd (lstep S L (OpPropagate dist nr ng b)))
        by (rewrite EL, EL'; reflexivity).
      split; [|split; [intros _; exact Hout|]].
      * apply Par_plain; try assumption; [intros _; exact Hout|]. rewrite EL, EL'. cbn [fst l_prop set_grid set_prop].
        rewrite (Par_used _ _ _ _ _ _ b HP). reflexivity.
      * intros s s' Hs Hs' i j k Hi Hj Hk. rewrite EL' in Hs'. cbn [fst l_grid set_grid] in Hs'.
        rewrite sread_shift, Hsp in Hs'. injection Hs' as <-. cbn [apply_phase at3].
        rewrite (Par_used _ _ _ _ _ _ b HP), Hb'.
        rewrite (stepped_kernel S L n0 n1 nt b') by assumption.
        rewrite (pa_om _ _ _ _ _ _ HP), (pa_w0 _ _ _ _ _ _ HP).
        rewrite kmul_apply, Cmult_comm. f_equal. rewrite kcomp_apply. apply kapply_ext. intros i' j' Hi' Hj'.
        rewrite (Hat s Hs) by assumption. rewrite kmul_apply, kid_apply by assumption. reflexivity.
  - exists kid. split; [intros _; apply kid_diag|].
    intros D L' HP. destruct (absorb_par _ L L' n0 n1 nt nr HP) as (Q1 & Q2). rewrite Ecode in Q1, Q2.
    destruct (propagate_absorb_fail S L dist nr ng b e (i_coh _ _ _ _ HI) Q1) as (g & Eg & _ & _ & _ & Hsg).
    destruct (propagate_absorb_fail S L' dist nr ng b e (i_coh _ _ _ _ (pa_inv' _ _ _ _ _ _ HP)) Q2) as (g' & Eg' & _ & _ & _ & Hsg').
    assert (Hout : snd (lstep S L' (OpPropagate dist nr ng b)) = snd (lstep S L (OpPropagate dist nr ng b)))
      by (cbn [lstep]; rewrite Eg, Eg'; reflexivity).
    split; [|split; [intros _; exact Hout|]].
    + apply Par_plain; try assumption; [intros _; exact Hout|]. cbn [lstep]. rewrite Eg, Eg'. cbn [fst l_prop set_grid]. apply (pa_prop _ _ _ _ _ _ HP).
    + intros s s' Hs Hs' i j k Hi Hj Hk. cbn [lstep] in Hs'. rewrite Eg' in Hs'. cbn [fst l_grid set_grid] in Hs'.
      rewrite Hsg', Hs in Hs'. injection Hs' as <-. rewrite kid_apply by assumption. reflexivity.
Qed.

Lemma step_propagate_resample S L n0 n1 nt dist nr gn b : linear_solver S -> Inv L n0 n1 nt -> l_dim L = Rt -> user_grid gn ->
  snd (lstep S L (OpPropagate dist nr (Some gn) b)) = Ok tt ->
  exists m0 m1 T, mode_diagonal T /\ step_kernel S (OpPropagate dist nr (Some gn) b) L n0 n1 m0 m1 nt T.
Proof.
  intros HS HI Ed Hu Hok. destruct (user_grid_props gn Hu) as (HGn & m0 & m1 & mt & HSn).
  destruct (absorb_par _ L L n0 n1 nt nr (Par_refl _ _ _ _ HI)) as (Q1 & _).
  destruct (absorb_code (l_dim L) nr n0 n1) as [[]|e] eqn:Ecode.
  2: { cbn [lstep] in Hok. destruct (propagate_absorb_fail S L dist nr (Some gn) b e (i_coh _ _ _ _ HI) Q1) as (g & Eg & _). rewrite Eg in Hok. discriminate Hok. }
  assert (Hdims : mt = nt /\ (m0 <= n0)%nat).
  { pose proof (i_coh _ _ _ _ HI) as HG.
    destruct (proj1 (tread_sread_iff _ (proj1 HG)) (i_read _ _ _ _ HI)) as (s & Hs).
    destruct (absorb_form (l_dim L) nr _ n0 n1 nt s HG (gs_shape _ _ _ _ _ (i_shape _ _ _ _ HI)) Hs) as (C1 & C2).
    rewrite Ecode in C1, C2. destruct (C2 eq_refl) as (s1 & Hs1 & _).
    destruct (propagate_resample S L n0 n1 nt dist nr gn b s1 m0 m1 mt HI Ed HSn HGn C1 Hs1) as [(A & B & _)|[(_ & B)|(_ & _ & B)]];
      [auto| |]; cbn [lstep] in Hok; rewrite B in Hok; discriminate Hok. }
  destruct Hdims as (-> & Hm0).
  set (modes := match g_modes gn with Some m => m | None => [] end).
  set (ps := build_rt (nth 0 (g_axes (l_grid L)) []) (l_omega L) (Some (nth 0 (g_axes gn) [])) modes b).
  exists m0, m1, (kmul (fun _ _ k => time_phase (l_omega L) (p_omega0 (l_prof L)) dist k)
       (kcomp n0 n1 (kprop S (PropRt ps) dist) (kmul (fun i j _ => absorb_fac (l_dim L) nr n0 n1 i j) kid))).
  split. { apply kmul_diag, kcomp_diag; [apply kprop_diag|apply kmul_diag, kid_diag]. }
  intros D L' HP.
  assert (Hform : forall D1 K, Par D1 L K n0 n1 nt -> exists g1 s1, lstep S K (OpPropagate dist nr (Some gn) b) =
      (set_grid (set_prop K None) (shift_domain g1 dist), Ok tt) /\ CohG g1 /\
      same_meta (overwrite_time gn (l_grid K)) g1 /\
      sread g1 = Ok (apply_phase (l_omega K) (p_omega0 (l_prof K)) dist (mkArr [m0; m1; nt] Complex128 (step_mode S ps s1 dist))) /\
      (exists a, tread g1 = Ok a) /\
      forall s, sread (l_grid K) = Ok s -> forall i j k, (i < n0)%nat -> (j < n1)%nat -> (k < nt)%nat ->
        at3 s1 i j k = Cmult (absorb_fac (l_dim L) nr n0 n1 i j) (at3 s i j k)).
  { intros D' K HK. pose proof HK as [K1 K2 K3 K4 K5 K6 K7].
    pose proof (i_coh _ _ _ _ K2) as HG.
    destruct (proj1 (tread_sread_iff _ (proj1 HG)) (i_read _ _ _ _ K2)) as (s & Hs).
    destruct (absorb_form (l_dim K) nr _ n0 n1 nt s HG (gs_shape _ _ _ _ _ (i_shape _ _ _ _ K2)) Hs) as (C1 & C2).
    rewrite K3 in *. rewrite Ecode in C1, C2. destruct (C2 eq_refl) as (s1 & Hs1 & Hat).
    destruct (propagate_resample S K n0 n1 nt dist nr gn b s1 m0 m1 nt K2) as [(A & B & g1 & E1 & E2 & E3 & E4 & E5)|[(B & _)|(_ & B & _)]]; try assumption.
    - congruence.
    - rewrite K3; exact C1.
    - rewrite K3; exact Hs1.
    - exists g1, s1. split; [exact E1|]. split; [exact E2|]. split; [exact E3|]. split.
      + rewrite E4. unfold ps, modes. rewrite K4, (Par_axis _ L K n0 n1 nt 0 HK); [reflexivity|]. rewrite Ed. simpl. lia.
      + split; [eauto|]. intros s0 Hs0. rewrite Hs in Hs0. injection Hs0 as <-. exact Hat.
    - congruence.
    - lia. }
  destruct (Hform 0 L (Par_refl _ _ _ _ HI)) as (gL & sL & EL & CL & ML & _ & RL & _).
  destruct (Hform D L' HP) as (gL' & sL' & EL' & CL' & ML' & Hsp & RL' & Hat).
  pose proof HP as [P1 P2 P3 P4 P5 P6 P7].
  assert (HInv : forall K g1, Inv K n0 n1 nt -> l_dim K = Rt -> CohG g1 -> same_meta (overwrite_time gn (l_grid K)) g1 -> (exists a, tread g1 = Ok a) ->
     Inv (set_grid (set_prop K None) (shift_domain g1 dist)) m0 m1 nt).
  { intros K g1 HK EK HC HM HR. constructor; cbn [l_dim l_grid l_omega l_prop set_grid set_prop].
    - apply shift_GShape. rewrite EK. eapply GShape_meta; [exact HM|]. apply overwrite_GShape; [exact HSn|].
      apply (gs_tax _ _ _ _ _ (i_shape _ _ _ _ HK)).
    - apply shift_meta_Coh, HC.
    - left; exact EK.
    - apply (i_omega _ _ _ _ HK).
    - rewrite tread_shift. exact HR.
    - left; reflexivity. }
  split; [|split].
  - rewrite EL, EL'. cbn [fst]. constructor; cbn [l_dim l_grid l_omega l_prop l_prof set_grid set_prop]; try assumption; try reflexivity.
    + apply HInv; assumption.
    + apply HInv; try assumption. rewrite P3; exact Ed.
    +
      eapply same_meta_trans; [apply shift_same_meta, shift_same_meta, same_meta_sym, ML|].
      eapply same_meta_trans; [|apply shift_same_meta, ML'].
      rewrite shift_shift, Rplus_comm, <- shift_shift. apply shift_same_meta.
      destruct P7 as (Z1 & Z2 & Z3 & Z4 & _).
      unfold same_meta, overwrite_time, shift_domain, with_domain, time_axis, lastR in *.
      cbn [g_lo g_hi g_npoints g_axes g_dx g_nmodes g_modes g_shape g_isenv g_dtype] in *.
      rewrite Z1, Z2, Z4, !set_last_twice, !set_last_last. repeat split; reflexivity.
  - intros _. rewrite EL, EL'. reflexivity.
  - intros s s' Hs Hs' i j k Hi Hj Hk. rewrite EL' in Hs'. cbn [fst l_grid set_grid] in Hs'.
    rewrite sread_shift, Hsp in Hs'. injection Hs' as <-. cbn [apply_phase at3].
    rewrite P4, P5, kmul_apply, Cmult_comm. f_equal.
    destruct (gs_rt _ _ _ _ _ (i_shape _ _ _ _ HI) Ed) as (M & _ & _ & _ & _ & _ & Hr).
    destruct (gs_rt _ _ _ _ _ HSn eq_refl) as (M' & _ & _ & _ & _ & _ & Hr').
    unfold ps. rewrite (kprop_rt S _ _ _ _ _ sL' dist n0); try assumption.
    + rewrite Hr. rewrite kcomp_apply. apply kapply_ext. intros i' j' Hi' Hj'.
      rewrite (Hat s Hs) by assumption. rewrite kmul_apply, kid_apply by assumption. reflexivity.
    + rewrite (i_omega _ _ _ _ HI). exact Hk.
    + rewrite Hr'. exact Hj.
    + lia.
Qed.

Lemma step_optics S L n0 n1 nt e : Inv L n0 n1 nt ->
  exists T, mode_diagonal T /\ step_kernel S (OpOptics e) L n0 n1 n0 n1 nt T.
Proof.
  intros HI. exists (kmul (optic_factor L e) kid). split; [apply kmul_diag, kid_diag|]. intros D L' HP.
  assert (Hform : forall K, Inv K n0 n1 nt -> exists g' s s', lstep S K (OpOptics e) = (set_grid K g', Ok tt) /\
     sread (l_grid K) = Ok s /\ sread g' = Ok s' /\ forall i j k, at3 s' i j k = Cmult (at3 s i j k) (optic_factor K e i j k)).
  { intros K HK. pose proof (i_coh _ _ _ _ HK) as HG. destruct (i_read _ _ _ _ HK) as (a & Ha).
    destruct (tread_sread_ok _ _ (proj1 HG) Ha) as (s & Hs).
    destruct (apply_optics_spec K e a s HG Ha Hs) as (g' & s' & E1 & _ & _ & E4 & _ & _ & _ & E8).
    exists g', s, s'. auto. }
  destruct (Hform L HI) as (gL & sL & sL1 & EL & _).
  destruct (Hform L' (pa_inv' _ _ _ _ _ _ HP)) as (gL' & sL' & sL1' & EL' & R1 & R2 & R3).
  assert (Hout : snd (lstep S L' (OpOptics e)) = snd (lstep S L (OpOptics e))) by (rewrite EL, EL'; reflexivity).
  split; [|split; [intros _; exact Hout|]].
  - apply Par_plain; try assumption; [right; exact I|intros _; exact Hout|]. rewrite EL, EL'. cbn [fst l_prop set_grid]. apply (pa_prop _ _ _ _ _ _ HP).
  - intros s s' Hs Hs' i j k Hi Hj Hk. rewrite EL' in Hs'. cbn [fst l_grid set_grid] in Hs'.
    rewrite R2 in Hs'. injection Hs' as <-. rewrite R1 in Hs. injection Hs as <-. rewrite R3, kmul_apply, kid_apply by assumption.
    rewrite Cmult_comm. f_equal. unfold optic_factor. rewrite (pa_dim _ _ _ _ _ _ HP), (pa_om _ _ _ _ _ _ HP), (pa_w0 _ _ _ _ _ _ HP).
    unfold axis_at. destruct (i_dim _ _ _ _ HI) as [Ed|Ed]; rewrite Ed.
    + rewrite (Par_axis _ L L' n0 n1 nt 0 HP) by (rewrite Ed; simpl; lia). reflexivity.
    + rewrite (Par_axis _ L L' n0 n1 nt 0 HP), (Par_axis _ L L' n0 n1 nt 1 HP) by (rewrite Ed; simpl; lia). reflexivity.
Qed.

Lemma step_write S L n0 n1 nt w : Inv L n0 n1 nt -> step_kernel S (OpWrite w) L n0 n1 n0 n1 nt kid.
Proof.
  intros HI D L' HP.
  assert (Hform : forall K, l_prop (fst (lstep S K (OpWrite w))) = l_prop K /\ sread (l_grid (fst (lstep S K (OpWrite w)))) = sread (l_grid K)).
  { intros K. cbn [lstep]. unfold write_to_file. rewrite get_t_eq; cbn [fst snd].
    destruct (tread (l_grid K)) as [a|e]; [destruct (w _ _ _) as [u|e]|]; cbn [fst snd l_prop l_grid set_grid];
      (split; [reflexivity|apply sread_get_t]). }
  split; [|split].
  - apply Par_plain; try assumption; [right; exact I|intros H; destruct H; exact I|].
    rewrite (proj1 (Hform L)), (proj1 (Hform L')). apply (pa_prop _ _ _ _ _ _ HP).
  - intros H; destruct H; exact I.
  - intros s s' Hs Hs' i j k Hi Hj Hk. rewrite (proj2 (Hform L')), Hs in Hs'. injection Hs' as <-.
    rewrite kid_apply by assumption. reflexivity.
Qed.

Lemma lti_step S L n0 n1 nt o : linear_solver S -> Inv L n0 n1 nt -> linear_op o ->
  (no_resample o \/ snd (lstep S L o) = Ok tt) ->
  exists m0 m1 T, (l_dim L = Rt -> mode_diagonal T) /\ step_kernel S o L n0 n1 m0 m1 nt T.
Proof.
  intros HS HI Hl Hc. destruct o as [dist nr ng b|e|v k|w].
  - destruct (i_dim _ _ _ _ HI) as [Ed|Ed].
    + destruct ng as [gn|].
      * destruct Hc as [[]|Hok]. destruct (step_propagate_resample S L n0 n1 nt dist nr gn b HS HI Ed Hl Hok) as (m0 & m1 & T & H1 & H2).
        exists m0, m1, T. auto.
      * destruct (step_propagate_plain S L n0 n1 nt dist nr None b HS HI) as (T & H1 & H2); [auto|]. exists n0, n1, T. auto.
    + destruct (step_propagate_plain S L n0 n1 nt dist nr ng b HS HI) as (T & H1 & H2); [auto|]. exists n0, n1, T. auto.
  - destruct (step_optics S L n0 n1 nt e HI) as (T & H1 & H2). exists n0, n1, T. auto.
  - destruct Hl.
  - exists n0, n1, kid. split; [intros _; apply kid_diag|apply step_write, HI].
Qed.

(** ** Histories *)
Lemma lti_run S h : linear_solver S -> Forall linear_op h -> forall L n0 n1 nt, Inv L n0 n1 nt -> clean S L h ->
  exists m0 m1 T, (l_dim L = Rt -> mode_diagonal T) /\
    forall D L', Par D L L' n0 n1 nt ->
      Par D (lrun S L h) (lrun S L' h) m0 m1 nt /\ outcomes S L' h = outcomes S L h /\ clean S L' h /\
      forall s s', sread (l_grid L') = Ok s -> sread (l_grid (lrun S L' h)) = Ok s' ->
        forall i j k, (i < m0)%nat -> (j < m1)%nat -> (k < nt)%nat -> at3 s' i j k = kapply n0 n1 T (at3 s) i j k.
Proof.
  intros HS. induction h as [|o h IH]; intros Hl L n0 n1 nt HI Hc.
  - exists n0, n1, kid. split; [intros _; apply kid_diag|]. intros D L' HP. cbn [lrun outcomes clean].
    split; [exact HP|split; [reflexivity|split; [exact I|]]]. intros s s' Hs Hs' i j k Hi Hj Hk.
    rewrite Hs in Hs'. injection Hs' as <-. rewrite kid_apply by assumption. reflexivity.
  - inversion Hl as [|? ? Hl1 Hl2]; subst. destruct Hc as (Hc1 & Hc2).
    destruct (lti_step S L n0 n1 nt o HS HI Hl1 Hc1) as (m0 & m1 & T & HT & HK).
    destruct (HK 0 L (Par_refl _ _ _ _ HI)) as (P0 & _ & _).
    destruct (IH Hl2 (fst (lstep S L o)) m0 m1 nt (pa_inv _ _ _ _ _ _ P0) Hc2) as (q0 & q1 & U & HU & HR).
    exists q0, q1, (kcomp m0 m1 U T).
    assert (Hd : l_dim (fst (lstep S L o)) = l_dim L).
    { destruct (i_dim _ _ _ _ HI) as [Ed|Ed].
      - destruct Hc1 as [Hn|Hok].
        + apply (step_plain S L n0 n1 nt o HI (or_intror Hn)).
        + destruct (step_ok_inv S L n0 n1 nt o HI) as (? & ? & _ & _ & Hd & _); [|exact Hok|exact Hd].
          destruct o; try exact I; exact Hl1.
      - apply (step_plain S L n0 n1 nt o HI (or_introl Ed)). }
    split. { intros Ed. apply kcomp_diag; [apply HU; rewrite Hd; exact Ed|apply HT, Ed]. }
    intros D L' HP. destruct (HK D L' HP) as (P1 & P2 & P3).
    destruct (HR D _ P1) as (R1 & R2 & R3 & R4). cbn [lrun outcomes clean].
    split; [exact R1|]. split; [|split].
    + rewrite R2. destruct o; try reflexivity; rewrite P2 by (intros H; exact H); reflexivity.
    + split; [|exact R3]. destruct Hc1 as [Hn|Hok]; [left; exact Hn|].
      destruct o; try (left; exact I). right. rewrite P2 by (intros H; exact H). exact Hok.
    + intros s s' Hs Hs' i j k Hi Hj Hk.
      pose proof (pa_inv' _ _ _ _ _ _ P1) as I1. pose proof (i_coh _ _ _ _ I1) as G1.
      destruct (proj1 (tread_sread_iff _ (proj1 G1)) (i_read _ _ _ _ I1)) as (s1 & Hs1).
      rewrite (R4 s1 s' Hs1 Hs' i j k) by assumption. rewrite kcomp_apply. apply kapply_ext. intros i' j' Hi' Hj'.
      apply (P3 s s1 Hs Hs1); assumption.
Qed.
