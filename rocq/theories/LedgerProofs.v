From Verif Require Import PyBase CSum NpFFT FFTProofs NumPy GridModel GridSpec GridProofs GridObs EnergyModel EnergyProofs LaserSpec LaserModel LaserOps SolverSpec LaserInv LaserStepProofs PropagateProofs HistoryProofs LaserInitProofs OpticsProofs OpticsProofs2 PropLaws ResampleProofs LtiSpec LtiProofs LtiStep LtiMain LtiNorm LedgerSpec.
Open Scope R_scope.

Lemma fp_ext d g g' s s' k n0 n1 nt : shp s = [n0; n1; nt] -> shp s' = [n0; n1; nt] ->
  (d = Rt -> forall j, axis_at g' 0 j = axis_at g 0 j) ->
  (forall i j, (i < n0)%nat -> (j < n1)%nat -> Cnorm2 (at3 s' i j k) = Cnorm2 (at3 s i j k)) -> freq_power d g' s' k = freq_power d g s k.
Proof.
  intros S1 S2 Ha H. unfold freq_power, dim0, dim1. rewrite S1, S2. cbn [nth]. apply rsum_ext; intros i Hi. apply rsum_ext; intros j Hj.
  rewrite H by assumption. f_equal. destruct d; try reflexivity. apply Ha; reflexivity.
Qed.

(** One solver step keeps the energy at every frequency. *)
Lemma stepped_power S L n0 n1 nt b s d k : Inv L n0 n1 nt -> unitary S -> shp s = [n0;n1;nt] -> (k < nt)%nat ->
  freq_power (l_dim L) (l_grid L) (stepped S (fresh_prop L b) s d) k = freq_power (l_dim L) (l_grid L) s k.
Proof.
  intros HI (H1 & H2) Hsh Hk. unfold freq_power, dim0, dim1. cbn [stepped shp]. rewrite Hsh. cbn [nth]. destruct (i_dim _ _ _ _ HI) as [Hd|Hd]; rewrite Hd.
  - destruct (fresh_rt L n0 n1 nt b HI Hd) as (ps & -> & Hps).
    apply rsum_ext; intros i Hi. destruct (Hps i Hi) as (p & Ep & Hn & Lk & Lr & Hax).
    unfold stepped, step_mode; cbn [at3]. rewrite Ep.
    assert (Hv : forall j, axis_at (l_grid L) 0 j = nth j (rp_r p) 0) by (intros j; unfold axis_at, vget; rewrite <- Hax; reflexivity).
    rewrite (rsum_ext n1 _ (fun j => nth j (rp_r p) 0 * Cnorm2 (step_rt S p (fun kk jj => at3 s i jj kk) d k j))) by (intros j _; rewrite Hv; reflexivity).
    rewrite <- Lr, H1 by (assumption || lia). apply rsum_ext; intros j _. rewrite Hv. reflexivity.
  - destruct (fresh_xyt L n0 n1 nt b HI Hd) as (p & -> & Lk & Lx & Ly).
    unfold stepped; cbn [at3].
    pose proof (H2 p (fun kk ii jj => at3 s ii jj kk) d k ltac:(lia)) as HX. rewrite Lx, Ly in HX.
    rewrite (rsum_ext n0 _ (fun i => rsum n1 (fun j => Cnorm2 (step_xyt S p (fun kk ii jj => at3 s ii jj kk) d k i j)))) by (intros i _; apply rsum_ext; intros j _; ring).
    rewrite HX. apply rsum_ext; intros i _. apply rsum_ext; intros j _. ring.
Qed.

Lemma axis_shift d g D n0 n1 nt j : GShape d g n0 n1 nt -> d = Rt -> axis_at (shift_domain g D) 0 j = axis_at g 0 j.
Proof.
  intros GS ->. unfold axis_at. cbn [shift_domain with_domain g_axes]. rewrite set_last_nth; [reflexivity|]. rewrite (gs_axes _ _ _ _ _ GS). simpl. lia.
Qed.
Lemma axis_meta g g' j : same_meta g g' -> axis_at g' 0 j = axis_at g 0 j.
Proof. intros (_ & _ & _ & Z & _). unfold axis_at. rewrite Z. reflexivity. Qed.

(** propagate: the layer acts, nothing else changes the energy of a frequency. *)
Lemma propagate_power S L n0 n1 nt dist nr b s s' k : Inv L n0 n1 nt -> unitary S ->
  sread (l_grid L) = Ok s -> sread (l_grid (fst (lstep S L (OpPropagate dist nr None b)))) = Ok s' -> (k < nt)%nat ->
  exists F, (forall i j, 0 <= F i j <= 1) /\ (nr = None -> forall i j, F i j = 1) /\
    (nr = Some PyOther \/ (exists z, nr = Some (PyInt z) /\ (z <= 0)%Z) -> forall i j, F i j = 1) /\
    freq_power (l_dim L) (l_grid (fst (lstep S L (OpPropagate dist nr None b)))) s' k =
    rsum n0 (fun i => rsum n1 (fun j => F i j * (match l_dim L with Rt => axis_at (l_grid L) 0 j | _ => 1 end * Cnorm2 (at3 s i j k)))).
Proof.
  intros HI HU Hs Hs' Hk. pose proof (i_coh _ _ _ _ HI) as HG. pose proof (gs_shape _ _ _ _ _ (i_shape _ _ _ _ HI)) as Hsh.
  destruct (sread_shape _ _ (proj1 HG) Hs) as (Ss & _). rewrite Hsh in Ss.
  destruct (absorb_form (l_dim L) nr _ n0 n1 nt s HG Hsh Hs) as (C1 & C2).
  destruct (step_plain S L n0 n1 nt (OpPropagate dist nr None b) HI (or_intror I)) as (HI1 & HM & Hd1 & _ & _).
  assert (Ss' : shp s' = [n0; n1; nt]).
  { destruct (sread_shape _ _ (proj1 (i_coh _ _ _ _ HI1)) Hs') as (E & _). rewrite E. apply (gs_shape _ _ _ _ _ (i_shape _ _ _ _ HI1)). }
  assert (Hax : l_dim L = Rt -> forall j, axis_at (l_grid (fst (lstep S L (OpPropagate dist nr None b)))) 0 j = axis_at (l_grid L) 0 j).
  { intros Ed j. rewrite (axis_meta _ _ j HM). eapply axis_shift; [apply (i_shape _ _ _ _ HI)|exact Ed]. }
  assert (Hone : (forall i j, (i < n0)%nat -> (j < n1)%nat -> at3 s' i j k = at3 s i j k) -> exists F : nat -> nat -> R, (forall i j, 0 <= F i j <= 1) /\ (nr = None -> forall i j, F i j = 1) /\
    (nr = Some PyOther \/ (exists z, nr = Some (PyInt z) /\ (z <= 0)%Z) -> forall i j, F i j = 1) /\
    freq_power (l_dim L) (l_grid (fst (lstep S L (OpPropagate dist nr None b)))) s' k =
    rsum n0 (fun i => rsum n1 (fun j => F i j * (match l_dim L with Rt => axis_at (l_grid L) 0 j | _ => 1 end * Cnorm2 (at3 s i j k))))).
  { intros E. exists (fun _ _ => 1). split; [intros; lra|]. split; [reflexivity|]. split; [reflexivity|].
    rewrite (fp_ext (l_dim L) (l_grid L) _ s s' k n0 n1 nt Ss Ss' Hax) by (intros i j Hi Hj; rewrite E by assumption; reflexivity).
    unfold freq_power, dim0, dim1. rewrite Ss. cbn [nth]. apply rsum_ext; intros i Hi. apply rsum_ext; intros j Hj. ring. }
  destruct (absorb_code (l_dim L) nr n0 n1) as [[]|e] eqn:Ec.
  - destruct (C2 eq_refl) as (s1 & Hs1 & Hat).
    destruct (propagate_plain S L n0 n1 nt dist nr None b s1 HI (or_intror eq_refl) C1 Hs1) as (g1 & E1 & G1 & M1 & E4 & _).
    assert (Ss1 : shp s1 = [n0; n1; nt]).
    { destruct (absorb_boundary_steps (l_dim L) nr (l_grid L) HG) as (AG & AM & _). destruct (sread_shape _ _ (proj1 AG) Hs1) as (E & _).
      rewrite E. destruct AM as (_ & _ & _ & _ & _ & _ & _ & Z & _). rewrite Z. exact Hsh. }
    cbn [lstep] in Hs', Hax |- *. rewrite E1 in Hs', Hax |- *. cbn [fst l_grid set_grid] in Hs', Hax |- *.
    rewrite sread_shift, E4 in Hs'. injection Hs' as <-. cbn [fst l_grid set_grid].
    destruct (used_is_fresh L n0 n1 nt b HI) as (b' & Hb').
    exists (fun i j => Cnorm2 (absorb_fac (l_dim L) nr n0 n1 i j)). split; [|split; [|split]].
    + intros i j.
      assert (B : forall z n N q, (0 <= absorb_hi n N q <= 1) /\ (0 <= absorb_lo n z <= 1)).
      { intros z n N q. split; [apply absorb_hi_bounds|apply absorb_lo_bounds]. }
      unfold absorb_fac. destruct nr as [[z|]|].
      * cbn zeta. set (n := Z.to_nat z).
        assert (P : forall a, 0 <= a <= 1 -> 0 <= Cnorm2 (RtoC a) <= 1).
        { intros a Ha. unfold Cnorm2, RtoC; cbn [fst snd]. nra. }
        assert (Q : forall u v : C, 0 <= Cnorm2 u <= 1 -> 0 <= Cnorm2 v <= 1 -> 0 <= Cnorm2 (Cmult u v) <= 1).
        { intros u v Hu Hv. rewrite Cnorm2_mult. nra. }
        destruct (l_dim L); try (apply P, absorb_hi_bounds); repeat (first [apply P, absorb_hi_bounds|apply P, absorb_lo_bounds|apply Q]).
      * unfold Cnorm2, RtoC; cbn [fst snd]. lra.
      * unfold Cnorm2, RtoC; cbn [fst snd]. lra.
    + intros -> i j. unfold absorb_fac, Cnorm2, RtoC; cbn [fst snd]. ring.
    + intros [-> | (z & -> & Hz)] i j; [cbn in Ec; discriminate|]. unfold absorb_code in Ec.
      destruct (Z.leb_spec z 0); [discriminate|lia].
    + rewrite (fp_ext (l_dim L) (l_grid L) _ (stepped S (used_prop L b) s1 dist) _ k n0 n1 nt); [|exact Ss1|exact Ss1|exact Hax|].
      * rewrite Hb', (stepped_power S L n0 n1 nt b' s1 dist k HI HU Ss1 Hk). unfold freq_power, dim0, dim1. rewrite Ss1. cbn [nth].
        apply rsum_ext; intros i Hi. apply rsum_ext; intros j Hj. rewrite Hat by assumption. rewrite Cnorm2_mult. ring.
      * intros i j Hi Hj. cbn [apply_phase at3]. rewrite Cnorm2_mult. unfold time_phase. rewrite Cnorm2_cis. ring.
  - destruct (propagate_absorb_fail S L dist nr None b e HG C1) as (g' & Eg & _ & _ & _ & Esr).
    cbn [lstep] in Hs'. rewrite Eg in Hs'. cbn [fst l_grid set_grid] in Hs'.
    apply Hone. intros i j _ _. rewrite Esr, Hs in Hs'. injection Hs' as <-. reflexivity.
Qed.

(** apply_optics *)
Lemma optics_power S L n0 n1 nt e s s' k : Inv L n0 n1 nt ->
  sread (l_grid L) = Ok s -> sread (l_grid (fst (lstep S L (OpOptics e)))) = Ok s' ->
  freq_power (l_dim L) (l_grid (fst (lstep S L (OpOptics e)))) s' k =
  rsum n0 (fun i => rsum n1 (fun j => Cnorm2 (optic_factor L e i j k) * (match l_dim L with Rt => axis_at (l_grid L) 0 j | _ => 1 end * Cnorm2 (at3 s i j k)))).
Proof.
  intros HI Hs Hs'. pose proof (i_coh _ _ _ _ HI) as HG. pose proof (gs_shape _ _ _ _ _ (i_shape _ _ _ _ HI)) as Hsh.
  destruct (step_optic_inv S L n0 n1 nt e HI) as (g' & s0 & s0' & E1 & _ & P & H0 & H0' & Hat).
  rewrite Hs in H0. injection H0 as <-. rewrite E1 in Hs' |- *. cbn [set_grid l_grid] in Hs' |- *. rewrite H0' in Hs'. injection Hs' as <-.
  pose proof (pa_inv' _ _ _ _ _ _ P) as HI1. rewrite E1 in HI1.
  assert (Ss' : shp s0' = [n0; n1; nt]).
  { destruct (sread_shape _ _ (proj1 (i_coh _ _ _ _ HI1)) H0') as (E & _). rewrite E. apply (gs_shape _ _ _ _ _ (i_shape _ _ _ _ HI1)). }
  assert (Hax : forall j, axis_at g' 0 j = axis_at (l_grid L) 0 j).
  { intros j. pose proof (Par0_axes _ _ _ _ _ P) as Z. rewrite E1 in Z. cbn [set_grid l_grid] in Z. unfold axis_at. rewrite Z. reflexivity. }
  unfold freq_power, dim0, dim1. rewrite Ss'. cbn [nth]. apply rsum_ext; intros i Hi. apply rsum_ext; intros j Hj.
  rewrite Hat, Hax, Cnorm2_mult. ring.
Qed.
Lemma write_power S L w n0 n1 nt s s' k : Inv L n0 n1 nt ->
  sread (l_grid L) = Ok s -> sread (l_grid (fst (lstep S L (OpWrite w)))) = Ok s' ->
  freq_power (l_dim L) (l_grid (fst (lstep S L (OpWrite w)))) s' k = freq_power (l_dim L) (l_grid L) s k.
Proof.
  intros HI Hs Hs'. destruct (step_write S L n0 n1 nt w HI 0 L (Par_refl _ _ _ _ HI)) as (P & _ & _).
  destruct (step_plain S L n0 n1 nt (OpWrite w) HI (or_intror I)) as (HI1 & HM & _). cbn [step_dist] in HM.
  assert (E : sread (l_grid (fst (lstep S L (OpWrite w)))) = sread (l_grid L)).
  { cbn [lstep]. unfold write_to_file. rewrite get_t_eq; cbn [fst snd].
    destruct (tread (l_grid L)) as [a|e]; [destruct (w _ _ _) as [u|e]|]; cbn [fst snd l_prop l_grid set_grid]; apply sread_get_t. }
  rewrite E, Hs in Hs'. injection Hs' as <-.
  destruct (sread_shape _ _ (proj1 (i_coh _ _ _ _ HI)) Hs) as (Ss & _). rewrite (gs_shape _ _ _ _ _ (i_shape _ _ _ _ HI)) in Ss.
  apply (fp_ext _ _ _ s s k n0 n1 nt Ss Ss); [|reflexivity].
  intros Ed j. rewrite (axis_meta _ _ j HM). eapply axis_shift; [apply (i_shape _ _ _ _ HI)|exact Ed].
Qed.

(** The energy is the sum over the frequencies. *)
Definition kappa (d : pydim) (g : grid) (nt : nat) : R :=
  env_factor g * eps0 * INR nt * (lastR (g_dx g) * c_light) *
  match d with Rt => 2 * PI * vget (g_dx g) 0 | _ => vget (g_dx g) 0 * vget (g_dx g) 1 end.
Lemma energy_power L n0 n1 nt a s : Inv L n0 n1 nt -> tread (l_grid L) = Ok a -> sread (l_grid L) = Ok s ->
  energy_of (l_dim L) (l_grid L) a = kappa (l_dim L) (l_grid L) nt * rsum nt (fun k => freq_power (l_dim L) (l_grid L) s k).
Proof.
  intros HI Ha Hs. pose proof (i_coh _ _ _ _ HI) as HG. pose proof (gs_shape _ _ _ _ _ (i_shape _ _ _ _ HI)) as Hsh.
  destruct (sread_shape _ _ (proj1 HG) Hs) as (Ss & _). rewrite Hsh in Ss.
  pose proof (gs_pos _ _ _ _ _ (i_shape _ _ _ _ HI)) as (P0 & P1 & P2).
  rewrite (energy_of_spectral _ _ _ _ HG Ha Hs) by (unfold dim2; rewrite Ss; simpl; lia).
  unfold freq_power, dim0, dim1, dim2. rewrite Ss. cbn [nth].
  set (q := match l_dim L with Rt => 2 * PI * vget (g_dx (l_grid L)) 0 | _ => vget (g_dx (l_grid L)) 0 * vget (g_dx (l_grid L)) 1 end).
  assert (E : rsum3 n0 n1 nt (fun i j k => cell_volume (l_dim L) (l_grid L) j * Cnorm2 (at3 s i j k)) =
     (lastR (g_dx (l_grid L)) * c_light) * q * rsum nt (fun k => rsum n0 (fun i => rsum n1 (fun j => match l_dim L with Rt => axis_at (l_grid L) 0 j | _ => 1 end * Cnorm2 (at3 s i j k))))).
  { rewrite (rsum_swap nt n0). unfold rsum3. rewrite <- rsum_scal_l. apply rsum_ext; intros i Hi.
    rewrite (rsum_swap nt n1). rewrite <- rsum_scal_l. apply rsum_ext; intros j Hj. rewrite <- rsum_scal_l. apply rsum_ext; intros k Hk.
    unfold q. destruct (i_dim _ _ _ _ HI) as [Hd|Hd]; rewrite Hd; unfold cell_volume.
    - rewrite cell_volume_rt_eq. unfold axis_at. ring.
    - unfold cell_volume_xyt. ring. }
  rewrite E. unfold kappa. fold q. ring.
Qed.
Lemma kappa_eq L L' n0 n1 nt D : Inv L n0 n1 nt -> Inv L' n0 n1 nt -> same_meta (shift_domain (l_grid L) D) (l_grid L') -> l_dim L' = l_dim L ->
  kappa (l_dim L') (l_grid L') nt = kappa (l_dim L) (l_grid L) nt.
Proof.
  intros HI HI' (_ & _ & _ & _ & Z & _) Hd. unfold kappa. rewrite (env_factor_true _ (proj1 (proj1 (i_coh _ _ _ _ HI)))), (env_factor_true _ (proj1 (proj1 (i_coh _ _ _ _ HI')))).
  rewrite Z, Hd. reflexivity.
Qed.
Lemma kappa_nonneg L n0 n1 nt : Inv L n0 n1 nt -> positive_cells (l_dim L) (l_grid L) -> 0 <= kappa (l_dim L) (l_grid L) nt.
Proof.
  intros HI (H1 & H2). apply Forall_pos_le in H1. unfold kappa. rewrite (env_factor_true _ (proj1 (proj1 (i_coh _ _ _ _ HI)))).
  pose proof eps0_pos. pose proof c_light_pos. pose proof (pos_INR nt). pose proof PI_RGT_0.
  assert (Hl : 0 <= lastR (g_dx (l_grid L))) by (unfold lastR; rewrite last_nth; apply Forall_nth_nonneg, H1).
  pose proof (Forall_nth_nonneg _ 0 H1). pose proof (Forall_nth_nonneg _ 1 H1). unfold vget.
  assert (0 <= lastR (g_dx (l_grid L)) * c_light) by (apply Rmult_le_pos; lra).
  assert (0 <= 1 / 2 * eps0 * INR nt) by (apply Rmult_le_pos; [lra|assumption]).
  apply Rmult_le_pos; [apply Rmult_le_pos; lra|]. destruct (l_dim L); apply Rmult_le_pos; try assumption; lra.
Qed.

(** ** Histories *)
Lemma passive_user o : passive_op o -> no_resample o /\ user_op o.
Proof. destruct o as [? ? [g|] ?|e|v k|w]; cbn; tauto. Qed.
Lemma plain_pc S L n0 n1 nt o : Inv L n0 n1 nt -> no_resample o -> positive_cells (l_dim L) (l_grid L) ->
  positive_cells (l_dim (fst (lstep S L o))) (l_grid (fst (lstep S L o))).
Proof.
  intros HI Ho HP. destruct (step_plain S L n0 n1 nt o HI (or_intror Ho)) as (_ & HM & Hd & _). rewrite Hd.
  eapply pc_meta; [exact HM|]. eapply pc_shift; [apply (i_shape _ _ _ _ HI)|exact HP].
Qed.
Lemma weight_nonneg L n0 n1 nt j : Inv L n0 n1 nt -> positive_cells (l_dim L) (l_grid L) ->
  0 <= match l_dim L with Rt => axis_at (l_grid L) 0 j | _ => 1 end.
Proof. intros HI (_ & H). destruct (l_dim L); try lra. apply Forall_nth_nonneg. apply H; reflexivity. Qed.
Lemma damp_le n0 n1 (F w : nat -> nat -> R) : (forall i j, F i j <= 1) -> (forall i j, 0 <= w i j) ->
  rsum n0 (fun i => rsum n1 (fun j => F i j * w i j)) <= rsum n0 (fun i => rsum n1 (fun j => w i j)).
Proof.
  intros HF Hw. apply rsum_le; intros i _. apply rsum_le; intros j _. specialize (HF i j). specialize (Hw i j). nra.
Qed.

Lemma passive_run S h : unitary S -> Forall passive_op h -> forall L n0 n1 nt, Inv L n0 n1 nt -> positive_cells (l_dim L) (l_grid L) ->
  Inv (lrun S L h) n0 n1 nt /\ l_dim (lrun S L h) = l_dim L /\ kappa (l_dim (lrun S L h)) (l_grid (lrun S L h)) nt = kappa (l_dim L) (l_grid L) nt /\
  forall s s', sread (l_grid L) = Ok s -> sread (l_grid (lrun S L h)) = Ok s' -> forall k, (k < nt)%nat ->
    freq_power (l_dim L) (l_grid (lrun S L h)) s' k <= freq_power (l_dim L) (l_grid L) s k.
Proof.
  intros HU Hp. induction Hp as [|o h Ho Hp IH]; intros L n0 n1 nt HI Hpc.
  - cbn [lrun]. split; [exact HI|]. split; [reflexivity|]. split; [reflexivity|]. intros s s' Hs Hs' k Hk. rewrite Hs in Hs'. injection Hs' as <-. lra.
  - cbn [lrun]. destruct (passive_user o Ho) as (Hn & _).
    destruct (step_plain S L n0 n1 nt o HI (or_intror Hn)) as (HI1 & HM & Hd1 & _ & _).
    destruct (IH _ n0 n1 nt HI1 (plain_pc S L n0 n1 nt o HI Hn Hpc)) as (J1 & J2 & J3 & J4).
    split; [exact J1|]. split; [congruence|]. split; [rewrite J3; eapply kappa_eq; eassumption|].
    intros s s' Hs Hs' k Hk. destruct (Inv_reads _ _ _ _ HI1) as (_ & s1 & _ & _ & Hs1 & _).
    specialize (J4 s1 s' Hs1 Hs' k Hk). rewrite Hd1 in J4. eapply Rle_trans; [exact J4|].
    destruct (sread_shape _ _ (proj1 (i_coh _ _ _ _ HI)) Hs) as (Ss & _). rewrite (gs_shape _ _ _ _ _ (i_shape _ _ _ _ HI)) in Ss.
    assert (Hw : forall i j, 0 <= match l_dim L with Rt => axis_at (l_grid L) 0 j | _ => 1 end * Cnorm2 (at3 s i j k)).
    { intros i j. apply Rmult_le_pos; [eapply weight_nonneg; eassumption|apply Cnorm2_nonneg]. }
    assert (Hfp : freq_power (l_dim L) (l_grid L) s k = rsum n0 (fun i => rsum n1 (fun j => match l_dim L with Rt => axis_at (l_grid L) 0 j | _ => 1 end * Cnorm2 (at3 s i j k)))).
    { unfold freq_power, dim0, dim1. rewrite Ss. reflexivity. }
    destruct o as [dist nr [g|] b|e|v kd|w]; try contradiction.
    + destruct (propagate_power S L n0 n1 nt dist nr b s s1 k HI HU Hs Hs1 Hk) as (F & B & _ & _ & ->). rewrite Hfp.
      apply (damp_le n0 n1 F (fun i j => match l_dim L with Rt => axis_at (l_grid L) 0 j | _ => 1 end * Cnorm2 (at3 s i j k))); [intros i j; apply B|exact Hw].
    + rewrite (optics_power S L n0 n1 nt e s s1 k HI Hs Hs1), Hfp.
      apply (damp_le n0 n1 (fun i j => Cnorm2 (optic_factor L e i j k)) (fun i j => match l_dim L with Rt => axis_at (l_grid L) 0 j | _ => 1 end * Cnorm2 (at3 s i j k))); [|exact Hw].
      intros i j. rewrite <- Cmod_sq. unfold optic_factor.
      match goal with |- Cmod ?z ^ 2 <= 1 => assert (Cmod z <= 1) by (destruct (l_dim L); apply Ho); pose proof (Cmod_ge_0 z); nra end.
    + rewrite (write_power S L w n0 n1 nt s s1 k HI Hs Hs1). lra.
Qed.

Lemma transmits_run S h G : unitary S -> transmits h G -> forall L n0 n1 nt, Inv L n0 n1 nt ->
  Inv (lrun S L h) n0 n1 nt /\ l_dim (lrun S L h) = l_dim L /\ kappa (l_dim (lrun S L h)) (l_grid (lrun S L h)) nt = kappa (l_dim L) (l_grid L) nt /\
  forall s s', sread (l_grid L) = Ok s -> sread (l_grid (lrun S L h)) = Ok s' -> forall k, (k < nt)%nat ->
    freq_power (l_dim L) (l_grid (lrun S L h)) s' k = G (vget (l_omega L) k) (p_omega0 (l_prof L)) * freq_power (l_dim L) (l_grid L) s k.
Proof.
  intros HU Ht.
  assert (Hstep : forall o (h : list lop) G g,
     (forall L n0 n1 nt, Inv L n0 n1 nt ->
        Inv (lrun S L h) n0 n1 nt /\ l_dim (lrun S L h) = l_dim L /\ kappa (l_dim (lrun S L h)) (l_grid (lrun S L h)) nt = kappa (l_dim L) (l_grid L) nt /\
        forall s s', sread (l_grid L) = Ok s -> sread (l_grid (lrun S L h)) = Ok s' -> forall k, (k < nt)%nat ->
          freq_power (l_dim L) (l_grid (lrun S L h)) s' k = G (vget (l_omega L) k) (p_omega0 (l_prof L)) * freq_power (l_dim L) (l_grid L) s k) ->
     no_resample o ->
     (forall L n0 n1 nt s s1 k, Inv L n0 n1 nt -> sread (l_grid L) = Ok s -> sread (l_grid (fst (lstep S L o))) = Ok s1 -> (k < nt)%nat ->
        exists F : nat -> nat -> R, (forall i j, F i j = g (vget (l_omega L) k) (p_omega0 (l_prof L))) /\
        freq_power (l_dim L) (l_grid (fst (lstep S L o))) s1 k =
        rsum n0 (fun i => rsum n1 (fun j => F i j * (match l_dim L with Rt => axis_at (l_grid L) 0 j | _ => 1 end * Cnorm2 (at3 s i j k))))) ->
     forall L n0 n1 nt, Inv L n0 n1 nt ->
        Inv (lrun S L (o :: h)) n0 n1 nt /\ l_dim (lrun S L (o :: h)) = l_dim L /\ kappa (l_dim (lrun S L (o :: h))) (l_grid (lrun S L (o :: h))) nt = kappa (l_dim L) (l_grid L) nt /\
        forall s s', sread (l_grid L) = Ok s -> sread (l_grid (lrun S L (o :: h))) = Ok s' -> forall k, (k < nt)%nat ->
          freq_power (l_dim L) (l_grid (lrun S L (o :: h))) s' k = g (vget (l_omega L) k) (p_omega0 (l_prof L)) * G (vget (l_omega L) k) (p_omega0 (l_prof L)) * freq_power (l_dim L) (l_grid L) s k).
  { clear h G Ht. intros o h G g IH Hn HF L n0 n1 nt HI. cbn [lrun].
    destruct (step_plain S L n0 n1 nt o HI (or_intror Hn)) as (HI1 & HM & Hd1 & Ho1 & Hp1).
    destruct (IH _ n0 n1 nt HI1) as (J1 & J2 & J3 & J4).
    split; [exact J1|]. split; [congruence|]. split; [rewrite J3; eapply kappa_eq; eassumption|].
    intros s s' Hs Hs' k Hk. destruct (Inv_reads _ _ _ _ HI1) as (_ & s1 & _ & _ & Hs1 & _).
    specialize (J4 s1 s' Hs1 Hs' k Hk). rewrite Hd1, Ho1, Hp1 in J4. rewrite J4.
    destruct (HF L n0 n1 nt s s1 k HI Hs Hs1 Hk) as (F & EF & ->).
    destruct (sread_shape _ _ (proj1 (i_coh _ _ _ _ HI)) Hs) as (Ss & _). rewrite (gs_shape _ _ _ _ _ (i_shape _ _ _ _ HI)) in Ss.
    unfold freq_power, dim0, dim1. rewrite Ss. cbn [nth]. rewrite <- !rsum_scal_l. apply rsum_ext; intros i _. rewrite <- !rsum_scal_l. apply rsum_ext; intros j _.
    rewrite EF. ring. }
  induction Ht as [|d b h G Ht IH|d nr b h G Hnr Ht IH|w h G Ht IH|e g h G Hg Ht IH].
  - intros L n0 n1 nt HI. cbn [lrun]. split; [exact HI|]. split; [reflexivity|]. split; [reflexivity|]. intros s s' Hs Hs' k Hk. rewrite Hs in Hs'. injection Hs' as <-. ring.
  - intros L n0 n1 nt HI.
    destruct (Hstep (OpPropagate d None None b) h G (fun _ _ => 1) IH I) with (L := L) (n0 := n0) (n1 := n1) (nt := nt) as (J1 & J2 & J3 & J4); [|exact HI|].
    { intros K m0 m1 mt s s1 k HK Hs Hs1 Hk. destruct (propagate_power S K m0 m1 mt d None b s s1 k HK HU Hs Hs1 Hk) as (F & _ & B & _ & E).
      exists F. split; [exact (B eq_refl)|exact E]. }
    split; [exact J1|]. split; [exact J2|]. split; [exact J3|]. intros s s' Hs Hs' k Hk. rewrite (J4 s s' Hs Hs' k Hk). ring.
  - intros L n0 n1 nt HI.
    destruct (Hstep (OpPropagate d (Some nr) None b) h G (fun _ _ => 1) IH I) with (L := L) (n0 := n0) (n1 := n1) (nt := nt) as (J1 & J2 & J3 & J4); [|exact HI|].
    { intros K m0 m1 mt s s1 k HK Hs Hs1 Hk. destruct (propagate_power S K m0 m1 mt d (Some nr) b s s1 k HK HU Hs Hs1 Hk) as (F & _ & _ & B & E).
      exists F. split; [|exact E]. apply B. destruct Hnr as [-> | (z & -> & Hz)]; [left; reflexivity|right; exists z; auto]. }
    split; [exact J1|]. split; [exact J2|]. split; [exact J3|]. intros s s' Hs Hs' k Hk. rewrite (J4 s s' Hs Hs' k Hk). ring.
  - intros L n0 n1 nt HI.
    destruct (Hstep (OpWrite w) h G (fun _ _ => 1) IH I) with (L := L) (n0 := n0) (n1 := n1) (nt := nt) as (J1 & J2 & J3 & J4); [|exact HI|].
    { intros K m0 m1 mt s s1 k HK Hs Hs1 Hk. exists (fun _ _ => 1). split; [reflexivity|]. rewrite (write_power S K w m0 m1 mt s s1 k HK Hs Hs1).
      destruct (sread_shape _ _ (proj1 (i_coh _ _ _ _ HK)) Hs) as (Ss & _). rewrite (gs_shape _ _ _ _ _ (i_shape _ _ _ _ HK)) in Ss.
      unfold freq_power, dim0, dim1. rewrite Ss. cbn [nth]. apply rsum_ext; intros i _. apply rsum_ext; intros j _. ring. }
    split; [exact J1|]. split; [exact J2|]. split; [exact J3|]. intros s s' Hs Hs' k Hk. rewrite (J4 s s' Hs Hs' k Hk). ring.
  - intros L n0 n1 nt HI. apply (Hstep (OpOptics e) h G g IH I); [|exact HI].
    intros K m0 m1 mt s s1 k HK Hs Hs1 Hk. exists (fun i j => Cnorm2 (optic_factor K e i j k)). split; [|apply (optics_power S K m0 m1 mt e s s1 k HK Hs Hs1)].
    intros i j. rewrite <- Cmod_sq. unfold optic_factor. destruct (l_dim K); apply Hg.
Qed.

(** Lasers: constructed on an ordered window and used without resampling. *)
Lemma used_laser S d lo hi np p nm nte L0 h : laser_init d lo hi np p nm nte = Ok L0 -> Forall no_resample h ->
  (forall q, (q < ndims_of d)%nat -> nth q lo 0 < nth q hi 0) -> (d = Rt -> 0 <= nth 0 lo 0) ->
  exists n0 n1 nt, nth_error np (ndims_of d - 1) = Some nt /\ Inv (lrun S L0 h) n0 n1 nt /\ positive_cells (l_dim (lrun S L0 h)) (l_grid (lrun S L0 h)) /\ l_dim (lrun S L0 h) = d /\
    p_omega0 (l_prof (lrun S L0 h)) = p_omega0 p /\
    (forall k, (k < nt)%nat -> vget (l_omega (lrun S L0 h)) k = p_omega0 p + dft_omega nt (spacing (nth (ndims_of d - 1) lo 0) (nth (ndims_of d - 1) hi 0) nt) k).
Proof.
  intros Hi Hn Hb H0. destruct (laser_init_Inv _ _ _ _ _ _ _ _ Hi) as (g & n0 & n1 & nt & Hg & HM & D1 & D2 & D3 & _ & _ & Hn' & GS & HI).
  exists n0, n1, nt. split; [exact Hn'|].
  assert (Hall : forall h L, Forall no_resample h -> Inv L n0 n1 nt -> positive_cells (l_dim L) (l_grid L) ->
     Inv (lrun S L h) n0 n1 nt /\ positive_cells (l_dim (lrun S L h)) (l_grid (lrun S L h)) /\ l_dim (lrun S L h) = l_dim L /\ l_prof (lrun S L h) = l_prof L).
  { clear - S. induction h as [|o h IH]; intros L Hn HI HP; cbn [lrun]; [auto|]. inversion Hn; subst.
    destruct (step_plain S L n0 n1 nt o HI) as (HI1 & _ & Y1 & _ & Y2); [right; assumption|].
    destruct (IH _ H2 HI1 (plain_pc S L n0 n1 nt o HI H1 HP)) as (A & B & Cc & D). split; [exact A|]. split; [exact B|]. split; congruence. }
  destruct (Hall h L0 Hn HI (laser_cells _ _ _ _ _ _ _ _ Hi Hb H0)) as (A & B & Cc & D).
  split; [exact A|]. split; [exact B|]. split; [congruence|]. split; [congruence|].
  intros k Hk. apply (run_omega S d lo hi np p nm nte L0 h Hi); try assumption.
  - eapply Forall_impl; [|exact Hn]. intros [? ? [?|] ?|?|? ?|?]; cbn; tauto.
  - clear - Hn. revert L0. induction Hn as [|o h Ho Hn IH]; intros L0; [exact I|]. cbn [clean]. split; [left; exact Ho|apply IH].
Qed.

Theorem c99_passive S d lo hi np p nm nte L0 h0 h : unitary S ->
  laser_init d lo hi np p nm nte = Ok L0 -> Forall no_resample h0 -> Forall passive_op h ->
  (forall q, (q < ndims_of d)%nat -> nth q lo 0 < nth q hi 0) -> (d = Rt -> 0 <= nth 0 lo 0) ->
  let L := lrun S L0 h0 in let L' := lrun S L h in
  exists n0 n1 nt s s' e e', snd (get_spectral_field (l_grid L)) = Ok s /\ shp s = [n0; n1; nt] /\
    snd (get_spectral_field (l_grid L')) = Ok s' /\ shp s' = [n0; n1; nt] /\
    (forall k, (k < nt)%nat -> freq_power d (l_grid L') s' k <= freq_power d (l_grid L) s k) /\
    snd (compute_laser_energy d (l_grid L)) = Ok e /\ snd (compute_laser_energy d (l_grid L')) = Ok e' /\ e' <= e.
Proof.
  intros HU Hi Hn Hp Hb H0. cbn zeta.
  destruct (used_laser S d lo hi np p nm nte L0 h0 Hi Hn Hb H0) as (n0 & n1 & nt & _ & HI & Hpc & Hd & _ & _).
  destruct (passive_run S h HU Hp _ n0 n1 nt HI Hpc) as (J1 & J2 & J3 & J4).
  destruct (Inv_reads _ _ _ _ HI) as (a & s & Ha & _ & Hs & Ss). destruct (Inv_reads _ _ _ _ J1) as (a' & s' & Ha' & _ & Hs' & Ss').
  pose proof (energy_power _ n0 n1 nt a s HI Ha Hs) as E. pose proof (energy_power _ n0 n1 nt a' s' J1 Ha' Hs') as E'.
  rewrite J3, J2 in E'. rewrite Hd in E, E', J4. pose proof (kappa_nonneg _ n0 n1 nt HI Hpc) as K. rewrite Hd in K.
  exists n0, n1, nt, s, s', (energy_of d (l_grid (lrun S L0 h0)) a), (energy_of d (l_grid (lrun S (lrun S L0 h0) h)) a'). conj; [exact Hs|exact Ss|exact Hs'|exact Ss'|intros k Hk; apply (J4 s s' Hs Hs' k Hk)|apply (compute_energy_eq d _ a Ha)|apply (compute_energy_eq d _ a' Ha')|].
  rewrite E, E'. apply Rmult_le_compat_l; [exact K|]. apply rsum_le. intros k Hk. apply (J4 s s' Hs Hs' k Hk).
Qed.

Theorem c99_ledger S d lo hi np p nm nte L0 h0 h G : unitary S ->
  laser_init d lo hi np p nm nte = Ok L0 -> Forall no_resample h0 -> transmits h G ->
  (forall q, (q < ndims_of d)%nat -> nth q lo 0 < nth q hi 0) -> (d = Rt -> 0 <= nth 0 lo 0) ->
  let L := lrun S L0 h0 in let L' := lrun S L h in
  exists n0 n1 nt s s' e e', nth_error np (ndims_of d - 1) = Some nt /\
    snd (get_spectral_field (l_grid L)) = Ok s /\ shp s = [n0; n1; nt] /\
    snd (get_spectral_field (l_grid L')) = Ok s' /\ shp s' = [n0; n1; nt] /\
    (forall k, (k < nt)%nat -> freq_power d (l_grid L') s' k =
       G (p_omega0 p + dft_omega nt (spacing (nth (ndims_of d - 1) lo 0) (nth (ndims_of d - 1) hi 0) nt) k) (p_omega0 p) * freq_power d (l_grid L) s k) /\
    snd (compute_laser_energy d (l_grid L)) = Ok e /\ snd (compute_laser_energy d (l_grid L')) = Ok e' /\
    ((forall w w0, G w w0 = 1) -> e' = e).
Proof.
  intros HU Hi Hn Ht Hb H0. cbn zeta.
  destruct (used_laser S d lo hi np p nm nte L0 h0 Hi Hn Hb H0) as (n0 & n1 & nt & Hnt & HI & Hpc & Hd & Hw & Hom).
  destruct (transmits_run S h G HU Ht _ n0 n1 nt HI) as (J1 & J2 & J3 & J4).
  destruct (Inv_reads _ _ _ _ HI) as (a & s & Ha & _ & Hs & Ss). destruct (Inv_reads _ _ _ _ J1) as (a' & s' & Ha' & _ & Hs' & Ss').
  pose proof (energy_power _ n0 n1 nt a s HI Ha Hs) as E. pose proof (energy_power _ n0 n1 nt a' s' J1 Ha' Hs') as E'.
  rewrite J3, J2 in E'. rewrite Hd in E, E', J4. rewrite Hw in J4.
  exists n0, n1, nt, s, s', (energy_of d (l_grid (lrun S L0 h0)) a), (energy_of d (l_grid (lrun S (lrun S L0 h0) h)) a'). conj; [exact Hnt|exact Hs|exact Ss|exact Hs'|exact Ss'| |apply (compute_energy_eq d _ a Ha)|apply (compute_energy_eq d _ a' Ha')|].
  - intros k Hk. rewrite (J4 s s' Hs Hs' k Hk), Hom by exact Hk. reflexivity.
  - intros HG. rewrite E, E'. f_equal. apply rsum_ext. intros k Hk. rewrite (J4 s s' Hs Hs' k Hk), HG. ring.
Qed.
