(** What propagate does, case by case, and the history invariant. *)
From Verif Require Import PyBase CSum NpFFT FFTProofs NumPy GridModel GridSpec GridProofs LaserSpec GridObs
  EnergyModel EnergyProofs AngularProofs LaserModel LaserOps LaserInv LaserInitProofs LaserStepProofs.
Open Scope R_scope.

(** The spectral array after the diffraction step with propagator p. *)
Definition stepped (S : solvers) (p : prop_attr) (s : ndarray) (dist : R) : ndarray :=
  mkArr (shp s) (dty s)
    match p with
    | PropRt ps => step_mode S ps s dist
    | PropXyt p => fun i j k => step_xyt S p (fun kk ii jj => at3 s ii jj kk) dist k i j
    end.

Definition used_prop (L : laser) (b : backend_t) : prop_attr :=
  match l_prop L with Some p => p | None => fresh_prop L b end.

Lemma fresh_prop_meta L g b : same_meta (l_grid L) g -> fresh_prop (set_grid L g) b = fresh_prop L b.
Proof.
  intros (H1 & H2 & H3 & H4 & H5 & H6 & H7 & H8 & H9 & H10). unfold fresh_prop, build_xyt.
  cbn [l_dim l_grid l_omega set_grid]. rewrite H1, H2, H4, H7, H8. reflexivity.
Qed.

Lemma build_rt_length r om rn modes b : length (build_rt r om rn modes b) = length modes.
Proof. unfold build_rt; apply map_length. Qed.

Lemma propagate_plain S L n0 n1 nt dist nr ng b s :
  Inv L n0 n1 nt -> (l_dim L = Xyt \/ ng = None) ->
  snd (absorb_boundary (l_dim L) nr (l_grid L)) = Ok tt ->
  sread (fst (absorb_boundary (l_dim L) nr (l_grid L))) = Ok s ->
  exists g1, propagate S L dist nr ng b =
      (set_grid (set_prop L (Some (used_prop L b))) (shift_domain g1 dist), Ok tt) /\
    CohG g1 /\ same_meta (l_grid L) g1 /\
    sread g1 = Ok (apply_phase (l_omega L) (p_omega0 (l_prof L)) dist (stepped S (used_prop L b) s dist)) /\
    tread g1 = Ok (np_fft_last (apply_phase (l_omega L) (p_omega0 (l_prof L)) dist (stepped S (used_prop L b) s dist))).
Proof.
  intros [HS HG Hdim Hom Hrd Hpr] Hng Hab Hs.
  destruct (absorb_boundary_steps (l_dim L) nr (l_grid L) HG) as (AG & AM & AR & _).
  unfold propagate. rewrite (proj1 (proj1 HG)). cbn [negb].
  rewrite Hab.
  rewrite get_s_eq; cbn [fst snd]. rewrite Hs.
  set (ga := fst (absorb_boundary (l_dim L) nr (l_grid L))) in *.
  pose proof (get_s_Coh _ AG) as BG.
  assert (BM : same_meta (l_grid L) (fst (get_spectral_field ga)))
    by (eapply same_meta_trans; [exact AM|apply get_s_meta]).
  set (gb := fst (get_spectral_field ga)) in *.
  destruct (sread_shape _ _ (proj1 AG) Hs) as (Ssh & Sd).
  assert (Ssh' : shp s = g_shape gb).
  { rewrite Ssh. destruct AM as (_ & _ & _ & _ & _ & _ & _ & A8 & _).
    destruct BM as (_ & _ & _ & _ & _ & _ & _ & B8 & _). congruence. }
  pose proof (fresh_prop_meta L gb b BM) as HF.
  destruct (l_dim L) eqn:Ed.
  - destruct Hng as [Hc| ->]; [discriminate|]. cbn [l_grid set_grid].
    destruct (gs_rt _ _ _ _ _ HS eq_refl) as (M & HM & Hn0 & Hmod & _ & _ & _).
    assert (Hmod' : g_modes gb = Some (azimuthal_modes (Z.of_nat M))).
    { destruct BM as (_ & _ & _ & _ & _ & _ & B7 & _). congruence. }
    rewrite Hmod'.
    set (ps := match l_prop L with Some (PropRt l) => l | Some (PropXyt _) => [] | None => _ end).
    assert (Hps : PropRt ps = used_prop L b /\ (length (azimuthal_modes (Z.of_nat M)) <= length ps)%nat).
    { unfold ps, used_prop. destruct Hpr as [Hp|(b' & Hp)]; rewrite Hp.
      - rewrite <- HF. unfold fresh_prop. cbn [l_dim l_grid set_grid l_omega]. rewrite Ed, Hmod'.
        rewrite build_rt_length. split; [reflexivity|lia].
      - unfold fresh_prop. rewrite Ed, Hmod. rewrite build_rt_length. split; [reflexivity|lia]. }
    destruct Hps as (Hps & Hlen). rewrite <- Hps.
    destruct (Nat.ltb_spec (length ps) (length (azimuthal_modes (Z.of_nat M)))); [lia|].
    destruct (finish_spec (set_prop (set_grid L gb) (Some (PropRt ps))) dist (mkArr (shp s) (dty s) (step_mode S ps s dist)))
      as (g1 & H1 & H2 & H3 & H4 & H5); [exact BG|exact Ssh'|exact Sd|].
    rewrite H1. exists g1. conj; try assumption; try reflexivity.
    eapply same_meta_trans; [exact BM|exact H3].
  - set (p := match l_prop L with Some (PropXyt p) => p | _ => _ end).
    assert (Hp : PropXyt p = used_prop L b).
    { unfold p, used_prop. destruct Hpr as [Hp|(b' & Hp)]; rewrite Hp.
      - rewrite <- HF. unfold fresh_prop. cbn [l_dim l_grid set_grid l_omega]. rewrite Ed. reflexivity.
      - unfold fresh_prop. rewrite Ed. reflexivity. }
    rewrite <- Hp.
    match goal with |- context [finish ?L' dist ?a] => destruct (finish_spec L' dist a)
      as (g1 & H1 & H2 & H3 & H4 & H5); [exact BG|exact Ssh'|exact Sd|] end.
    rewrite H1. exists g1. conj; try assumption; try reflexivity.
    eapply same_meta_trans; [exact BM|exact H3].
  - destruct Hdim; discriminate.
Qed.

(** propagate raising in the absorbing-boundary step leaves every read unchanged. *)
Lemma propagate_absorb_fail S L dist nr ng b e :
  CohG (l_grid L) -> snd (absorb_boundary (l_dim L) nr (l_grid L)) = Err e ->
  exists g', propagate S L dist nr ng b = (set_grid L g', Err e) /\ CohG g' /\ same_meta (l_grid L) g' /\
    tread g' = tread (l_grid L) /\ sread g' = sread (l_grid L).
Proof.
  intros HG Ha. destruct (absorb_boundary_steps (l_dim L) nr (l_grid L) HG) as (AG & AM & _ & AE).
  unfold propagate. rewrite (proj1 (proj1 HG)). cbn [negb]. rewrite Ha.
  destruct AE as (E1 & E2); [congruence|]. eexists. conj; try reflexivity; assumption.
Qed.

Lemma gstep_meta g o : same_meta g (fst (gstep g o)).
Proof.
  destruct o; unfold gstep; cbn zeta; cbn [fst];
  [apply set_t_meta|apply set_s_meta|apply get_t_meta|apply get_s_meta].
Qed.
Lemma gstep_Coh g o : CohG g -> CohG (fst (gstep g o)).
Proof.
  intros HG. destruct o; unfold gstep; cbn zeta; cbn [fst];
  [apply set_t_Coh|apply set_s_Coh|apply get_t_Coh|apply get_s_Coh]; exact HG.
Qed.
Lemma grun_meta g h : same_meta g (grun g h).
Proof.
  revert g; induction h as [|o h IH]; intros g; [apply same_meta_refl|].
  simpl. eapply same_meta_trans; [apply gstep_meta|apply IH].
Qed.
Lemma grun_Coh g h : CohG g -> CohG (grun g h).
Proof. revert g; induction h as [|o h IH]; intros g HG; [exact HG|]. simpl. apply IH, gstep_Coh, HG. Qed.

Lemma user_grid_props g : user_grid g -> CohG g /\ exists n0 n1 nt, GShape Rt g n0 n1 nt.
Proof.
  intros (lo & hi & np & M & g0 & h & Hg & ->).
  destruct (grid_init_GShape_rt _ _ _ _ _ _ Hg) as (n1 & nt & _ & _ & _ & GS).
  split; [apply grun_Coh, (grid_init_CohG _ _ _ _ _ _ Hg)|].
  exists (2 * Z.to_nat M - 1)%nat, n1, nt. eapply GShape_meta; [apply grun_meta|exact GS].
Qed.

Lemma set_last_length {A} (l : list A) v : (1 <= length l)%nat -> length (set_last l v) = length l.
Proof.
  intros H. unfold set_last. destruct l as [|a l]; [simpl in H; lia|].
  rewrite app_length. rewrite (app_removelast_last a (l := a :: l)) at 2 by discriminate.
  rewrite app_length. reflexivity.
Qed.
Lemma set_last_last {A} (l : list A) v d : last (set_last l v) d = v.
Proof. unfold set_last. apply last_last. Qed.
Lemma set_last_nth {A} (l : list A) v d q : (S q < length l)%nat -> nth q (set_last l v) d = nth q l d.
Proof.
  intros H. unfold set_last. destruct l as [|a l]; [simpl in H; lia|].
  rewrite (app_removelast_last a (l := a :: l)) at 2 by discriminate.
  assert (Hl : length (a :: l) = S (length (removelast (a :: l)))).
  { rewrite (app_removelast_last a (l := a :: l)) at 1 by discriminate. rewrite app_length; simpl; lia. }
  rewrite !app_nth1 by lia. reflexivity.
Qed.

Lemma ndims_2 d : (2 <= ndims_of d)%nat.
Proof. destruct d; simpl; lia. Qed.

Lemma shift_GShape d g dist n0 n1 nt : GShape d g n0 n1 nt -> GShape d (shift_domain g dist) n0 n1 nt.
Proof.
  intros [H1 H2 H3 H4 H5 H6 H7 H8 H9]. pose proof (ndims_2 d).
  constructor; cbn [shift_domain with_domain g_shape g_lo g_hi g_axes g_dx g_modes g_npoints]; try assumption.
  - rewrite set_last_length; [assumption|lia].
  - rewrite set_last_length; [assumption|lia].
  - rewrite set_last_length; [assumption|lia].
  - unfold shift_domain, with_domain, time_axis at 1. cbn [g_axes]. rewrite set_last_last, map_length. exact H7.
  - intros Hd. rewrite set_last_nth by lia. apply H8, Hd.
  - intros Hd. assert (ndims_of d = 3%nat) by (destruct d; congruence || reflexivity).
    rewrite !set_last_nth by lia. apply H9, Hd.
Qed.

Lemma overwrite_GShape gn g n0 n1 nt : GShape Rt gn n0 n1 nt -> length (time_axis g) = nt ->
  GShape Rt (overwrite_time gn g) n0 n1 nt.
Proof.
  intros [H1 H2 H3 H4 H5 H6 H7 H8 H9] Ht. simpl ndims_of in *.
  constructor; cbn [overwrite_time with_domain g_shape g_lo g_hi g_axes g_dx g_modes g_npoints ndims_of]; try assumption.
  - rewrite set_last_length; [assumption|lia].
  - rewrite set_last_length; [assumption|lia].
  - rewrite set_last_length; [assumption|lia].
  - unfold overwrite_time, with_domain, time_axis at 1. cbn [g_axes]. rewrite set_last_last. exact Ht.
  - intros Hd. rewrite set_last_nth by lia. apply H8, Hd.
  - congruence.
Qed.

(** Resampling: either it succeeds, or it raises having already replaced the grid. *)
Lemma propagate_resample S L n0 n1 nt dist nr gn b s m0 m1 mt :
  Inv L n0 n1 nt -> l_dim L = Rt -> GShape Rt gn m0 m1 mt -> CohG gn ->
  snd (absorb_boundary (l_dim L) nr (l_grid L)) = Ok tt ->
  sread (fst (absorb_boundary (l_dim L) nr (l_grid L))) = Ok s ->
  let gn' := overwrite_time gn (l_grid L) in
  let modes := match g_modes gn with Some m => m | None => [] end in
  let ps := build_rt (nth 0 (g_axes (l_grid L)) []) (l_omega L) (Some (nth 0 (g_axes gn) [])) modes b in
  let s' := mkArr [m0; m1; mt] Complex128 (step_mode S ps s dist) in
  (mt = nt /\ (m0 <= n0)%nat /\
   exists g1, propagate S L dist nr (Some gn) b =
      (set_grid (set_prop L None) (shift_domain g1 dist), Ok tt) /\
    CohG g1 /\ same_meta gn' g1 /\
    sread g1 = Ok (apply_phase (l_omega L) (p_omega0 (l_prof L)) dist s') /\
    tread g1 = Ok (np_fft_last (apply_phase (l_omega L) (p_omega0 (l_prof L)) dist s')))
  \/ (mt <> nt /\ propagate S L dist nr (Some gn) b =
        (set_grid (set_prop L (Some (PropRt ps))) gn', Err ValueError))
  \/ (mt = nt /\ (n0 < m0)%nat /\ propagate S L dist nr (Some gn) b =
        (set_grid (set_prop L (Some (PropRt ps))) gn', Err IndexError)).
Proof.
  intros [HS HG Hdim Hom Hrd Hpr] Ed HSn HGn Hab Hs gn' modes ps s'.
  destruct (absorb_boundary_steps (l_dim L) nr (l_grid L) HG) as (AG & AM & AR & _).
  unfold propagate. rewrite (proj1 (proj1 HG)). cbn [negb].
  rewrite Hab, get_s_eq; cbn [fst snd]. rewrite Hs.
  set (ga := fst (absorb_boundary (l_dim L) nr (l_grid L))) in *.
  assert (BM : same_meta (l_grid L) (fst (get_spectral_field ga)))
    by (eapply same_meta_trans; [exact AM|apply get_s_meta]).
  set (gb := fst (get_spectral_field ga)) in *.
  destruct (sread_shape _ _ (proj1 AG) Hs) as (Ssh & Sd).
  assert (Ssh' : shp s = [n0; n1; nt]).
  { rewrite Ssh. destruct AM as (_ & _ & _ & _ & _ & _ & _ & A8 & _). rewrite A8. apply (gs_shape _ _ _ _ _ HS). }
  rewrite Ed. cbn [l_grid set_grid].
  assert (Hov : overwrite_time gn gb = gn').
  { unfold gn', overwrite_time, time_axis. destruct BM as (B1 & B2 & _ & B4 & _). rewrite B1, B2, B4. reflexivity. }
  rewrite Hov.
  assert (Hax : nth 0 (g_axes gn') [] = nth 0 (g_axes gn) []).
  { unfold gn', overwrite_time; cbn [with_domain g_axes]. apply set_last_nth. rewrite (gs_axes _ _ _ _ _ HSn). simpl; lia. }
  assert (Hax' : nth 0 (g_axes gb) [] = nth 0 (g_axes (l_grid L)) []).
  { destruct BM as (_ & _ & _ & B4 & _). rewrite B4. reflexivity. }
  destruct (gs_rt _ _ _ _ _ HSn eq_refl) as (M & HM & Hm0 & Hmod & Hnp0 & Hnp1 & Hlen).
  assert (Hmod' : g_modes gn' = Some (azimuthal_modes (Z.of_nat M))) by exact Hmod.
  rewrite Hmod'. rewrite Hax, Hax'.
  assert (Hps : build_rt (nth 0 (g_axes (l_grid L)) []) (l_omega L) (Some (nth 0 (g_axes gn) []))
                  (azimuthal_modes (Z.of_nat M)) b = ps).
  { unfold ps, modes. rewrite Hmod. reflexivity. }
  rewrite Hps.
  change (g_npoints gn') with (g_npoints gn). rewrite Hnp0, Hnp1, Hlen.
  assert (Hlm : length (azimuthal_modes (Z.of_nat M)) = m0) by (rewrite azimuthal_modes_length by lia; lia).
  assert (Hd2 : dim2 s = nt) by (unfold dim2; rewrite Ssh'; reflexivity).
  assert (Hd0 : dim0 s = n0) by (unfold dim0; rewrite Ssh'; reflexivity).
  rewrite Hlm, Hd2, Hd0.
  destruct (shape_eqb [m1; nt] [m1; mt]) eqn:Esh; cbn [negb].
  - apply shape_eqb_true in Esh. injection Esh as Emt.
    destruct (Nat.ltb_spec n0 m0) as [Hlt|Hge].
    + right; right. split; [auto|split; [exact Hlt|]]. reflexivity.
    + left. split; [auto|split; [exact Hge|]].
      match goal with |- context [finish ?L' dist ?a] => destruct (finish_spec L' dist a)
        as (g1 & H1 & H2 & H3 & H4 & H5) end.
      * apply overwrite_Coh, HGn.
      * cbn [l_grid set_grid set_prop shp]. change (g_shape gn') with (g_shape gn).
        rewrite (gs_shape _ _ _ _ _ HSn). reflexivity.
      * reflexivity.
      * rewrite H1. exists g1. conj; try assumption; reflexivity.
  - apply shape_eqb_false in Esh. right; left. split; [congruence|reflexivity].
Qed.
