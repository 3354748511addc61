(** C21: the cached propagator. *)
From Verif Require Import PyBase CSum NpFFT FFTProofs NumPy GridModel GridSpec GridProofs LaserSpec GridObs
  EnergyModel EnergyProofs AngularProofs LaserModel OpticsModel LaserOps LaserInv LaserInitProofs LaserStepProofs
  PropagateProofs HistoryProofs OpticsProofs OpticsProofs2 SolverSpec PropLaws.
Open Scope R_scope.

(** The laser run with its attribute [prop] deleted before every call. *)
Fixpoint lrun_rebuild (S : solvers) (L : laser) (h : list lop) : laser :=
  match h with [] => L | o :: t => lrun_rebuild S (fst (lstep S (set_prop L None) o)) t end.
(** The sequence of outcomes (normal return or exception) of a history. *)
Fixpoint outcomes (S : solvers) (L : laser) (h : list lop) : list (res unit) :=
  match h with [] => [] | o :: t => snd (lstep S L o) :: outcomes S (fst (lstep S L o)) t end.
Fixpoint outcomes_rebuild (S : solvers) (L : laser) (h : list lop) : list (res unit) :=
  match h with
  | [] => []
  | o :: t => snd (lstep S (set_prop L None) o) :: outcomes_rebuild S (fst (lstep S (set_prop L None) o)) t
  end.

Definition PInv (b : backend_t) (L : laser) : Prop := l_prop L = None \/ l_prop L = Some (fresh_prop L b).

Lemma set_prop_set L p q : set_prop (set_prop L p) q = set_prop L q. Proof. reflexivity. Qed.
Lemma set_prop_id L : set_prop L (l_prop L) = L. Proof. destruct L; reflexivity. Qed.

Lemma finish_prop L p d s :
  finish (set_prop L p) d s = (set_prop (fst (finish L d s)) p, snd (finish L d s)).
Proof.
  unfold finish; cbn [l_grid set_prop l_omega l_prof].
  destruct (snd (set_spectral_field _ _)); reflexivity.
Qed.

(** propagate with and without a (fresh) cache. *)
Lemma propagate_cache S L n0 n1 nt b d nr ng : Inv L n0 n1 nt -> PInv b L ->
  snd (propagate S L d nr ng b) = snd (propagate S (set_prop L None) d nr ng b) /\
  set_prop (fst (propagate S L d nr ng b)) None = set_prop (fst (propagate S (set_prop L None) d nr ng b)) None.
Proof.
  intros HI [Hp|Hp]; [rewrite <- Hp, set_prop_id; auto|].
  unfold propagate. cbn [l_grid set_prop l_dim l_prop].
  destruct (negb (g_isenv (l_grid L))); [auto|].
  pose proof (absorb_meta (l_dim L) nr (l_grid L)) as AM.
  destruct (snd (absorb_boundary (l_dim L) nr (l_grid L))) as [u|e]; [|auto].
  set (ga := fst (absorb_boundary (l_dim L) nr (l_grid L))) in *.
  assert (BM : same_meta (l_grid L) (fst (get_spectral_field ga)))
    by (eapply same_meta_trans; [exact AM|apply get_s_meta]).
  destruct (snd (get_spectral_field ga)) as [s|e]; [|auto].
  set (gb := fst (get_spectral_field ga)) in *.
  pose proof (fresh_prop_meta L gb b BM) as HF. unfold fresh_prop in HF; cbn [l_dim l_grid set_grid l_omega] in HF.
  unfold fresh_prop in Hp. rewrite Hp.
  destruct (l_dim L) eqn:Ed; cbn [l_grid set_grid set_prop l_omega l_prof].
  - destruct ng as [gn|].
    + destruct (g_modes (overwrite_time gn gb)); [|auto].
      destruct (negb _); [auto|]. destruct (Nat.ltb _ _); auto.
    + destruct (g_modes gb) as [modes|]; [|auto].
      injection HF as HF. rewrite <- HF.
      set (ps := build_rt (nth 0 (g_axes gb) []) (l_omega L) None modes b).
      destruct (Nat.ltb (length ps) (length modes)); split; reflexivity.
  - assert (HF' : build_xyt gb (l_omega L) b = build_xyt (l_grid L) (l_omega L) b) by congruence. rewrite HF'. split; reflexivity.
  - assert (HF' : build_xyt gb (l_omega L) b = build_xyt (l_grid L) (l_omega L) b) by congruence. rewrite HF'. split; reflexivity.
Qed.

Lemma lstep_cache S L n0 n1 nt b o : Inv L n0 n1 nt -> PInv b L -> uses_backend b o ->
  snd (lstep S L o) = snd (lstep S (set_prop L None) o) /\
  set_prop (fst (lstep S L o)) None = set_prop (fst (lstep S (set_prop L None) o)) None.
Proof.
  intros HI HP Hb. destruct o as [d nr ng b'|oe|v k|w]; cbn [lstep uses_backend] in *.
  - subst b'. apply (propagate_cache S L n0 n1 nt b d nr ng HI HP).
  - unfold apply_optics; cbn [l_grid set_prop].
    destruct (snd (get_spectral_field (l_grid L))); split; reflexivity.
  - unfold normalize; cbn [l_grid set_prop l_dim]. split; reflexivity.
  - unfold write_to_file; cbn [l_grid set_prop l_iter].
    destruct (snd (get_temporal_field (l_grid L))); [|split; reflexivity].
    destruct (w _ _ _); split; reflexivity.
Qed.

(** The cache stays fresh (with the backend of the first call). *)
Lemma lstep_PInv S L n0 n1 nt b o : Inv L n0 n1 nt -> PInv b L -> uses_backend b o -> user_op o ->
  (no_resample o \/ snd (lstep S L o) = Ok tt) -> PInv b (fst (lstep S L o)).
Proof.
  intros HI HP Hb Hu Hok.
  assert (Hgen : forall g' it, same_meta (l_grid L) g' ->
     PInv b (mkLaser (l_dim L) g' (l_prof L) it (l_omega L) (l_prop L))).
  { intros g' it HM. destruct HP as [Hp|Hp]; [left; exact Hp|right]. cbn [l_prop]. rewrite Hp. f_equal. symmetry.
    change (fresh_prop (mkLaser (l_dim L) g' (l_prof L) it (l_omega L) (l_prop L)) b) with (fresh_prop (set_grid L g') b).
    apply fresh_prop_meta, HM. }
  destruct o as [d nr ng b'|oe|v k|w]; cbn [lstep uses_backend] in *.
  - subst b'. pose proof (i_coh _ _ _ _ HI) as HG.
    destruct (absorb_cases (l_dim L) nr (l_grid L)) as [Hab|(e & Hab)].
    2:{ destruct (propagate_absorb_fail S L d nr ng b e HG Hab) as (g' & Hpg & _ & H2 & _).
        rewrite Hpg. apply (Hgen g' (l_iter L) H2). }
    destruct (absorb_boundary_steps (l_dim L) nr (l_grid L) HG) as (AG & AM & AR & _).
    destruct (proj1 (tread_sread_iff _ (proj1 AG)) (AR (i_read _ _ _ _ HI))) as (s & Hs).
    assert (Hc : (l_dim L = Xyt \/ ng = None) \/ (l_dim L = Rt /\ exists gn, ng = Some gn)).
    { destruct (i_dim _ _ _ _ HI) as [E|E]; [|auto]. destruct ng; eauto. }
    destruct Hc as [Hc|(Ed & gn & ->)].
    + destruct (propagate_plain S L n0 n1 nt d nr ng b s HI Hc Hab Hs) as (g1 & Hpg & HG1 & HM1 & _).
      rewrite Hpg. cbn [fst]. right. cbn [l_prop set_grid set_prop].
      assert (Hup : used_prop L b = fresh_prop L b) by (unfold used_prop; destruct HP as [-> | ->]; reflexivity).
      rewrite Hup. f_equal. symmetry. apply fresh_prop_ext; try reflexivity.
      * exists d. apply shift_same_meta, HM1.
      * apply (gs_lo _ _ _ _ _ (i_shape _ _ _ _ HI)).
      * apply (gs_hi _ _ _ _ _ (i_shape _ _ _ _ HI)).
      * apply (gs_axes _ _ _ _ _ (i_shape _ _ _ _ HI)).
      * apply (i_dim _ _ _ _ HI).
    + destruct Hok as [[]|Hok]. destruct (user_grid_props gn Hu) as (HGn & m0 & m1 & mt & HSn).
      destruct (propagate_resample S L n0 n1 nt d nr gn b s m0 m1 mt HI Ed HSn HGn Hab Hs)
        as [(Emt & Hle & g1 & Hpg & _)|[(_ & Hpg)|(_ & _ & Hpg)]];
      rewrite Hpg in Hok |- *; try discriminate. left. reflexivity.
  - unfold apply_optics. pose proof (get_s_meta (l_grid L)) as HM.
    destruct (snd (get_spectral_field (l_grid L))); cbn [fst]; apply (Hgen _ (l_iter L)); [|exact HM].
    eapply same_meta_trans; [exact HM|apply set_s_meta].
  - unfold normalize. cbn [fst]. apply (Hgen _ (l_iter L)).
    apply (normalize_grid_steps (l_dim L) v k (l_grid L) (i_coh _ _ _ _ HI)).
  - unfold write_to_file. pose proof (get_t_meta (l_grid L)) as HM.
    destruct (snd (get_temporal_field (l_grid L))); [|apply (Hgen _ (l_iter L)), HM].
    destruct (w _ _ _); [apply (Hgen _ (l_iter L + 1)%nat), HM|apply (Hgen _ (l_iter L)), HM].
Qed.

Lemma step_clean_inv S L n0 n1 nt o : Inv L n0 n1 nt -> user_op o -> (no_resample o \/ snd (lstep S L o) = Ok tt) ->
  exists m0 m1, Inv (fst (lstep S L o)) m0 m1 nt.
Proof.
  intros HI Hu [Hn|Hok].
  - destruct (step_plain S L n0 n1 nt o HI (or_intror Hn)) as (H1 & _). eauto.
  - destruct (step_ok_inv S L n0 n1 nt o HI Hu Hok) as (m0 & m1 & H & _). eauto.
Qed.

Lemma Inv_drop L n0 n1 nt : Inv L n0 n1 nt -> Inv (set_prop L None) n0 n1 nt.
Proof. intros [H1 H2 H3 H4 H5 H6]. constructor; try assumption. left; reflexivity. Qed.

Lemma lstep_set_none S L L' o : set_prop L None = set_prop L' None ->
  lstep S (set_prop L None) o = lstep S (set_prop L' None) o.
Proof. intros ->. reflexivity. Qed.

Lemma c21_run S b h : forall L L' n0 n1 nt, Inv L n0 n1 nt -> PInv b L ->
  set_prop L None = set_prop L' None ->
  Forall user_op h -> Forall (uses_backend b) h -> clean S L h ->
  set_prop (lrun S L h) None = set_prop (lrun_rebuild S L' h) None /\
  outcomes S L h = outcomes_rebuild S L' h.
Proof.
  induction h as [|o h IH]; intros L L' n0 n1 nt HI HP HE Hu Hb Hc; cbn [lrun lrun_rebuild outcomes outcomes_rebuild].
  - auto.
  - inversion Hu; subst. inversion Hb; subst. destruct Hc as (Hc & Hcs).
    destruct (lstep_cache S L n0 n1 nt b o HI HP ltac:(assumption)) as (E1 & E2).
    destruct (step_clean_inv S L n0 n1 nt o HI ltac:(assumption) Hc) as (m0 & m1 & HI').
    pose proof (lstep_PInv S L n0 n1 nt b o HI HP ltac:(assumption) ltac:(assumption) Hc) as HP'.
    rewrite <- HE.
    destruct (IH (fst (lstep S L o)) (fst (lstep S (set_prop L None) o)) m0 m1 nt HI' HP' E2) as (Q1 & Q2);
      try assumption.
    split; [exact Q1|]. rewrite E1, Q2. reflexivity.
Qed.

Lemma c21_rebuild S d lo hi np p nm nte L0 h b :
  laser_init d lo hi np p nm nte = Ok L0 -> Forall user_op h -> Forall (uses_backend b) h -> clean S L0 h ->
  set_prop (lrun S L0 h) None = set_prop (lrun_rebuild S L0 h) None /\
  outcomes S L0 h = outcomes_rebuild S L0 h.
Proof.
  intros Hi Hu Hb Hc.
  destruct (laser_init_Inv _ _ _ _ _ _ _ _ Hi) as (g & n0 & n1 & nt & _ & _ & _ & _ & _ & Hp & _ & _ & _ & HI).
  apply (c21_run S b h L0 L0 n0 n1 nt HI); auto. left; exact Hp.
Qed.

(** Without any assumption on the backends: whatever is cached was built for the present grid. *)
Lemma c21_fresh S L : reachable S L ->
  match l_prop L with
  | None => True
  | Some (PropRt ps) => l_dim L = Rt /\ exists b modes, g_modes (l_grid L) = Some modes /\
      ps = map (fun m => mkRtProp (nth 0 (g_axes (l_grid L)) []) (map (fun w => w / c_light) (l_omega L)) None m b) modes
  | Some (PropXyt q) => l_dim L = Xyt /\ exists b,
      q = mkFft2Prop (nth 0 (g_hi (l_grid L)) 0 - nth 0 (g_lo (l_grid L)) 0, length (nth 0 (g_axes (l_grid L)) []))
                     (nth 1 (g_hi (l_grid L)) 0 - nth 1 (g_lo (l_grid L)) 0, length (nth 1 (g_axes (l_grid L)) []))
                     (map (fun w => w / c_light) (l_omega L)) b
  end.
Proof.
  intros HR. destruct (reachable_Inv S L HR) as (n0 & n1 & nt & HI).
  destruct (i_prop _ _ _ _ HI) as [-> | (b & ->)]; [exact I|].
  destruct (i_dim _ _ _ _ HI) as [Ed|Ed]; unfold fresh_prop; rewrite Ed.
  - destruct (gs_rt _ _ _ _ _ (i_shape _ _ _ _ HI) Ed) as (M & HM & Hn0 & Hmod & _).
    split; [reflexivity|]. exists b. eexists. split; [exact Hmod|]. rewrite Hmod. reflexivity.
  - split; [reflexivity|]. destruct (gs_xyt _ _ _ _ _ (i_shape _ _ _ _ HI)) as (X0 & X1); [rewrite Ed; discriminate|].
    exists b. unfold build_xyt. rewrite (gs_shape _ _ _ _ _ (i_shape _ _ _ _ HI)), X0, X1. reflexivity.
Qed.
