(** C21 with backends mixed freely. *)
From Verif Require Import PyBase CSum NpFFT FFTProofs NumPy GridModel GridSpec GridProofs LaserSpec GridObs
  EnergyModel EnergyProofs AngularProofs LaserModel OpticsModel LaserOps LaserInv LaserInitProofs LaserStepProofs
  PropagateProofs HistoryProofs OpticsProofs OpticsProofs2 SolverSpec PropLaws CacheProofs.
From Coq Require Import FunctionalExtensionality.
Open Scope R_scope.

(** All backends compute the same thing (in exact arithmetic). *)
Definition backend_independent (S : solvers) : Prop :=
  (forall r k rn m b b', step_rt S (mkRtProp r k rn m b) = step_rt S (mkRtProp r k rn m b')) /\
  (forall x y k b b', step_xyt S (mkFft2Prop x y k b) = step_xyt S (mkFft2Prop x y k b')).

Lemma step_mode_backend S r om rn modes b b' s d : backend_independent S ->
  step_mode S (build_rt r om rn modes b) s d = step_mode S (build_rt r om rn modes b') s d.
Proof.
  intros (H & _). extensionality im. extensionality j. extensionality k. unfold step_mode, build_rt.
  rewrite !nth_error_map. destruct (nth_error modes im); cbn [option_map]; [|reflexivity]. rewrite (H _ _ _ _ b b'). reflexivity.
Qed.
Lemma step_xyt_backend S g om b b' : backend_independent S -> step_xyt S (build_xyt g om b) = step_xyt S (build_xyt g om b').
Proof. intros (_ & H). apply H. Qed.
Lemma build_rt_length r om rn modes b : length (build_rt r om rn modes b) = length modes.
Proof. apply map_length. Qed.

Lemma propagate_cache' S L n0 n1 nt b d nr ng : backend_independent S -> Inv L n0 n1 nt ->
  snd (propagate S L d nr ng b) = snd (propagate S (set_prop L None) d nr ng b) /\
  set_prop (fst (propagate S L d nr ng b)) None = set_prop (fst (propagate S (set_prop L None) d nr ng b)) None.
Proof.
  intros HS HI. destruct (i_prop _ _ _ _ HI) as [Hp|(b0 & Hp)]; [rewrite <- Hp, set_prop_id; auto|].
  unfold propagate. cbn [l_grid set_prop l_dim l_prop].
  destruct (negb (g_isenv (l_grid L))); [auto|].
  pose proof (absorb_meta (l_dim L) nr (l_grid L)) as AM.
  destruct (snd (absorb_boundary (l_dim L) nr (l_grid L))) as [u|e]; [|auto].
  set (ga := fst (absorb_boundary (l_dim L) nr (l_grid L))) in *.
  assert (BM : same_meta (l_grid L) (fst (get_spectral_field ga)))
    by (eapply same_meta_trans; [exact AM|apply get_s_meta]).
  destruct (snd (get_spectral_field ga)) as [s|e]; [|auto].
  set (gb := fst (get_spectral_field ga)) in *.
  pose proof (fresh_prop_meta L gb b0 BM) as HF. unfold fresh_prop in HF; cbn [l_dim l_grid set_grid l_omega] in HF.
  unfold fresh_prop in Hp. rewrite Hp.
  destruct (l_dim L) eqn:Ed; cbn [l_grid set_grid set_prop l_omega l_prof].
  - destruct ng as [gn|].
    + destruct (g_modes (overwrite_time gn gb)); [|auto].
      destruct (negb _); [auto|]. destruct (Nat.ltb _ _); auto.
    + destruct (g_modes gb) as [modes|]; [|auto].
      injection HF as HF. rewrite <- HF. rewrite !build_rt_length.
      destruct (Nat.ltb (length modes) (length modes)); [split; reflexivity|].
      rewrite (step_mode_backend S _ _ _ _ b0 b s d HS). unfold finish; cbn [l_grid l_omega l_prof set_prop set_grid]. destruct (snd (set_spectral_field _ _)); split; reflexivity.
  - assert (HF' : build_xyt gb (l_omega L) b0 = build_xyt (l_grid L) (l_omega L) b0) by congruence. rewrite <- HF'.
    rewrite (step_xyt_backend S gb (l_omega L) b0 b HS). unfold finish; cbn [l_grid l_omega l_prof set_prop set_grid]. destruct (snd (set_spectral_field _ _)); split; reflexivity.
  - assert (HF' : build_xyt gb (l_omega L) b0 = build_xyt (l_grid L) (l_omega L) b0) by congruence. rewrite <- HF'.
    rewrite (step_xyt_backend S gb (l_omega L) b0 b HS). unfold finish; cbn [l_grid l_omega l_prof set_prop set_grid]. destruct (snd (set_spectral_field _ _)); split; reflexivity.
Qed.
Lemma lstep_cache' S L n0 n1 nt o : backend_independent S -> Inv L n0 n1 nt ->
  snd (lstep S L o) = snd (lstep S (set_prop L None) o) /\
  set_prop (fst (lstep S L o)) None = set_prop (fst (lstep S (set_prop L None) o)) None.
Proof.
  intros HS HI. destruct o as [d nr ng b'|oe|v k|w]; cbn [lstep] in *.
  - apply (propagate_cache' S L n0 n1 nt b' d nr ng HS HI).
  - unfold apply_optics; cbn [l_grid set_prop].
    destruct (snd (get_spectral_field (l_grid L))); split; reflexivity.
  - unfold normalize; cbn [l_grid set_prop l_dim]. split; reflexivity.
  - unfold write_to_file; cbn [l_grid set_prop l_iter].
    destruct (snd (get_temporal_field (l_grid L))); [|split; reflexivity].
    destruct (w _ _ _); split; reflexivity.
Qed.
Lemma c21_run' S h : backend_independent S -> forall L L' n0 n1 nt, Inv L n0 n1 nt ->
  set_prop L None = set_prop L' None -> Forall user_op h -> clean S L h ->
  set_prop (lrun S L h) None = set_prop (lrun_rebuild S L' h) None /\
  outcomes S L h = outcomes_rebuild S L' h.
Proof.
  intros HS. induction h as [|o h IH]; intros L L' n0 n1 nt HI HE Hu Hc; cbn [lrun lrun_rebuild outcomes outcomes_rebuild].
  - auto.
  - inversion Hu; subst. destruct Hc as (Hc & Hcs).
    destruct (lstep_cache' S L n0 n1 nt o HS HI) as (E1 & E2).
    destruct (step_clean_inv S L n0 n1 nt o HI ltac:(assumption) Hc) as (m0 & m1 & HI').
    rewrite <- HE.
    destruct (IH (fst (lstep S L o)) (fst (lstep S (set_prop L None) o)) m0 m1 nt HI' E2) as (Q1 & Q2); try assumption.
    split; [exact Q1|]. rewrite E1, Q2. reflexivity.
Qed.
Lemma c21_backends S d lo hi np p nm nte L0 h :
  backend_independent S -> laser_init d lo hi np p nm nte = Ok L0 -> Forall user_op h -> clean S L0 h ->
  set_prop (lrun S L0 h) None = set_prop (lrun_rebuild S L0 h) None /\
  outcomes S L0 h = outcomes_rebuild S L0 h.
Proof.
  intros HS Hi Hu Hc.
  destruct (laser_init_Inv _ _ _ _ _ _ _ _ Hi) as (g & n0 & n1 & nt & _ & _ & _ & _ & _ & Hp & _ & _ & _ & HI).
  apply (c21_run' S h HS L0 L0 n0 n1 nt HI); auto.
Qed.
