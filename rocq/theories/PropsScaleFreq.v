(** C104, continued: the local frequency of a pulse s times as long is s times lower, its vector potential s times larger. *)
From Verif Require Import PyBase CSum NumPy NpMath GridModel GridSpec GridObs EnergyModel LaserSpec LaserModel LaserOps LaserInv LaserStepProofs HistoryProofs LaserInitProofs LaserExamples LtiSpec LtiMain LtiExamples AnalysisModel ScaleSpec ScaleProofs ScaleWave ScaleFreq.
Open Scope R_scope.

(** Every outcome of [get_frequency] with the envelope method (array and average; the bounds are relative, so they stay),
    of [field_to_vector_potential] and of [vector_potential_to_field] (both methods); exceptions included. *)
Theorem C104_frequency :
  forall S s d lo hi np p nm nte L L' h, scale_free S -> 0 < s ->
  laser_init d lo hi np p nm nte = Ok L ->
  laser_init d (map (Rmult s) lo) (map (Rmult s) hi) np (scale_profile s p) nm nte = Ok L' ->
  let K := lrun S L h in let K' := lrun S L' (map (scale_op s) h) in
  let times (c : R) (u : ndarray) := amap (fun z => Cmult (RtoC c) z) u in
  (forall e w lb ub, g_isenv (l_grid K) = true ->
     snd (get_frequency (l_grid K') e false (option_map (fun w => w / s) w) lb ub) =
     match snd (get_frequency (l_grid K) e false w lb ub) with
     | Ok (om, m) => Ok (times (/ s) om, / s * m)
     | Err x => Err x end) /\
  (forall w, snd (field_to_vector_potential (l_grid K') (w / s)) =
     match snd (field_to_vector_potential (l_grid K) w) with Ok u => Ok (times s u) | Err x => Err x end) /\
  (forall w direct, snd (vector_potential_to_field (l_grid K') (w / s) direct) =
     match snd (vector_potential_to_field (l_grid K) w direct) with Ok u => Ok (times (/ s) u) | Err x => Err x end).
Proof.
  intros S s d lo hi np p nm nte L L' h HS Hs H H'.
  rewrite (laser_init_sl s Hs), H in H'. cbn [mapres] in H'. injection H' as <-.
  destruct (run_sl s Hs S HS h L) as (E & _). cbn zeta. rewrite E. cbn [sl l_grid].
  split; [|split].
  - intros e w lb ub He. rewrite (frequency_sg s Hs _ e w lb ub He). cbn [snd]. destruct (snd (get_frequency _ _ _ _ _ _)) as [[om m]|x]; reflexivity.
  - intros w. rewrite (vecpot_sg s Hs). cbn [snd]. destruct (snd (field_to_vector_potential _ _)); reflexivity.
  - intros w direct. rewrite (from_vecpot_sg s Hs). cbn [snd]. destruct (snd (vector_potential_to_field _ _ _)); reflexivity.
Qed.
Print Assumptions C104_frequency.

(** A pulse with a vortex on a cylindrical grid meets the hypotheses, its grid is an envelope grid and the conversions succeed. *)
Example C104_frequency_nonvacuous : scale_free linear_example /\ exists L L' f,
  laser_init Rt [0;-3] [2;4] [4;5]%nat ex_vortex 2 None = Ok L /\
  laser_init Rt (map (Rmult 1000) [0;-3]) (map (Rmult 1000) [2;4]) [4;5]%nat (scale_profile 1000 ex_vortex) 2 None = Ok L' /\
  g_isenv (l_grid L) = true /\ snd (vector_potential_to_field (l_grid L) 1 true) = Ok f.
Proof.
  split; [exact linear_example_scale_free|]. destruct (ex_rt ex_vortex None) as (L & HL); [exact I|lia|].
  destruct (laser_init_Inv _ _ _ _ _ _ _ _ HL) as (g & n0 & n1 & nt & _ & _ & _ & _ & _ & _ & _ & N & _ & J). injection N as <-.
  destruct (Inv_reads _ _ _ _ J) as (f & _ & F1 & F2 & _). pose proof (i_coh _ _ _ _ J) as ((He & _) & _).
  assert (Hs : 0 < 1000) by lra. exists L, (sl 1000 L). eexists. split; [exact HL|]. split; [rewrite (laser_init_sl 1000 Hs), HL; reflexivity|]. split; [exact He|].
  unfold vector_potential_to_field. rewrite He. cbn [negb]. unfold tread in F1. rewrite F1. unfold dim2. rewrite F2. cbn. reflexivity.
Qed.
