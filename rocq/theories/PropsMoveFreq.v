(** C107, continued: the local frequency and the vector potential of a pulse do not depend on where and when it is. *)
From Verif Require Import PyBase CSum NumPy NpMath GridModel GridSpec GridObs EnergyModel LaserSpec LaserModel LaserOps LaserInv GridProofs LaserStepProofs HistoryProofs LaserInitProofs LtiSpec LtiProofs LtiMain LaserExamples WaveSolver AnalysisModel MirrorProofs MirrorWave MoveSpec MoveProofs MoveMain MoveFreq.
Open Scope R_scope.

(** Every outcome (arrays entry by entry, averages, exceptions) of [get_frequency] with the envelope method, of
    [field_to_vector_potential] and of [vector_potential_to_field] (both methods). *)
Theorem C107_frequency :
  forall S a b c lo hi np p nm nte L h, local_solver S ->
  laser_init Xyt lo hi np p nm nte = Ok L ->
  exists L', laser_init Xyt (move3 a b c lo) (move3 a b c hi) np (move_profile a b c p) nm nte = Ok L' /\
  let K := lrun S L h in let K' := lrun S L' (map (move_op a b c) h) in
  exists n0 n1 nt, g_shape (l_grid K) = [n0; n1; nt] /\
  let same r r' := match r, r' with
    | Ok u, Ok u' => shp u = [n0; n1; nt] /\ shp u' = [n0; n1; nt] /\
        forall i j k, (i < n0)%nat -> (j < n1)%nat -> (k < nt)%nat -> at3 u' i j k = at3 u i j k
    | Err x, Err x' => x' = x
    | _, _ => False end in
  (forall d w0 lb ub,
     match snd (get_frequency (l_grid K) d false w0 lb ub), snd (get_frequency (l_grid K') d false w0 lb ub) with
     | Ok (om, m), Ok (om', m') => m' = m /\ same (Ok om) (Ok om')
     | Err x, Err x' => x' = x
     | _, _ => False end) /\
  (forall w0, same (snd (field_to_vector_potential (l_grid K) w0)) (snd (field_to_vector_potential (l_grid K') w0))) /\
  (forall w0 direct, same (snd (vector_potential_to_field (l_grid K) w0 direct)) (snd (vector_potential_to_field (l_grid K') w0 direct))).
Proof.
  intros S a b c lo hi np p nm nte L h HS H. destruct (laser_init_move a b c _ _ _ _ _ _ _ H) as (L' & n0 & n1 & nt & H' & HM & Hd).
  exists L'. split; [exact H'|]. destruct (moved_run a b c S h HS L L' n0 n1 nt Hd HM) as ((G & HP & HR & E) & _ & Hd'). cbn zeta. rewrite E. cbn [ml l_grid].
  exists n0, n1, nt. split.
  { pose proof (i_shape _ _ _ _ (pa_inv _ _ _ _ _ _ HP)) as Q. exact (gs_shape _ _ _ _ _ Q). }
  split; [intros d w0 lb ub; pose proof (i_coh _ _ _ _ (pa_inv _ _ _ _ _ _ HP)) as ((He & _) & _); exact (two_frequency a b c _ _ n0 n1 nt Hd' HP HR w0 lb ub d He)|].
  split; [intros w0; exact (two_vecpot a b c _ _ n0 n1 nt Hd' HP HR w0) | intros w0 direct; exact (two_from_vecpot a b c _ _ n0 n1 nt Hd' HP HR w0 direct)].
Qed.
Print Assumptions C107_frequency.

(** A pulse that meets the hypotheses, with a constructor and a history that succeed, and a read that succeeds. *)
Example C107_frequency_nonvacuous : local_solver (wave_solvers 1) /\
  exists L, laser_init Xyt [-1;-2;-3] [1;2;4] [4;3;5]%nat (ex_prof (Some (Some 3))) 1 None = Ok L /\
    g_shape (l_grid L) = [4;3;5]%nat /\ exists om, snd (vector_potential_to_field (l_grid L) 1 true) = Ok om.
Proof.
  split; [apply (wave_solvers_mirror false false 1)|]. destruct (ex_xyt (Some (Some 3)) ltac:(cbn; lra)) as (L & HL). exists L. split; [exact HL|].
  destruct (laser_init_Inv _ _ _ _ _ _ _ _ HL) as (g & n0 & n1 & nt & G & M & _ & _ & _ & _ & _ & _ & GS & I).
  assert (Sh : g_shape (l_grid L) = [4;3;5]%nat).
  { destruct M as (_ & _ & _ & _ & _ & _ & _ & Esh & _). rewrite Esh. unfold grid_init in G. cbn in G. repeat (destruct (Rltb _ _) in G; cbn in G). injection G as <-. reflexivity. }
  split; [exact Sh|]. pose proof (gs_shape _ _ _ _ _ (i_shape _ _ _ _ I)) as Sh'. rewrite Sh in Sh'. injection Sh' as <- <- <-.
  destruct (Inv_reads _ _ _ _ I) as (f & _ & F1 & F2 & _). pose proof (i_coh _ _ _ _ I) as ((He & _) & _).
  unfold vector_potential_to_field. rewrite He. cbn [negb]. unfold tread in F1. rewrite F1. unfold dim2. rewrite F2. cbn. eexists. reflexivity.
Qed.
