(** The sampled m = 1 vortex used in the examples of the analysis and file functions. *)
From Verif Require Import PyBase CSum NumPy GridModel GridSpec GridProofs LaserSpec GridObs EnergyModel LaserModel LaserOps
  LaserInv LaserInitProofs HistoryProofs LaserExamples AnalysisModel OpenPMDModel.
Open Scope R_scope.

Lemma vortex_field_at t0 t1 : t0 < t1 -> exists L a, laser_init Rt [0;t0] [2;t1] [4;5]%nat ex_vortex 2 None = Ok L /\
  snd (get_temporal_field (l_grid L)) = Ok a /\ shp a = [3;4;5]%nat /\ l_dim L = Rt /\
  g_modes (l_grid L) = Some [0; 1; -1]%Z /\ g_nmodes (l_grid L) = Some 2%nat /\ g_npoints (l_grid L) = [4;5]%nat /\
  l_prof L = ex_vortex /\ vget (time_axis (l_grid L)) 0 = t0 /\
  (forall j k, (j < 4)%nat -> (k < 5)%nat ->
     at3 a 0 j k = RtoC 0 /\ at3 a 1 j k = RtoC (coord 0 2 4 j) /\ at3 a 2 j k = RtoC 0).
Proof.
  intros Ht.
  destruct (rt_construct_ok [0;t0] [2;t1] [4;5]%nat 4 5 ex_vortex 2 None) as (L & HL);
    simpl; try lia; try lra; try reflexivity.
  change (Z.of_nat 2) with 2%Z in HL.
  destruct (rt_modes [0;t0] [2;t1] [4;5]%nat 4 5 ex_vortex 2 None L 1 (fun m r t => if Z.eqb m 1 then RtoC r else RtoC 0) HL)
    as (a & s & H1 & H2 & _ & H4 & H5); try reflexivity; try lia; simpl nth; try lra; try exact I.
  { intros r t theta. apply vortex_content. }
  simpl in H5. subst s.
  destruct (laser_init_Inv _ _ _ _ _ _ _ _ HL) as (g & n0 & n1 & nt & Hg & Hmt & D1 & D2 & _).
  exists L, a. split; [exact HL|]. split; [exact H1|]. split; [exact H2|]. split; [exact D1|].
  destruct Hmt as (_&_&E3&E4&_&E6&E7&_).
  assert (Hgg : g_modes g = Some [0;1;-1]%Z /\ g_nmodes g = Some 2%nat /\ g_npoints g = [4;5]%nat).
  { clear - Hg. unfold grid_init in Hg. cbn [pyassert bind length Nat.eqb] in Hg.
    destruct (build_axes 2 0 [0;t0] [2;t1] [4;5]%nat); [cbn [bind] in Hg|discriminate].
    cbn [Z.ltb Z.compare] in Hg. injection Hg as <-. repeat split; reflexivity. }
  destruct Hgg as (G1 & G2 & G3). rewrite E3, E6, E7.
  split; [exact G1|]. split; [exact G2|]. split; [exact G3|]. split; [exact D2|]. split.
  { destruct (grid_init_axes _ _ _ _ _ _ _ Hg) as (_ & _ & La & _ & Hax).
    unfold time_axis. rewrite E4, last_nth, La. cbn [ndims_of Nat.sub].
    destruct (Hax 1%nat ltac:(simpl; lia)) as (n & _ & _ & E0 & _). exact E0. }
  intros j k Hj Hk.
  pose proof (H4 0%Z j k ltac:(lia) Hj Hk) as A0. pose proof (H4 1%Z j k ltac:(lia) Hj Hk) as A1.
  pose proof (H4 (-1)%Z j k ltac:(lia) Hj Hk) as A2. simpl in A0, A1, A2.
  rewrite Cmult_1_l in A0, A1, A2. auto.
Qed.
Lemma vortex_field : exists L a, laser_init Rt [0;-3] [2;4] [4;5]%nat ex_vortex 2 None = Ok L /\
  snd (get_temporal_field (l_grid L)) = Ok a /\ shp a = [3;4;5]%nat /\ l_dim L = Rt /\
  g_modes (l_grid L) = Some [0; 1; -1]%Z /\ g_nmodes (l_grid L) = Some 2%nat /\ g_npoints (l_grid L) = [4;5]%nat /\
  (forall j k, (j < 4)%nat -> (k < 5)%nat ->
     at3 a 0 j k = RtoC 0 /\ at3 a 1 j k = RtoC (coord 0 2 4 j) /\ at3 a 2 j k = RtoC 0).
Proof.
  destruct (vortex_field_at (-3) 4) as (L & a & H1 & H2 & H3 & H4 & H5 & H6 & H7 & _ & _ & H8); [lra|].
  exists L, a. auto 10.
Qed.
