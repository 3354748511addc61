(** Concrete programs with two lasers and one Grid (C84). *)
From Verif Require Import PyBase CSum NpFFT FFTProofs NumPy GridModel GridSpec GridProofs LaserSpec GridObs
  EnergyModel EnergyProofs AngularProofs LaserModel OpticsModel LaserOps LaserInv LaserInitProofs LaserStepProofs
  PropagateProofs HistoryProofs OpticsProofs OpticsProofs2 LaserExamples SolverSpec PropLaws ResampleProofs
  ResampleExamples WorldModel WorldSpec WorldProofs.
Open Scope R_scope.

(** The constant envelope v. *)
Definition flat (v : R) : profile :=
  mkProfile (2 * PI * c_light) 1 (RtoC 1, RtoC 0) None Complex128 (fun x y t => RtoC v).
Lemma flat_content v r t theta :
  p_eval (flat v) (r * cos theta) (r * sin theta) t = recon 1 (fun m => RtoC v) theta.
Proof.
  unfold flat, recon; cbn [p_eval]. cbn [csum Nat.mul Nat.sub Nat.add]. cbn.
  replace (-(0 * theta)) with 0 by ring. unfold cis, Cplus, Cmult, RtoC; cbn [fst snd]. rewrite cos_0, sin_0. f_equal; ring.
Qed.
Lemma flat_laser v : exists L, laser_init Rt [0;-3] [2;4] [4;5]%nat (flat v) 2 None = Ok L.
Proof. apply ex_rt; [exact I|lia]. Qed.

Lemma flat_resample v L gn d : laser_init Rt [0;-3] [2;4] [4;5]%nat (flat v) 2 None = Ok L ->
  GShape Rt gn 3 4 5 -> CohG gn ->
  exists L', propagate id_solvers L d None (Some gn) 0%nat = (L', Ok tt) /\ l_dim L = Rt /\
    GShape Rt (l_grid L') 3 4 5 /\ CohG (l_grid L') /\
    (d = 0 -> exists a', snd (get_temporal_field (l_grid L')) = Ok a' /\ at3 a' 0 1 1 = RtoC v).
Proof.
  intros HL GSn HGn.
  destruct (rt_modes [0;-3] [2;4] [4;5]%nat 4 5 (flat v) 2 None L 0
     (fun m r t => RtoC v) HL) as (a & s & Ha & Hsh & Hs & Hm & He);
    try reflexivity; simpl; try lia; try lra; try exact I; try exact (flat_content v).
  simpl in He. subst s.
  destruct (laser_init_Inv _ _ _ _ _ _ _ _ HL) as (g & n0 & n1 & nt & Hg & Hmt & D1 & D2 & D3 & D4 & D5 & Hn' & GS & HI).
  destruct (grid_init_GShape_rt _ _ _ _ _ _ Hg) as (n1' & nt' & N1 & N2 & _ & GS').
  simpl in N1, N2. injection N1 as <-. injection N2 as <-.
  assert (HI' : Inv L 3 4 5).
  { assert (E : [n0;n1;nt] = [3;4;5]%nat).
    { rewrite <- (gs_shape _ _ _ _ _ GS), (gs_shape _ _ _ _ _ GS'). reflexivity. }
    injection E as -> -> ->. exact HI. }
  clear HI GS. pose proof (i_coh _ _ _ _ HI') as HG.
  destruct (tread_sread_ok _ _ (proj1 HG) Ha) as (sp & Hsp).
  destruct (sread_shape _ _ (proj1 HG) Hsp) as (Ssh & Sdt).
  rewrite (gs_shape _ _ _ _ _ (i_shape _ _ _ _ HI')) in Ssh.
  destruct (propagate_resample id_solvers L 3 4 5 d None gn 0%nat sp 3 4 5 HI' D1 GSn HGn eq_refl Hsp)
    as [(_ & _ & g1 & Hp & HG1 & HM1 & HS1 & HT1)|[(Hx & _)|(_ & Hx & _)]]; try lia.
  assert (Hmodes : g_modes gn = Some [0;1;-1]%Z).
  { destruct (gs_rt _ _ _ _ _ GSn eq_refl) as (M & HM & Hn0 & Hmo & _). assert (M = 2)%nat by lia. subst M.
    rewrite Hmo. reflexivity. }
  eexists. split; [exact Hp|]. split; [exact D1|]. cbn [l_grid set_grid]. split.
  { apply shift_GShape. eapply GShape_meta; [exact HM1|]. apply overwrite_GShape; [exact GSn|].
    apply (gs_tax _ _ _ _ _ (i_shape _ _ _ _ HI')). }
  split; [apply shift_meta_Coh, HG1|]. intros ->. eexists. split.
  { etransitivity; [|exact HT1]. unfold tread, get_temporal_field, shift_domain, with_domain; cbn.
    destruct (g_tv g1), (g_sv g1); reflexivity. }
  assert (E0 : at3 a 0 1 1 = RtoC v).
  { change 0%nat with (mode_slot 2 0%Z) at 1. rewrite Hm by lia. apply Cmult_1_l. }
  rewrite <- E0. destruct (reads_dft _ _ _ HG Ha Hsp) as (_ & _ & HE).
  rewrite HE by (unfold inb, dim0, dim1, dim2; rewrite Hsh; simpl; lia).
  unfold np_fft_last; cbn [at3]. unfold dim2. rewrite Ssh. cbn [apply_phase shp nth].
  apply fft1_ext. intros q Hq.
  cbn [apply_phase at3]. rewrite time_phase_0, Cmult_1_r.
  unfold step_mode, build_rt. rewrite Hmodes. cbn [map nth_error]. reflexivity.
Qed.

(** Two lasers with the envelopes 1 and 0, and a Grid. *)
Definition two_lasers : list wop :=
  [NewLaser Rt [0;-3] [2;4] [4;5]%nat (flat 1) 2 None; NewLaser Rt [0;-3] [2;4] [4;5]%nat (flat 0) 2 None;
   NewGrid Rt [0;-3] [1;4] [4;5]%nat (Some 2%Z) true].
Lemma two_lasers_world : exists L0 L1 gn,
  laser_init Rt [0;-3] [2;4] [4;5]%nat (flat 1) 2 None = Ok L0 /\
  laser_init Rt [0;-3] [2;4] [4;5]%nat (flat 0) 2 None = Ok L1 /\
  grid_init Rt [0;-3] [1;4] [4;5]%nat (Some 2%Z) true = Ok gn /\
  let w := wrun id_solvers empty_world two_lasers in
  w_nl w = 2%nat /\ w_ng w = 3%nat /\ w_lg w 0 = 0%nat /\ w_lg w 1 = 1%nat /\
  laser_at w 0 = L0 /\ laser_at w 1 = L1 /\ grid_at w 2 = gn.
Proof.
  destruct (flat_laser 1) as (L0 & H0). destruct (flat_laser 0) as (L1 & H1).
  destruct (grid_rt_ok [0;-3] [1;4] [4;5]%nat 4 5 2) as (gn & Hgn); try reflexivity; try lia.
  exists L0, L1, gn. conj; try assumption. unfold two_lasers. cbn [wrun wstep]. rewrite H0. cbn [fst]. rewrite H1. cbn [fst].
  change (Z.of_nat 2) with 2%Z in Hgn. rewrite Hgn. cbn [fst].
  assert (E : forall v, with_domain v (g_lo v) (g_hi v) (put_last (g_axes v) (time_axis v)) = v) by (intros v; apply grid_eta, put_last_same).
  assert (E' : forall L, set_grid L (l_grid L) = L) by (intros []; reflexivity).
  conj; try reflexivity; unfold laser_at, grid_at; cbn; rewrite E; try apply E'; reflexivity.
Qed.
Lemma free_join S h2 : forall h w0, free_targets S w0 h -> free_targets S (wrun S w0 h) h2 -> free_targets S w0 (h ++ h2).
Proof. induction h as [|o h IH]; intros w0 H1 H2; [exact H2|]. cbn [app free_targets wrun] in *. destruct H1. split; [assumption|]. apply IH; assumption. Qed.
Lemma two_lasers_free S : free_targets S empty_world two_lasers.
Proof. cbn; tauto. Qed.

(** Sending laser 0 and then laser 1 onto that Grid: the second call changes laser 0. *)
Definition send (l : nat) (d : R) : wop := CallPropagate l d None (Some 2%nat) 0%nat.
Lemma c84_clobber_gen w0 L0 L1 gn : WInv w0 ->
  laser_init Rt [0;-3] [2;4] [4;5]%nat (flat 1) 2 None = Ok L0 ->
  laser_init Rt [0;-3] [2;4] [4;5]%nat (flat 0) 2 None = Ok L1 ->
  grid_init Rt [0;-3] [1;4] [4;5]%nat (Some 2%Z) true = Ok gn ->
  w_nl w0 = 2%nat -> w_ng w0 = 3%nat -> w_lg w0 0 = 0%nat -> w_lg w0 1 = 1%nat ->
  laser_at w0 0 = L0 -> laser_at w0 1 = L1 -> grid_at w0 2 = gn ->
  exists f f',
  let w := fst (wstep id_solvers w0 (send 0 0)) in
  let w' := fst (wstep id_solvers w (send 1 0)) in
  snd (wstep id_solvers w (send 1 0)) = Ok tt /\ (0 < w_nl w)%nat /\ ~ acts_on w (send 1 0) 0 /\
  snd (get_temporal_field (l_grid (laser_at w 0))) = Ok f /\ at3 f 0 1 1 = RtoC 1 /\
  snd (get_temporal_field (l_grid (laser_at w' 0))) = Ok f' /\ at3 f' 0 1 1 = RtoC 0.
Proof.
  intros I0 H0 H1 Hgn W1 W2 W3 W4 W5 W6 W7.
  destruct (grid_init_GShape_rt _ _ _ _ _ _ Hgn) as (m1 & mt & N1 & N2 & _ & GSn).
  simpl in N1, N2. injection N1 as <-. injection N2 as <-. change (Z.to_nat 2) with 2%nat in GSn. simpl in GSn.
  pose proof (grid_init_CohG _ _ _ _ _ _ Hgn) as HGn.
  destruct (flat_resample 1 L0 gn 0 H0 GSn HGn) as (L0' & P0 & D0 & GS0 & HG0 & F0). destruct (F0 eq_refl) as (f & Hf & Vf).
  destruct (flat_resample 0 L1 (l_grid L0') 0 H1 GS0 HG0) as (L1' & P1 & D1 & GS1 & HG1 & F1). destruct (F1 eq_refl) as (f' & Hf' & Vf').
  assert (DL0 : l_dim (w_la w0 0) = Rt) by (rewrite <- W5 in D0; exact D0).
  assert (DL1 : l_dim (w_la w0 1) = Rt) by (rewrite <- W6 in D1; exact D1).
  exists f, f'. set (w := fst (wstep id_solvers w0 (send 0 0))).
  assert (S0 : wstep id_solvers w0 (send 0 0) = call_resample id_solvers w0 0 0 None 2 0%nat).
  { unfold send; cbn [wstep]. rewrite W1, W2. cbn [Nat.ltb Nat.leb negb]. rewrite DL0. reflexivity. }
  destruct (resample_value id_solvers w0 0 0 None 2 0%nat DL0) as (V1 & V2); [rewrite W3; lia|].
  rewrite W5, W7, P0 in V1, V2. cbn [fst snd] in V1, V2. rewrite <- S0 in V1, V2. fold w in V1.
  assert (O1 : laser_at w 1 = L1).
  { rewrite <- W6. unfold w. apply c84_isolated; [exact I0| |rewrite W1; lia|cbn; lia].
    unfold send; cbn [free_target]. unfold uses. intros l (U1 & U2). rewrite W1 in U1. destruct l as [|[|]]; try lia; congruence. }
  assert (R : w_lg w = upd (w_lg w0) 0 2%nat /\ w_ng w = w_ng w0 /\ w_nl w = w_nl w0 /\ (forall k, k <> 0%nat -> w_la w k = w_la w0 k)).
  { apply resample_refs; try assumption; try lia. }
  destruct R as (R1 & R2 & R3 & R4).
  assert (G2 : grid_at w 2 = l_grid L0').
  { rewrite <- V1. unfold laser_at. rewrite R1, upd_same. reflexivity. }
  assert (S1 : wstep id_solvers w (send 1 0) = call_resample id_solvers w 1 0 None 2 0%nat).
  { unfold send; cbn [wstep]. rewrite R3, R2, W1, W2, R4 by lia. cbn [Nat.ltb Nat.leb negb]. rewrite DL1. reflexivity. }
  destruct (resample_value id_solvers w 1 0 None 2 0%nat) as (X1 & X2); [rewrite R4 by lia; exact DL1|rewrite R1, upd_other, W4 by lia; lia|].
  rewrite O1, G2, P1 in X1, X2. cbn [fst snd] in X1, X2. rewrite <- S1 in X1, X2.
  cbn zeta. split; [exact X2|]. split; [rewrite R3, W1; lia|]. split; [unfold send; cbn [acts_on]; lia|].
  split; [rewrite V1; exact Hf|]. split; [exact Vf|]. split; [|exact Vf'].
  assert (Y : l_grid (laser_at (fst (wstep id_solvers w (send 1 0))) 0) = l_grid (laser_at (fst (wstep id_solvers w (send 1 0))) 1)).
  { assert (B0 : (0 < w_nl w0)%nat) by (rewrite W1; lia). assert (B1 : (1 < w_nl w0)%nat) by (rewrite W1; lia).
    assert (B2 : (2 < w_ng w0)%nat) by (rewrite W2; lia).
    exact (c84_shared id_solvers w0 0 1 0 0 None None 2 0%nat 0%nat DL0 DL1 (O_S 0) B0 B1 B2 V2 X2). }
  rewrite Y, X1. exact Hf'.
Qed.
Lemma c84_clobber : exists f f',
  let w := wrun id_solvers empty_world (two_lasers ++ [send 0 0]) in
  let w' := fst (wstep id_solvers w (send 1 0)) in
  snd (wstep id_solvers w (send 1 0)) = Ok tt /\ (0 < w_nl w)%nat /\ ~ acts_on w (send 1 0) 0 /\
  snd (get_temporal_field (l_grid (laser_at w 0))) = Ok f /\ at3 f 0 1 1 = RtoC 1 /\
  snd (get_temporal_field (l_grid (laser_at w' 0))) = Ok f' /\ at3 f' 0 1 1 = RtoC 0.
Proof.
  destruct two_lasers_world as (L0 & L1 & gn & H0 & H1 & Hgn & W1 & W2 & W3 & W4 & W5 & W6 & W7).
  rewrite run_app. cbn [wrun]. revert W1 W2 W3 W4 W5 W6 W7.
  assert (I0 : WInv (wrun id_solvers empty_world two_lasers)) by (apply WInv_run; [apply WInv_empty|apply two_lasers_free]).
  revert I0. generalize (wrun id_solvers empty_world two_lasers). intros w0 I0 W1 W2 W3 W4 W5 W6 W7.
  exact (c84_clobber_gen w0 L0 L1 gn I0 H0 H1 Hgn W1 W2 W3 W4 W5 W6 W7).
Qed.
Lemma c84_example_gen w0 L0 L1 gn d :
  laser_init Rt [0;-3] [2;4] [4;5]%nat (flat 1) 2 None = Ok L0 ->
  laser_init Rt [0;-3] [2;4] [4;5]%nat (flat 0) 2 None = Ok L1 ->
  grid_init Rt [0;-3] [1;4] [4;5]%nat (Some 2%Z) true = Ok gn ->
  w_nl w0 = 2%nat -> w_ng w0 = 3%nat -> w_lg w0 0 = 0%nat -> w_lg w0 1 = 1%nat ->
  laser_at w0 0 = L0 -> laser_at w0 1 = L1 -> grid_at w0 2 = gn ->
  free_targets id_solvers w0 [send 0 d; CallNormalize 1 (Some 1) KField; CallGrid 0 GetS] /\
w_nl w0 = 2%nat /\ w_ng w0 = 3%nat /\ l_dim (w_la w0 0) = Rt /\ l_dim (w_la w0 1) = Rt /\
  g_axes (grid_at w0 (w_lg w0 0)) <> [] /\ w_lg w0 0 = 0%nat /\
  no_grid_calls id_solvers w0 [send 0 d; CallNormalize 1 (Some 1) KField; CallGrid 0 GetS] 0 /\
  snd (wstep id_solvers w0 (send 0 d)) = Ok tt /\
  calls_on id_solvers w0 [send 0 d; CallNormalize 1 (Some 1) KField; CallGrid 0 GetS] 0 =
    [OpPropagate d None (Some (grid_at w0 2)) 0%nat].
Proof.
  intros H0 H1 Hgn W1 W2 W3 W4 W5 W6 W7.
  destruct (grid_init_GShape_rt _ _ _ _ _ _ Hgn) as (m1 & mt & N1 & N2 & _ & GSn).
  simpl in N1, N2. injection N1 as <-. injection N2 as <-. change (Z.to_nat 2) with 2%nat in GSn. simpl in GSn.
  pose proof (grid_init_CohG _ _ _ _ _ _ Hgn) as HGn.
  destruct (flat_resample 1 L0 gn d H0 GSn HGn) as (L0' & P0 & D0 & GS0 & HG0 & _).
  destruct (flat_resample 0 L1 gn d H1 GSn HGn) as (L1' & _ & D1 & _).
  assert (DL0 : l_dim (w_la w0 0) = Rt) by (rewrite <- W5 in D0; exact D0).
  assert (DL1 : l_dim (w_la w0 1) = Rt) by (rewrite <- W6 in D1; exact D1).
  assert (S0 : wstep id_solvers w0 (send 0 d) = call_resample id_solvers w0 0 d None 2 0%nat).
  { unfold send; cbn [wstep]. rewrite W1, W2. cbn [Nat.ltb Nat.leb negb]. rewrite DL0. reflexivity. }
  destruct (resample_value id_solvers w0 0 d None 2 0%nat DL0) as (V1 & V2); [rewrite W3; lia|].
  rewrite W5, W7, P0 in V1, V2. cbn [fst snd] in V1, V2. rewrite <- S0 in V1, V2.
  destruct (resample_refs id_solvers w0 0 d None 2 0%nat DL0) as (R1 & R2 & R3 & R4); [lia|lia|exact V2|]. fold (send 0 d) in R1, R2, R3, R4.
  set (w1 := fst (wstep id_solvers w0 (send 0 d))) in *.
  assert (Q : forall w o, wstep id_solvers w (CallNormalize 1 o KField) = if Nat.ltb 1 (w_nl w) then call_laser id_solvers w 1 (OpNormalize o KField) else (w, Err OtherException)) by reflexivity.
  assert (G0 : g_axes (l_grid L0) <> []).
  { destruct (laser_init_Inv _ _ _ _ _ _ _ _ H0) as (g & n0 & n1 & nt & _ & _ & _ & _ & _ & _ & _ & _ & GS & HI).
    intros E. pose proof (gs_tax _ _ _ _ _ (i_shape _ _ _ _ HI)) as T. unfold time_axis in T. rewrite E in T. cbn in T.
    pose proof (gs_shape _ _ _ _ _ (i_shape _ _ _ _ HI)) as T'.
    destruct (rt_modes [0;-3] [2;4] [4;5]%nat 4 5 (flat 1) 2 None L0 0 (fun m r t => RtoC 1) H0) as (a & s & Ha & Hsh & _);
      try reflexivity; simpl; try lia; try lra; try exact I; try exact (flat_content 1).
    destruct (tread_shape _ _ (proj1 (i_coh _ _ _ _ HI)) Ha) as (TS & _). rewrite Hsh, T' in TS. injection TS as _ _ <-. discriminate. }
  split; [unfold send; cbn [free_targets free_target]; conj; try exact I; unfold uses; intros l (U1 & U2); rewrite W1 in U1; destruct l as [|[|]]; try lia; congruence|].
  conj; try assumption.
  - rewrite <- W5 in G0. exact G0.
  - cbn [no_grid_calls send]. conj; try exact I. fold (send 0 d) w1. cbn [wstep]. rewrite R3, W1. cbn [Nat.ltb Nat.leb call_laser fst store_laser store_grid w_lg].
    rewrite upd_other by lia. rewrite R1, upd_same. lia.
  - cbn [calls_on call_on send Nat.eqb app]. rewrite W2. reflexivity.
Qed.
Lemma c84_example : forall d,
  let h := two_lasers ++ [send 0 d; CallNormalize 1 (Some 1) KField; CallGrid 0 GetS] in
  let w0 := wrun id_solvers empty_world two_lasers in
  free_targets id_solvers empty_world h /\ w_nl w0 = 2%nat /\ w_ng w0 = 3%nat /\ l_dim (w_la w0 0) = Rt /\ l_dim (w_la w0 1) = Rt /\
  g_axes (grid_at w0 (w_lg w0 0)) <> [] /\ w_lg w0 0 = 0%nat /\
  no_grid_calls id_solvers w0 [send 0 d; CallNormalize 1 (Some 1) KField; CallGrid 0 GetS] 0 /\
  snd (wstep id_solvers w0 (send 0 d)) = Ok tt /\
  calls_on id_solvers w0 [send 0 d; CallNormalize 1 (Some 1) KField; CallGrid 0 GetS] 0 =
    [OpPropagate d None (Some (grid_at w0 2)) 0%nat].
Proof.
  intros d. destruct two_lasers_world as (L0 & L1 & gn & H0 & H1 & Hgn & W1 & W2 & W3 & W4 & W5 & W6 & W7). cbn zeta.
  destruct (c84_example_gen _ L0 L1 gn d H0 H1 Hgn W1 W2 W3 W4 W5 W6 W7) as (F & H). split; [|exact H].
  apply free_join; [apply two_lasers_free|exact F].
Qed.
