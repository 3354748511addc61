(** Concrete resampling propagations: witnesses for C23-C25 and the mode-label counterexample of C24. *)
From Verif Require Import PyBase CSum NpFFT FFTProofs NumPy GridModel GridSpec GridProofs LaserSpec GridObs
  EnergyModel EnergyProofs AngularProofs LaserModel OpticsModel LaserOps LaserInv LaserInitProofs LaserStepProofs
  PropagateProofs HistoryProofs OpticsProofs OpticsProofs2 LaserExamples SolverSpec PropLaws ResampleProofs.
Open Scope R_scope.

(** A pure m = 2 vortex (r exp(-i theta))^2. *)
Definition ex_vortex2 : profile :=
  mkProfile (2 * PI * c_light) 1 (RtoC 1, RtoC 0) None Complex128 (fun x y t => Cmult (x, - y) (x, - y)).
Lemma vortex2_content r t theta :
  p_eval ex_vortex2 (r * cos theta) (r * sin theta) t =
  recon 3 (fun m => if Z.eqb m 2 then RtoC (r * r) else RtoC 0) theta.
Proof.
  unfold ex_vortex2, recon; cbn [p_eval]. cbn [csum Nat.mul Nat.sub Nat.add]. cbn.
  unfold cis, Cplus, Cmult, RtoC; cbn [fst snd].
  rewrite (cos_neg (2 * theta)), (sin_neg (2 * theta)), cos_2a, sin_2a. f_equal; ring.
Qed.

Lemma grid_rt_ok lo hi np n1 nt (M : nat) : length lo = 2%nat -> length hi = 2%nat ->
  nth_error np 0 = Some n1 -> nth_error np 1 = Some nt -> (2 <= n1)%nat -> (2 <= nt)%nat -> (1 <= M)%nat ->
  exists g, grid_init Rt lo hi np (Some (Z.of_nat M)) true = Ok g.
Proof.
  intros Hlo Hhi N1 N2 G1 G2 HM. apply grid_init_ok_iff. conj; try assumption; try discriminate.
  - intros q Hq. destruct q as [|[|q]]; simpl in Hq; try lia; eauto.
  - intros _. exists (Z.of_nat M). split; [reflexivity|lia].
Qed.

Lemma user_grid_init lo hi np M g : grid_init Rt lo hi np (Some M) true = Ok g -> user_grid g.
Proof. intros H. exists lo, hi, np, M, g, []. split; [exact H|reflexivity]. Qed.

(** Resampling to a smaller number of modes: the component labelled -1 of the result is the
    component labelled +2 of the original. *)
Lemma ex_mislabel : exists L gn L' a a',
  laser_init Rt [0;-3] [2;4] [4;5]%nat ex_vortex2 3 None = Ok L /\
  grid_init Rt [0;-3] [2;4] [4;5]%nat (Some 2%Z) true = Ok gn /\
  propagate id_solvers L 0 None (Some gn) 0%nat = (L', Ok tt) /\
  g_modes (l_grid L) = Some [0;1;2;-2;-1]%Z /\ g_modes (l_grid L') = Some [0;1;-1]%Z /\
  snd (get_temporal_field (l_grid L)) = Ok a /\ snd (get_temporal_field (l_grid L')) = Ok a' /\
  (forall j k, (j < 4)%nat -> (k < 5)%nat -> at3 a 4 j k = RtoC 0) /\
  (forall j k, (j < 4)%nat -> (k < 5)%nat -> at3 a' 2 j k = at3 a 2 j k) /\
  (forall k, (k < 5)%nat -> at3 a' 2 1 k <> RtoC 0).
Proof.
  destruct (rt_construct_ok [0;-3] [2;4] [4;5]%nat 4 5 ex_vortex2 3 None) as (L & HL);
    try reflexivity; simpl; try lia; try lra; try exact I.
  change (Z.of_nat 3) with 3%Z in HL.
  destruct (grid_rt_ok [0;-3] [2;4] [4;5]%nat 4 5 2) as (gn & Hgn); try reflexivity; try lia.
  change (Z.of_nat 2) with 2%Z in Hgn.
  destruct (rt_modes [0;-3] [2;4] [4;5]%nat 4 5 ex_vortex2 3 None L 2
     (fun m r t => if Z.eqb m 2 then RtoC (r * r) else RtoC 0) HL) as (a & s & Ha & Hsh & Hs & Hm & He);
    try reflexivity; simpl; try lia; try lra; try exact I; try exact vortex2_content.
  simpl in He. subst s.
  destruct (laser_init_Inv _ _ _ _ _ _ _ _ HL) as (g & n0 & n1 & nt & Hg & Hmt & D1 & D2 & D3 & D4 & D5 & Hn' & GS & HI).
  destruct (grid_init_GShape_rt _ _ _ _ _ _ Hg) as (n1' & nt' & N1 & N2 & _ & GS').
  simpl in N1, N2. injection N1 as <-. injection N2 as <-.
  assert (HI' : Inv L 5 4 5).
  { assert (E : [n0;n1;nt] = [5;4;5]%nat).
    { rewrite <- (gs_shape _ _ _ _ _ GS), (gs_shape _ _ _ _ _ GS'). reflexivity. }
    injection E as -> -> ->. exact HI. }
  clear HI GS. pose proof (i_coh _ _ _ _ HI') as HG.
  destruct (tread_sread_ok _ _ (proj1 HG) Ha) as (sp & Hsp).
  destruct (sread_shape _ _ (proj1 HG) Hsp) as (Ssh & Sdt).
  rewrite (gs_shape _ _ _ _ _ (i_shape _ _ _ _ HI')) in Ssh.
  destruct (grid_init_GShape_rt _ _ _ _ _ _ Hgn) as (m1 & mt & N1 & N2 & _ & GSn).
  simpl in N1, N2. injection N1 as <-. injection N2 as <-. change (Z.to_nat 2) with 2%nat in GSn. simpl in GSn.
  pose proof (grid_init_CohG _ _ _ _ _ _ Hgn) as HGn.
  destruct (propagate_resample id_solvers L 5 4 5 0 None gn 0%nat sp 3 4 5 HI' D1 GSn HGn eq_refl Hsp)
    as [(_ & _ & g1 & Hp & HG1 & HM1 & HS1 & HT1)|[(Hx & _)|(_ & Hx & _)]]; try lia.
  assert (Hmodes : g_modes gn = Some [0;1;-1]%Z).
  { destruct (gs_rt _ _ _ _ _ GSn eq_refl) as (M & HM & Hn0 & Hmo & _). assert (M = 2)%nat by lia. subst M.
    rewrite Hmo. reflexivity. }
  assert (Hmodes0 : g_modes (l_grid L) = Some [0;1;2;-2;-1]%Z).
  { pose proof (i_shape _ _ _ _ HI') as GSL. rewrite D1 in GSL.
    destruct (gs_rt _ _ _ _ _ GSL eq_refl) as (M & HM & Hn0 & Hmo & _). assert (M = 3)%nat by lia. subst M.
    rewrite Hmo. reflexivity. }
  eexists L, gn, _, a, _. split; [exact HL|]. split; [exact Hgn|]. split; [exact Hp|].
  split; [exact Hmodes0|]. split.
  { cbn [l_grid set_grid shift_domain with_domain g_modes]. destruct HM1 as (_&_&_&_&_&_&M7&_).
    rewrite M7. cbn [overwrite_time with_domain g_modes]. exact Hmodes. }
  split; [exact Ha|]. split.
  { cbn [l_grid set_grid shift_domain].
    etransitivity; [|exact HT1]. unfold tread, get_temporal_field, with_domain; cbn.
    destruct (g_tv g1), (g_sv g1); reflexivity. }
  assert (E4 : forall j k, (j < 4)%nat -> (k < 5)%nat -> at3 a 4 j k = RtoC 0).
  { intros j k Hj Hk. change 4%nat with (mode_slot 3 (-1)%Z). rewrite Hm by lia. apply Cmult_1_l. }
  assert (E2 : forall j k, (j < 4)%nat -> (k < 5)%nat ->
     at3 a 2 j k = RtoC (coord 0 2 4 j * coord 0 2 4 j)).
  { intros j k Hj Hk. change 2%nat with (mode_slot 3 2%Z). rewrite Hm by lia. apply Cmult_1_l. }
  match goal with |- _ /\ ?P /\ _ => assert (EQ : P) end.
  { intros j k Hj Hk. destruct (reads_dft _ _ _ HG Ha Hsp) as (_ & _ & HE).
    rewrite HE by (unfold inb, dim0, dim1, dim2; rewrite Hsh; simpl; lia).
    unfold np_fft_last; cbn [at3]. unfold dim2. rewrite Ssh. cbn [apply_phase shp nth].
    apply fft1_ext. intros q Hq.
    cbn [apply_phase at3]. rewrite time_phase_0, Cmult_1_r.
    unfold step_mode, build_rt. rewrite Hmodes. cbn [map nth_error]. reflexivity. }
  conj; [exact E4|exact EQ|]. intros k Hk. rewrite (EQ 1%nat k) by lia. rewrite E2 by lia.
  unfold coord. simpl. intros H. injection H. lra.
Qed.

(** A laser on a (4,5) cylindrical grid and a grid with the same number of time points and modes,
    or another number of time points. *)
Lemma ex_resample p lo hi d b : p_energy p = None -> length lo = 2%nat -> length hi = 2%nat ->
  exists L gn L', laser_init Rt [0;-3] [2;4] [4;5]%nat p 2 None = Ok L /\
    grid_init Rt lo hi [3;5]%nat (Some 2%Z) true = Ok gn /\
    propagate id_solvers L d None (Some gn) b = (L', Ok tt) /\ consistent (l_grid L) /\
    nth 1 (g_dx (l_grid L)) 0 = 7 / 4 /\ nth 1 (g_dx gn) 0 = (nth 1 hi 0 - nth 1 lo 0) / 4.
Proof.
  intros Hpe Hlo Hhi.
  destruct (ex_rt p None) as (L & HL); [rewrite Hpe; exact I|lia|].
  destruct (grid_rt_ok lo hi [3;5]%nat 3 5 2 Hlo Hhi) as (gn & Hgn); try reflexivity; try lia.
  change (Z.of_nat 2) with 2%Z in Hgn.
  destruct (laser_init_Inv _ _ _ _ _ _ _ _ HL) as (g & n0 & n1 & nt & Hg & Hmt & D1 & D2 & D3 & D4 & D5 & Hn' & GS & HI).
  destruct (grid_init_GShape_rt _ _ _ _ _ _ Hg) as (n1' & nt' & N1 & N2 & _ & GS').
  simpl in N1, N2. injection N1 as <-. injection N2 as <-.
  assert (HI' : Inv L 3 4 5).
  { assert (E : [n0;n1;nt] = [3;4;5]%nat).
    { rewrite <- (gs_shape _ _ _ _ _ GS), (gs_shape _ _ _ _ _ GS'). reflexivity. }
    injection E as -> -> ->. exact HI. }
  clear HI GS. pose proof (i_coh _ _ _ _ HI') as HG.
  destruct (i_read _ _ _ _ HI') as (a & Ha).
  destruct (tread_sread_ok _ _ (proj1 HG) Ha) as (sp & Hsp).
  destruct (grid_init_GShape_rt _ _ _ _ _ _ Hgn) as (m1 & mt & N1 & N2 & _ & GSn).
  simpl in N1, N2. injection N1 as <-. injection N2 as <-. change (Z.to_nat 2) with 2%nat in GSn. simpl in GSn.
  pose proof (grid_init_CohG _ _ _ _ _ _ Hgn) as HGn.
  destruct (propagate_resample id_solvers L 3 4 5 d None gn b sp 3 3 5 HI' D1 GSn HGn eq_refl Hsp)
    as [(_ & _ & g1 & Hp & _)|[(Hx & _)|(_ & Hx & _)]]; try lia.
  eexists L, gn, _. split; [exact HL|]. split; [exact Hgn|]. split; [exact Hp|].
  split; [apply (consistent_meta g); [exact Hmt|apply (consistent_init _ _ _ _ _ _ _ Hg)]|].
  split.
  - destruct Hmt as (_&_&_&_&M5&_). rewrite M5.
    rewrite (dx_spacing _ _ _ _ _ _ _ 1%nat 5%nat Hg); [|simpl; lia|reflexivity].
    unfold spacing. simpl. lra.
  - rewrite (dx_spacing _ _ _ _ _ _ _ 1%nat 5%nat Hgn); [|simpl; lia|reflexivity].
    unfold spacing. simpl. lra.
Qed.

Lemma ex_resample_bad_nt p lo hi : p_energy p = None -> length lo = 2%nat -> length hi = 2%nat ->
  exists L gn, laser_init Rt [0;-3] [2;4] [4;5]%nat p 2 None = Ok L /\ l_dim L = Rt /\
    grid_init Rt lo hi [3;6]%nat (Some 2%Z) true = Ok gn /\
    last (g_shape gn) 0%nat <> last (g_shape (l_grid L)) 0%nat.
Proof.
  intros Hpe Hlo Hhi.
  destruct (ex_rt p None) as (L & HL); [rewrite Hpe; exact I|lia|].
  destruct (grid_rt_ok lo hi [3;6]%nat 3 6 2 Hlo Hhi) as (gn & Hgn); try reflexivity; try lia.
  change (Z.of_nat 2) with 2%Z in Hgn.
  destruct (laser_init_Inv _ _ _ _ _ _ _ _ HL) as (g & n0 & n1 & nt & Hg & Hmt & D1 & _ & _ & _ & _ & _ & GS & HI).
  destruct (grid_init_GShape_rt _ _ _ _ _ _ Hg) as (n1' & nt' & N1 & N2 & _ & GS').
  destruct (grid_init_GShape_rt _ _ _ _ _ _ Hgn) as (m1 & mt & N1' & N2' & _ & GSn).
  simpl in N1, N2, N1', N2'. injection N1 as <-. injection N2 as <-. injection N1' as <-. injection N2' as <-.
  exists L, gn. conj; try assumption. destruct Hmt as (_&_&_&_&_&_&_&Hs&_).
  rewrite Hs, (gs_shape _ _ _ _ _ GS'), (gs_shape _ _ _ _ _ GSn). simpl. lia.
Qed.
