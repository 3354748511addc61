(** Proofs about Laser construction (C07, C08, C09, C13). *)
From Verif Require Import PyBase CSum NpFFT FFTProofs NumPy GridModel GridSpec GridProofs LaserSpec GridObs
  EnergyModel EnergyProofs AngularProofs LaserModel LaserInv.
Open Scope R_scope.

Lemma axis_coord d lo hi np nm b g q n i : grid_init d lo hi np nm b = Ok g ->
  (q < ndims_of d)%nat -> nth_error np q = Some n -> (i < n)%nat ->
  axis_at g q i = coord (nth q lo 0) (nth q hi 0) n i.
Proof.
  intros H Hq Hn Hi. destruct (grid_init_axes _ _ _ _ _ _ _ H) as (_ & _ & _ & _ & Hax).
  destruct (Hax q Hq) as (n' & Hn' & HL & H0 & _ & Hdx & Hst). rewrite Hn in Hn'. injection Hn' as <-.
  unfold axis_at, coord. unfold vget in *. rewrite <- Hdx, <- H0.
  cbn zeta in *.
  induction i as [|i IH]; [simpl; ring|].
  rewrite S_INR. specialize (Hst i Hi). rewrite IH in Hst by lia. lra.
Qed.
Lemma dx_spacing d lo hi np nm b g q n : grid_init d lo hi np nm b = Ok g ->
  (q < ndims_of d)%nat -> nth_error np q = Some n ->
  nth q (g_dx g) 0 = spacing (nth q lo 0) (nth q hi 0) n.
Proof.
  intros H Hq Hn. destruct (grid_init_axes _ _ _ _ _ _ _ H) as (_ & _ & _ & _ & Hax).
  destruct (Hax q Hq) as (n' & Hn' & _ & _ & _ & Hdx & _). rewrite Hn in Hn'. injection Hn' as <-.
  exact Hdx.
Qed.

Lemma spacing_pos lo hi n : (2 <= n)%nat -> lo < hi -> 0 < spacing lo hi n.
Proof.
  intros Hn H. unfold spacing. apply Rdiv_lt_0_compat; [lra|].
  apply le_INR in Hn. simpl in Hn. lra.
Qed.
Lemma coord_nonneg lo hi n i : (2 <= n)%nat -> 0 <= lo -> lo <= hi -> 0 <= coord lo hi n i.
Proof.
  intros Hn H0 H. unfold coord. pose proof (pos_INR i). apply le_INR in Hn. simpl in Hn.
  assert (0 <= (hi - lo) / (INR n - 1)) by (apply Rmult_le_pos; [lra|apply Rlt_le, Rinv_0_lt_compat; lra]).
  nra.
Qed.

Lemma energy_of_xyt lo hi n0 n1 nt nm g g' a :
  grid_init Xyt lo hi [n0;n1;nt] nm true = Ok g -> same_meta g g' -> shp a = [n0;n1;nt] ->
  energy_of Xyt g' a = E_xyt lo hi n0 n1 nt (at3 a).
Proof.
  intros H HM Hs. rewrite (energy_of_meta _ _ _ _ HM), energy_of_eq. unfold E_xyt.
  rewrite <- (rsum3_scal n0 n1 nt). rewrite Rmult_assoc, Rmult_comm, <- rsum3_scal.
  assert (Hl : length (g_dx g) = 3%nat) by (destruct (grid_init_axes _ _ _ _ _ _ _ H) as (_ & _ & _ & Hl & _); exact Hl).
  assert (He : g_isenv g = true).
  { destruct (grid_init_CohG _ _ _ _ _ _ H) as ((He & _) & _). exact He. }
  unfold env_factor; rewrite He. unfold dim0, dim1, dim2; rewrite Hs; cbn [nth].
  rewrite Rmult_comm, <- rsum3_scal.
  apply rsum3_ext; intros i j k _ _ _. unfold cell_volume, cell_volume_xyt, lastR.
  rewrite last_nth, Hl; unfold vget; change (3 - 1)%nat with 2%nat.
  rewrite (dx_spacing _ _ _ _ _ _ _ 0 n0 H), (dx_spacing _ _ _ _ _ _ _ 1 n1 H),
          (dx_spacing _ _ _ _ _ _ _ 2 nt H) by (simpl; try lia; reflexivity).
  field.
Qed.

Lemma energy_of_rt lo hi np n0 n1 nt M g g' a :
  grid_init Rt lo hi np (Some M) true = Ok g -> nth_error np 0 = Some n1 -> nth_error np 1 = Some nt ->
  same_meta g g' -> shp a = [n0;n1;nt] ->
  energy_of Rt g' a = E_rt lo hi n0 n1 nt (at3 a).
Proof.
  intros H N1 N2 HM Hs. rewrite (energy_of_meta _ _ _ _ HM), energy_of_eq. unfold E_rt.
  assert (Hl : length (g_dx g) = 2%nat) by (destruct (grid_init_axes _ _ _ _ _ _ _ H) as (_ & _ & _ & Hl & _); exact Hl).
  assert (He : g_isenv g = true).
  { destruct (grid_init_CohG _ _ _ _ _ _ H) as ((He & _) & _). exact He. }
  unfold env_factor; rewrite He. unfold dim0, dim1, dim2; rewrite Hs; cbn [nth].
  rewrite <- !rsum3_scal.
  apply rsum3_ext; intros i j k _ Hj _. unfold cell_volume. rewrite cell_volume_rt_eq. unfold lastR.
  rewrite last_nth, Hl; unfold vget at 2; change (2 - 1)%nat with 1%nat.
  rewrite (dx_spacing _ _ _ _ _ _ _ 0 n1 H), (dx_spacing _ _ _ _ _ _ _ 1 nt H) by (simpl; try lia; assumption).
  change (vget (nth 0 (g_axes g) []) j) with (axis_at g 0 j).
  rewrite (axis_coord _ _ _ _ _ _ _ 0 n1 j H) by (simpl; try lia; assumption).
  field.
Qed.

Lemma E_xyt_nonneg lo hi n0 n1 nt f : (2 <= n0)%nat -> (2 <= n1)%nat -> (2 <= nt)%nat ->
  nth 0 lo 0 < nth 0 hi 0 -> nth 1 lo 0 < nth 1 hi 0 -> nth 2 lo 0 < nth 2 hi 0 ->
  0 <= E_xyt lo hi n0 n1 nt f.
Proof.
  intros. unfold E_xyt. apply Rmult_le_pos; [|apply rsum3_nonneg; intros; apply Cnorm2_nonneg].
  pose proof eps0_pos. pose proof c_light_pos.
  pose proof (spacing_pos (nth 0 lo 0) (nth 0 hi 0) n0). pose proof (spacing_pos (nth 1 lo 0) (nth 1 hi 0) n1).
  pose proof (spacing_pos (nth 2 lo 0) (nth 2 hi 0) nt).
  generalize dependent (spacing (nth 0 lo 0) (nth 0 hi 0) n0).
  generalize dependent (spacing (nth 1 lo 0) (nth 1 hi 0) n1).
  generalize dependent (spacing (nth 2 lo 0) (nth 2 hi 0) nt). intros.
  repeat apply Rmult_le_pos; try lra; apply Rlt_le; auto.
Qed.
Lemma E_rt_nonneg lo hi n0 n1 nt f : (2 <= n1)%nat -> (2 <= nt)%nat ->
  0 <= nth 0 lo 0 -> nth 0 lo 0 < nth 0 hi 0 -> nth 1 lo 0 < nth 1 hi 0 ->
  0 <= E_rt lo hi n0 n1 nt f.
Proof.
  intros. unfold E_rt. pose proof eps0_pos. pose proof c_light_pos. pose proof PI_RGT_0.
  apply Rmult_le_pos; [lra|]. apply rsum3_nonneg; intros i j k _ _ _.
  pose proof (spacing_pos (nth 0 lo 0) (nth 0 hi 0) n1). pose proof (spacing_pos (nth 1 lo 0) (nth 1 hi 0) nt).
  pose proof (coord_nonneg (nth 0 lo 0) (nth 0 hi 0) n1 j).
  generalize dependent (spacing (nth 0 lo 0) (nth 0 hi 0) n1).
  generalize dependent (spacing (nth 1 lo 0) (nth 1 hi 0) nt). 
  generalize dependent (coord (nth 0 lo 0) (nth 0 hi 0) n1 j). generalize dependent PI. intros.
  repeat apply Rmult_le_pos; try apply Cnorm2_nonneg; try (apply Rlt_le; auto; fail); try lra; auto with real.
Qed.

(** C07 *)
Lemma sample_xyt_shape g n0 n1 nt p : GShape Xyt g n0 n1 nt -> shp (sample_xyt g p) = [n0;n1;nt].
Proof.
  intros [_ _ _ _ Ga _ Gt _ Gx]. cbn [shp sample_xyt]. destruct Gx as (-> & ->); [discriminate|].
  unfold time_axis in Gt. rewrite last_nth, Ga in Gt. simpl in Gt.
  rewrite Gt. reflexivity.
Qed.

Lemma E_xyt_ext lo hi n0 n1 nt f f' :
  (forall i j k, (i < n0)%nat -> (j < n1)%nat -> (k < nt)%nat -> f i j k = f' i j k) ->
  E_xyt lo hi n0 n1 nt f = E_xyt lo hi n0 n1 nt f'.
Proof. intros H. unfold E_xyt. f_equal. apply rsum3_ext. intros; rewrite H by assumption; reflexivity. Qed.
Lemma E_rt_ext lo hi n0 n1 nt f f' :
  (forall i j k, (i < n0)%nat -> (j < n1)%nat -> (k < nt)%nat -> f i j k = f' i j k) ->
  E_rt lo hi n0 n1 nt f = E_rt lo hi n0 n1 nt f'.
Proof. intros H. unfold E_rt. f_equal. apply rsum3_ext. intros; rewrite H by assumption; reflexivity. Qed.

Lemma xyt_samples lo hi n0 n1 nt p nm nte L :
  laser_init Xyt lo hi [n0;n1;nt] p nm nte = Ok L ->
  nth 0 lo 0 < nth 0 hi 0 -> nth 1 lo 0 < nth 1 hi 0 -> nth 2 lo 0 < nth 2 hi 0 ->
  energy_request_ok (p_energy p) ->
  let f := fun i j k => p_eval p (coord (nth 0 lo 0) (nth 0 hi 0) n0 i)
                                 (coord (nth 1 lo 0) (nth 1 hi 0) n1 j)
                                 (coord (nth 2 lo 0) (nth 2 hi 0) nt k) in
  exists a s, snd (get_temporal_field (l_grid L)) = Ok a /\ shp a = [n0;n1;nt] /\ 0 <= s /\
    (forall i j k, (i < n0)%nat -> (j < n1)%nat -> (k < nt)%nat -> at3 a i j k = Cmult (RtoC s) (f i j k)) /\
    energy_factor (p_energy p) (E_xyt lo hi n0 n1 nt f) s.
Proof.
  intros H B0 B1 B2 HE f. rewrite laser_init_split in H.
  destruct (laser_init Xyt lo hi [n0;n1;nt] (no_energy p) nm nte) as [L0|e] eqn:E0; [|discriminate].
  cbn [bind] in H.
  destruct (laser_init_xyt_raw _ _ _ _ _ _ _ E0) as
    (g & n0' & n1' & nt' & Hg & [= <- <- <-] & G2 & GS & Hd & HG & HM & Ht & D1 & D2 & D3 & D4 & D5).
  set (a0 := sample_xyt g p) in *.
  assert (Hs : shp a0 = [n0;n1;nt]) by (apply sample_xyt_shape; exact GS).
  assert (Hf : forall i j k, (i < n0)%nat -> (j < n1)%nat -> (k < nt)%nat -> at3 a0 i j k = f i j k).
  { intros i j k Hi Hj Hk. unfold a0, f. cbn [at3 sample_xyt].
    rewrite (axis_coord _ _ _ _ _ _ _ 0 n0 i Hg), (axis_coord _ _ _ _ _ _ _ 1 n1 j Hg),
      (axis_coord _ _ _ _ _ _ _ 2 nt k Hg) by (simpl; try lia; reflexivity). reflexivity. }
  set (L1 := mkLaser (l_dim L0) (l_grid L0) p (l_iter L0) (l_omega L0) (l_prop L0)) in *.
  assert (He : energy_of (l_dim L1) (l_grid L1) a0 = E_xyt lo hi n0 n1 nt f).
  { unfold L1; cbn [l_dim l_grid]. rewrite D1. rewrite (energy_of_xyt _ _ _ _ _ _ _ _ _ Hg HM Hs).
    apply E_xyt_ext. exact Hf. }
  destruct GS as [_ Gp _ _ _ _ _ _ _].
  pose proof (E_xyt_nonneg lo hi n0 n1 nt f G2 (proj1 (proj2 Gp)) (proj2 (proj2 Gp)) B0 B1 B2) as Hnn.
  destruct (init_normalize_spec L1 a0 HG Ht) as (g' & s & b & Hi & HG' & HM' & Hs0 & Htb & Hsc & Hfac).
  { unfold L1 at 1; cbn [l_prof]. destruct (p_energy p) as [[E|]|]; try exact I. rewrite He.
    destruct Hnn; [right; split; [assumption|exact HE]|left; auto]. }
  rewrite Hi in H. injection H as <-. cbn [l_grid set_grid].
  exists b, s. destruct Hsc as (S1 & S2 & S3). conj.
  - exact Htb.
  - congruence.
  - exact Hs0.
  - intros i j k Hi' Hj Hk. rewrite S3; [rewrite Hf by assumption; reflexivity|].
    unfold inb, dim0, dim1, dim2; rewrite Hs; simpl; auto.
  - unfold L1 in Hfac at 1; cbn [l_prof] in Hfac. unfold energy_factor.
    destruct (p_energy p) as [[E|]|]; try exact Hfac. rewrite He in Hfac. destruct Hfac as (F1 & F2).
    split; [exact F1|]. intros Hp. apply (F2 Hp).
Qed.

(** Construction succeeds. *)
Lemma xyt_construct_ok lo hi n0 n1 nt p nm nte :
  length lo = 3%nat -> length hi = 3%nat -> (2 <= n0)%nat -> (2 <= n1)%nat -> (2 <= nt)%nat ->
  nth 0 lo 0 < nth 0 hi 0 -> nth 1 lo 0 < nth 1 hi 0 -> nth 2 lo 0 < nth 2 hi 0 ->
  energy_request_ok (p_energy p) -> p_dtype p = Complex128 ->
  exists L, laser_init Xyt lo hi [n0;n1;nt] p nm nte = Ok L.
Proof.
  intros Hlo Hhi G0 G1 G2 B0 B1 B2 HE Hd.
  assert (Hex : exists g, grid_init Xyt lo hi [n0;n1;nt] (Some nm) true = Ok g).
  { apply grid_init_ok_iff. repeat split; try assumption; try discriminate.
    intros q Hq. destruct q as [|[|[|q]]]; simpl in *; try lia; eauto. }
  destruct Hex as (g & Hg).
  rewrite laser_init_split.
  destruct (grid_init_GShape_xyt _ _ _ _ _ _ Hg eq_refl) as (? & ? & ? & [= <- <- <-] & _ & GS).
  pose proof (sample_xyt_shape g n0 n1 nt p GS) as Hs.
  pose proof (grid_init_CohG _ _ _ _ _ _ Hg) as HG.
  assert (Hok : exists L0, laser_init Xyt lo hi [n0;n1;nt] (no_energy p) nm nte = Ok L0).
  { unfold laser_init. rewrite Hg. cbn [bind]. rewrite samples_no_energy_xyt.
    destruct (set_t_ok g (sample_xyt g p) (proj1 HG)) as (Hr & _).
    - rewrite Hs. symmetry. apply (gs_shape _ _ _ _ _ GS).
    - exact Hd.
    - rewrite Hr. eexists; reflexivity. }
  destruct Hok as (L0 & E0). rewrite E0; cbn [bind].
  destruct (laser_init_xyt_raw _ _ _ _ _ _ _ E0) as
    (g1 & n0' & n1' & nt' & Hg' & [= <- <- <-] & _ & GS' & _ & HG0 & HM & Ht & D1 & _).
  set (L1 := mkLaser (l_dim L0) (l_grid L0) p (l_iter L0) (l_omega L0) (l_prop L0)) in *.
  destruct (init_normalize_spec L1 (sample_xyt g1 p) HG0 Ht) as (g' & s & b & Hi & _).
  { unfold L1 at 1; cbn [l_prof]. destruct (p_energy p) as [[E|]|]; try exact I.
    unfold L1; cbn [l_dim l_grid]. rewrite D1.
    rewrite (energy_of_xyt _ _ _ _ _ _ _ _ _ Hg' HM (sample_xyt_shape _ _ _ _ p GS')).
    destruct (E_xyt_nonneg lo hi n0 n1 nt (at3 (sample_xyt g1 p)) G0 G1 G2 B0 B1 B2) as [Hn|Hn];
      [right; split; [exact Hn|exact HE]|left; auto]. }
  rewrite Hi. eauto.
Qed.

(** C08 *)
Lemma rt_modes lo hi np n1 nt p (M : nat) nte L (K : nat) (A : Z -> R -> R -> C) :
  laser_init Rt lo hi np p (Z.of_nat M) nte = Ok L ->
  nth_error np 0 = Some n1 -> nth_error np 1 = Some nt ->
  0 <= nth 0 lo 0 -> nth 0 lo 0 < nth 0 hi 0 -> nth 1 lo 0 < nth 1 hi 0 ->
  energy_request_ok (p_energy p) ->
  (forall r t theta, p_eval p (r * cos theta) (r * sin theta) t = recon (S K) (fun m => A m r t) theta) ->
  (Z.of_nat K + Z.of_nat M <= match nte with None => 2 * Z.of_nat M - 1 | Some n => n end)%Z ->
  let f := fun (m : Z) j k =>
     if Z.leb (Z.abs m) (Z.of_nat K)
     then A m (coord (nth 0 lo 0) (nth 0 hi 0) n1 j) (coord (nth 1 lo 0) (nth 1 hi 0) nt k) else RtoC 0 in
  exists a s, snd (get_temporal_field (l_grid L)) = Ok a /\
    shp a = [(2 * M - 1)%nat; n1; nt] /\ 0 <= s /\
    (forall m j k, (- Z.of_nat M < m < Z.of_nat M)%Z -> (j < n1)%nat -> (k < nt)%nat ->
       at3 a (mode_slot M m) j k = Cmult (RtoC s) (f m j k)) /\
    energy_factor (p_energy p)
      (E_rt lo hi (2 * M - 1) n1 nt (fun q j k => f (Z.of_nat q - (Z.of_nat M - 1))%Z j k)) s.
Proof.
  intros H N1 N2 B0 B1 B2 HE HA HN f. rewrite laser_init_split in H.
  destruct (laser_init Rt lo hi np (no_energy p) (Z.of_nat M) nte) as [L0|e] eqn:E0; [|discriminate].
  cbn [bind] in H.
  destruct (laser_init_rt_raw _ _ _ _ _ _ _ E0) as
    (g & n1' & nt' & N & Hg & HM & HNe & HNM & GS & HG & HMt & Ht & D1 & D2 & D3 & D4 & D5).
  rewrite Nat2Z.id in *.
  destruct (grid_init_GShape_rt _ _ _ _ _ _ Hg) as (n1'' & nt'' & N1' & N2' & _ & GS').
  rewrite N1 in N1'; injection N1' as <-. rewrite N2 in N2'; injection N2' as <-. rewrite Nat2Z.id in GS'.
  assert (Q : [(2 * M - 1)%nat; n1; nt] = [(2 * M - 1)%nat; n1'; nt']).
  { rewrite <- (gs_shape _ _ _ _ _ GS), <- (gs_shape _ _ _ _ _ GS'). reflexivity. }
  assert (Q1 : n1' = n1) by congruence. assert (Q2 : nt' = nt) by congruence. clear Q.
  rewrite Q1, Q2 in GS. clear Q1 Q2 GS' n1' nt'.
  set (a0 := take_modes (np_ifft_first (sample_rt g p N)) (Z.of_nat M)) in *.
  destruct GS as [Gs Gp _ _ Ga _ Gt Gr _]. destruct (Gr eq_refl) as (M' & _ & _ & _ & _ & _ & La).
  assert (Hs : shp a0 = [(2 * M - 1)%nat; n1; nt]).
  { pose proof (proj1 (tread_shape _ _ (proj1 HG) Ht)) as Hsh. rewrite Hsh.
    destruct HMt as (_ & _ & _ & _ & _ & _ & _ & Hshp & _). rewrite Hshp. exact Gs. }
  assert (HNp : (0 < N)%nat) by lia.
  assert (Hf : forall m j k, (- Z.of_nat M < m < Z.of_nat M)%Z -> (j < n1)%nat -> (k < nt)%nat ->
             at3 a0 (mode_slot M m) j k = f m j k).
  { intros m j k Hm Hj Hk. unfold a0. rewrite take_modes_slot; [|lia|unfold dim0; simpl; lia|exact Hm].
    assert (Hd0 : dim0 (np_ifft_first (sample_rt g p N)) = N) by reflexivity.
    rewrite Hd0. cbn [at3 np_ifft_first].
    change (dim0 (sample_rt g p N)) with N.
    rewrite (ifft1_ext N _ (fun a => recon (S K) (fun m => A m (axis_at g 0 j) (axis_at g 1 k)) (2 * PI / INR N * INR a))).
    2:{ intros q _. cbn [at3 sample_rt]. apply HA. }
    rewrite (ifft_extract K N _ _ m).
    - unfold f. rewrite (axis_coord _ _ _ _ _ _ _ 0 n1 j Hg), (axis_coord _ _ _ _ _ _ _ 1 nt k Hg)
        by (simpl; try lia; assumption). reflexivity.
    - exact HNp.
    - destruct (Z.leb_spec 0 m); lia.
    - destruct (Z.leb_spec 0 m); [exists 0%Z|exists 1%Z]; lia.
    - lia. }
  set (L1 := mkLaser (l_dim L0) (l_grid L0) p (l_iter L0) (l_omega L0) (l_prop L0)) in *.
  set (e := E_rt lo hi (2 * M - 1) n1 nt (fun q j k => f (Z.of_nat q - (Z.of_nat M - 1))%Z j k)).
  assert (He : energy_of (l_dim L1) (l_grid L1) a0 = e).
  { unfold L1; cbn [l_dim l_grid]. rewrite D1. rewrite (energy_of_rt _ _ _ _ _ _ _ _ _ _ Hg N1 N2 HMt Hs).
    unfold e, E_rt. f_equal. unfold rsum3. rewrite rsum_slots by lia.
    apply rsum_ext; intros q Hq. apply rsum_ext; intros j Hj. apply rsum_ext; intros k Hk.
    rewrite Hf by (try assumption; lia). reflexivity. }
  pose proof (E_rt_nonneg lo hi (2 * M - 1) n1 nt (fun q j k => f (Z.of_nat q - (Z.of_nat M - 1))%Z j k)
     (proj1 (proj2 Gp)) (proj2 (proj2 Gp)) B0 B1 B2) as Hnn. fold e in Hnn.
  destruct (init_normalize_spec L1 a0 HG Ht) as (g' & s & b & Hi & HG' & HM' & Hs0 & Htb & Hsc & Hfac).
  { unfold L1 at 1; cbn [l_prof]. destruct (p_energy p) as [[E|]|]; try exact I. rewrite He.
    destruct Hnn; [right; split; [assumption|exact HE]|left; auto]. }
  rewrite Hi in H. injection H as <-. cbn [l_grid set_grid].
  exists b, s. destruct Hsc as (S1 & S2 & S3). conj.
  - exact Htb.
  - congruence.
  - exact Hs0.
  - intros m j k Hm Hj Hk. rewrite S3; [rewrite Hf by assumption; reflexivity|].
    unfold inb, dim0, dim1, dim2; rewrite Hs; simpl nth. repeat split; try assumption.
    apply azimuthal_modes_slot; [lia|exact Hm].
  - unfold L1 in Hfac at 1; cbn [l_prof] in Hfac. unfold energy_factor.
    destruct (p_energy p) as [[E|]|]; try exact Hfac. rewrite He in Hfac. destruct Hfac as (F1 & F2).
    split; [exact F1|]. intros Hp. apply (F2 Hp).
Qed.

Lemma rt_too_few_angles lo hi np p nm n :
  (exists g, grid_init Rt lo hi np (Some nm) true = Ok g) -> (n < 2 * nm - 1)%Z ->
  laser_init Rt lo hi np p nm (Some n) = Err AssertionError.
Proof.
  intros (g & Hg) Hn. unfold laser_init. rewrite Hg. cbn [bind].
  destruct (Z.ltb_spec n (2 * nm - 1)); [reflexivity|lia].
Qed.
