(** Proofs for C09-C18 on reachable lasers. *)
From Verif Require Import PyBase CSum NpFFT FFTProofs NumPy GridModel GridSpec GridProofs LaserSpec GridObs
  EnergyModel EnergyProofs AngularProofs LaserModel OpticsModel LaserOps LaserInv LaserInitProofs LaserStepProofs
  PropagateProofs HistoryProofs.
Open Scope R_scope.

Lemma reachable_read S L : reachable S L -> exists a s, tread (l_grid L) = Ok a /\ sread (l_grid L) = Ok s /\ nonempty a.
Proof.
  intros H. destruct (reachable_Inv S L H) as (n0 & n1 & nt & HI).
  destruct (i_read _ _ _ _ HI) as (a & Ha). pose proof (i_coh _ _ _ _ HI) as HG.
  destruct (tread_sread_ok _ _ (proj1 HG) Ha) as (s & Hs). exists a, s. conj; try assumption.
  destruct (tread_shape _ _ (proj1 HG) Ha) as (Hsh & _).
  rewrite (gs_shape _ _ _ _ _ (i_shape _ _ _ _ HI)) in Hsh.
  pose proof (gs_pos _ _ _ _ _ (i_shape _ _ _ _ HI)).
  unfold nonempty, dim0, dim1, dim2. rewrite Hsh; simpl. lia.
Qed.

(** ** C09-C12 *)
Lemma c09 S L a e E : reachable S L -> tread (l_grid L) = Ok a ->
  snd (compute_laser_energy (l_dim L) (l_grid L)) = Ok e -> 0 < e -> 0 <= E ->
  exists L' b s, normalize L (Some E) KEnergy = (L', Ok tt) /\
    snd (get_temporal_field (l_grid L')) = Ok b /\ 0 <= s /\ is_scaled (RtoC s) a b /\
    snd (compute_laser_energy (l_dim L') (l_grid L')) = Ok E.
Proof.
  intros HR Ha He Hp HE. destruct (reachable_Inv S L HR) as (n0 & n1 & nt & HI).
  destruct (compute_energy_eq (l_dim L) (l_grid L) a Ha) as (Hc & _). rewrite Hc in He. injection He as <-.
  destruct (normalize_energy_spec (l_dim L) (l_grid L) a E (proj1 (i_coh _ _ _ _ HI)) Ha Hp HE)
    as (g' & s & b & Hn & _ & _ & Hs0 & _ & Ht & Hsc & Hce).
  exists (set_grid L g'), b, s. unfold normalize; cbn [normalize_grid]. rewrite Hn. conj; try assumption; reflexivity.
Qed.

Lemma c09_init lo hi d np p nm nte L0 E :
  laser_init d lo hi np (no_energy p) nm nte = Ok L0 -> p_energy p = Some (Some E) -> 0 <= E ->
  forall e, snd (compute_laser_energy d (l_grid L0)) = Ok e -> 0 < e ->
  exists L, laser_init d lo hi np p nm nte = Ok L /\ snd (compute_laser_energy d (l_grid L)) = Ok E.
Proof.
  intros Hi Hp HE e He Hpos. rewrite laser_init_split, Hi. cbn [bind].
  destruct (laser_init_Inv _ _ _ _ _ _ _ _ Hi) as (g & n0 & n1 & nt & _ & _ & D1 & _ & _ & _ & _ & _ & _ & HI).
  destruct (i_read _ _ _ _ HI) as (a & Ha).
  destruct (compute_energy_eq d (l_grid L0) a Ha) as (Hc & _). rewrite Hc in He. injection He as <-.
  set (L1 := mkLaser (l_dim L0) (l_grid L0) p (l_iter L0) (l_omega L0) (l_prop L0)).
  destruct (init_normalize_spec L1 a (i_coh _ _ _ _ HI) Ha) as (g' & s & b & H1 & _ & _ & _ & _ & _ & Hf).
  { unfold L1; cbn [l_prof l_dim l_grid]. rewrite Hp, D1. right; auto. }
  rewrite H1. eexists; split; [reflexivity|]. cbn [l_grid set_grid].
  unfold L1 in Hf; cbn [l_prof l_dim l_grid] in Hf. rewrite Hp, D1 in Hf. apply Hf. exact Hpos.
Qed.

Lemma c10 S L a A : reachable S L -> tread (l_grid L) = Ok a -> some_nonzero a -> 0 <= A ->
  exists L' b s, normalize L (Some A) KField = (L', Ok tt) /\
    snd (get_temporal_field (l_grid L')) = Ok b /\ 0 <= s /\ is_scaled (RtoC s) a b /\
    is_max3 b (fun i j k => Cmod (at3 b i j k)) A.
Proof.
  intros HR Ha Hnz HA. destruct (reachable_Inv S L HR) as (n0 & n1 & nt & HI).
  destruct (reachable_read S L HR) as (a' & s0 & Ha' & _ & Hne). rewrite Ha in Ha'; injection Ha' as <-.
  destruct (normalize_field_spec (l_grid L) a A (proj1 (i_coh _ _ _ _ HI)) Ha Hne HA Hnz)
    as (g' & s & b & Hn & _ & _ & Hs0 & Ht & Hsc & Hm).
  exists (set_grid L g'), b, s. unfold normalize; cbn [normalize_grid]. rewrite Hn. conj; try assumption; reflexivity.
Qed.

Lemma c11 S L a I : reachable S L -> tread (l_grid L) = Ok a -> some_nonzero a ->
  exists L', normalize L (Some I) KIntensity = (L', Err AssertionError) /\
    tread (l_grid L') = tread (l_grid L) /\ sread (l_grid L') = sread (l_grid L).
Proof.
  intros HR Ha Hnz. destruct (reachable_Inv S L HR) as (n0 & n1 & nt & HI).
  destruct (reachable_read S L HR) as (a' & s0 & Ha' & _ & Hne). rewrite Ha in Ha'; injection Ha' as <-.
  destruct (normalize_intensity_fails (l_grid L) a I (proj1 (i_coh _ _ _ _ HI))) as (g' & Hn & H1 & H2);
    try assumption.
  { rewrite (gs_shape _ _ _ _ _ (i_shape _ _ _ _ HI)). discriminate. }
  exists (set_grid L g'). unfold normalize; cbn [normalize_grid]. rewrite Hn. auto.
Qed.

Lemma c12_none S L k : reachable S L -> k <> KOther -> normalize L None k = (L, Ok tt).
Proof. intros _ Hk. unfold normalize. rewrite normalize_none by exact Hk. destruct L; reflexivity. Qed.
Lemma c12_zero S L a v k : reachable S L -> tread (l_grid L) = Ok a -> all_zero a -> k <> KOther ->
  exists L', normalize L v k = (L', Ok tt) /\
    tread (l_grid L') = tread (l_grid L) /\ sread (l_grid L') = sread (l_grid L).
Proof.
  intros HR Ha Hz Hk. destruct (reachable_Inv S L HR) as (n0 & n1 & nt & HI).
  destruct (normalize_zero_noop (l_dim L) (l_grid L) a v k (proj1 (i_coh _ _ _ _ HI)) Ha Hz Hk)
    as (g' & Hn & _ & _ & H1 & H2).
  exists (set_grid L g'). unfold normalize. rewrite Hn. auto.
Qed.
Lemma c12_other S L v : reachable S L -> normalize L v KOther = (L, Err ValueError).
Proof. intros _. unfold normalize; simpl. destruct L; reflexivity. Qed.

(** ** C13: energy on a laser (no resampling) is the documented sum *)
Lemma cell_volume_shift d g D j n0 n1 nt : GShape d g n0 n1 nt -> d = Rt \/ d = Xyt ->
  cell_volume d (shift_domain g D) j = cell_volume d g j.
Proof.
  intros HS Hd. unfold cell_volume. destruct Hd as [-> | ->].
  - unfold cell_volume_rt. cbn [shift_domain with_domain g_axes g_dx]. rewrite set_last_nth; [reflexivity|].
    rewrite (gs_axes _ _ _ _ _ HS). simpl; lia.
  - reflexivity.
Qed.
Lemma energy_shift d g D a n0 n1 nt : GShape d g n0 n1 nt -> d = Rt \/ d = Xyt ->
  energy_of d (shift_domain g D) a = energy_of d g a.
Proof.
  intros HS Hd. rewrite !energy_of_eq. change (env_factor (shift_domain g D)) with (env_factor g).
  f_equal. apply rsum3_ext; intros. rewrite (cell_volume_shift d g D j n0 n1 nt HS Hd). reflexivity.
Qed.

Lemma c13_xyt S lo hi n0 n1 nt p nm nte L0 h a :
  laser_init Xyt lo hi [n0;n1;nt] p nm nte = Ok L0 ->
  tread (l_grid (lrun S L0 h)) = Ok a ->
  snd (compute_laser_energy Xyt (l_grid (lrun S L0 h))) = Ok (E_xyt lo hi n0 n1 nt (at3 a)) /\
  shp a = [n0;n1;nt].
Proof.
  intros Hi Ha. destruct (laser_init_Inv _ _ _ _ _ _ _ _ Hi) as
    (g & m0 & m1 & mt & Hg & HM & D1 & _ & _ & _ & _ & _ & GS & HI).
  destruct (history_plain S L0 m0 m1 mt h HI (or_introl D1)) as (HI' & HM' & D1' & _).
  destruct (tread_shape _ _ (proj1 (i_coh _ _ _ _ HI')) Ha) as (Hsh & _).
  destruct (compute_energy_eq Xyt _ _ Ha) as (Hc & _). rewrite Hc.
  assert (HQ : shp a = [n0;n1;nt]).
  { rewrite Hsh, (gs_shape _ _ _ _ _ (i_shape _ _ _ _ HI')), <- (gs_shape _ _ _ _ _ GS).
    apply (grid_init_xyt_np _ _ _ _ _ _ Hg). }
  split; [|exact HQ]. f_equal.
  rewrite (energy_of_meta _ _ _ _ HM'). rewrite D1 in *.
  rewrite (energy_shift Xyt _ _ _ m0 m1 mt); [|pose proof (i_shape _ _ _ _ HI) as Q; rewrite D1 in Q; exact Q|auto].
  apply (energy_of_xyt _ _ _ _ _ _ _ _ _ Hg HM HQ).
Qed.

Lemma c13_rt S lo hi np n1 nt p (M : nat) nte L0 h a :
  laser_init Rt lo hi np p (Z.of_nat M) nte = Ok L0 -> Forall no_resample h ->
  nth_error np 0 = Some n1 -> nth_error np 1 = Some nt ->
  tread (l_grid (lrun S L0 h)) = Ok a ->
  snd (compute_laser_energy Rt (l_grid (lrun S L0 h))) = Ok (E_rt lo hi (2 * M - 1) n1 nt (at3 a)) /\
  shp a = [(2 * M - 1)%nat; n1; nt] /\ (1 <= M)%nat.
Proof.
  intros Hi Hn N1 N2 Ha. destruct (laser_init_Inv _ _ _ _ _ _ _ _ Hi) as
    (g & m0 & m1 & mt & Hg & HM & D1 & _ & _ & _ & _ & _ & GS & HI).
  destruct (history_plain S L0 m0 m1 mt h HI (or_intror Hn)) as (HI' & HM' & D1' & _).
  destruct (tread_shape _ _ (proj1 (i_coh _ _ _ _ HI')) Ha) as (Hsh & _).
  destruct (compute_energy_eq Rt _ _ Ha) as (Hc & _). rewrite Hc.
  destruct (grid_init_GShape_rt _ _ _ _ _ _ Hg) as (n1' & nt' & N1' & N2' & HM1 & GS').
  rewrite N1 in N1'; injection N1' as <-. rewrite N2 in N2'; injection N2' as <-. rewrite Nat2Z.id in GS'.
  assert (HQ : shp a = [(2 * M - 1)%nat; n1; nt]).
  { rewrite Hsh, (gs_shape _ _ _ _ _ (i_shape _ _ _ _ HI')), <- (gs_shape _ _ _ _ _ GS).
    apply (gs_shape _ _ _ _ _ GS'). }
  split; [|split; [exact HQ|lia]]. f_equal.
  rewrite (energy_of_meta _ _ _ _ HM'). rewrite D1 in *.
  rewrite (energy_shift Rt _ _ _ m0 m1 mt); [|pose proof (i_shape _ _ _ _ HI) as Q; rewrite D1 in Q; exact Q|auto].
  apply (energy_of_rt _ _ _ _ _ _ _ _ _ _ Hg N1 N2 HM HQ).
Qed.

Lemma E_xyt_scale lo hi n0 n1 nt f s : E_xyt lo hi n0 n1 nt (fun i j k => Cmult s (f i j k)) =
  Cmod s ^ 2 * E_xyt lo hi n0 n1 nt f.
Proof.
  unfold E_xyt. rewrite Cmod_sq.
  rewrite (rsum3_ext _ _ _ _ (fun i j k => Cnorm2 s * Cnorm2 (f i j k))) by (intros; apply Cnorm2_mult).
  rewrite rsum3_scal. ring.
Qed.
Lemma E_rt_scale lo hi n0 n1 nt f s : E_rt lo hi n0 n1 nt (fun i j k => Cmult s (f i j k)) =
  Cmod s ^ 2 * E_rt lo hi n0 n1 nt f.
Proof.
  unfold E_rt. rewrite Cmod_sq. rewrite <- !rsum3_scal. apply rsum3_ext; intros. rewrite Cnorm2_mult. ring.
Qed.
Lemma E_xyt_zero lo hi n0 n1 nt f : (2 <= n0)%nat -> (2 <= n1)%nat -> (2 <= nt)%nat ->
  nth 0 lo 0 < nth 0 hi 0 -> nth 1 lo 0 < nth 1 hi 0 -> nth 2 lo 0 < nth 2 hi 0 ->
  (E_xyt lo hi n0 n1 nt f = 0 <->
   forall i j k, (i < n0)%nat -> (j < n1)%nat -> (k < nt)%nat -> f i j k = RtoC 0).
Proof.
  intros G0 G1 G2 B0 B1 B2. unfold E_xyt.
  pose proof (spacing_pos _ _ _ G0 B0) as P0. pose proof (spacing_pos _ _ _ G1 B1) as P1.
  pose proof (spacing_pos _ _ _ G2 B2) as P2. pose proof eps0_pos as Pe. pose proof c_light_pos as Pc.
  set (w := eps0 / 2 * _).
  assert (Pw : 0 < w).
  { unfold w. generalize dependent (spacing (nth 0 lo 0) (nth 0 hi 0) n0).
    generalize dependent (spacing (nth 1 lo 0) (nth 1 hi 0) n1).
    generalize dependent (spacing (nth 2 lo 0) (nth 2 hi 0) nt). intros.
    repeat apply Rmult_lt_0_compat; try assumption; lra. }
  split.
  - intros H i j k Hi Hj Hk. apply Cnorm2_eq_0.
    apply (rsum3_zero n0 n1 nt (fun i j k => Cnorm2 (f i j k))); try assumption.
    + intros; apply Cnorm2_nonneg.
    + apply Rmult_integral in H. destruct H; [lra|assumption].
  - intros H. rewrite (rsum3_ext _ _ _ _ (fun _ _ _ => 0 * 0)).
    + rewrite rsum3_scal; ring.
    + intros i j k Hi Hj Hk. rewrite H by assumption. rewrite Cnorm2_0. ring.
Qed.

(** rt energy = average over N equally spaced angles of the energy of the reconstructed field,
    each angle weighted as a full 2 pi r dr ring. *)
Lemma E_rt_average lo hi (M N n1 nt : nat) a : (1 <= M)%nat -> (2 * M - 1 <= N)%nat ->
  E_rt lo hi (2 * M - 1) n1 nt (at3 a) =
  / INR N * rsum N (fun q =>
     E_rt lo hi 1 n1 nt (fun _ j k => recon M (comp M a j k) (2 * PI / INR N * INR q))).
Proof.
  intros HM HN. unfold E_rt.
  set (w := fun j => 2 * PI * coord (nth 0 lo 0) (nth 0 hi 0) n1 j * spacing (nth 0 lo 0) (nth 0 hi 0) n1
     * (c_light * spacing (nth 1 lo 0) (nth 1 hi 0) nt)).
  rewrite rsum_scal_l. unfold rsum3 at 2. cbn [rsum].
  rewrite (rsum_ext N _ (fun q => rsum n1 (fun j => rsum nt (fun k =>
     w j * Cnorm2 (recon M (comp M a j k) (2 * PI / INR N * INR q)))))) by (intros; unfold w; ring).
  rewrite rsum_swap.
  rewrite (rsum_ext n1 _ (fun j => rsum nt (fun k => w j * (INR N * rsum (2 * M - 1) (fun q => Cnorm2 (comp M a j k (Z.of_nat q - (Z.of_nat M - 1)))))))).
  2:{ intros j _. rewrite rsum_swap. apply rsum_ext; intros k _. rewrite rsum_scal_l. f_equal.
      rewrite <- (recon_parseval M N) by assumption. rewrite <- Rmult_assoc, Rinv_r, Rmult_1_l; [reflexivity|].
      apply INR_neq0; lia. }
  transitivity (eps0 / 2 * rsum n1 (fun j => rsum nt (fun k => w j * rsum (2 * M - 1) (fun q => Cnorm2 (comp M a j k (Z.of_nat q - (Z.of_nat M - 1))))))).
  - f_equal. unfold rsum3. rewrite rsum_swap. apply rsum_ext; intros j _. rewrite rsum_swap.
    apply rsum_ext; intros k _. rewrite rsum_scal_l. f_equal.
    rewrite (rsum_slots M (fun i => Cnorm2 (at3 a i j k))) by exact HM. reflexivity.
  - transitivity (eps0 / 2 * (/ INR N * (INR N * rsum n1 (fun j => rsum nt (fun k => w j * rsum (2 * M - 1) (fun q => Cnorm2 (comp M a j k (Z.of_nat q - (Z.of_nat M - 1))))))))).
    + rewrite <- (Rmult_assoc (/ INR N)), Rinv_l, Rmult_1_l; [reflexivity|apply INR_neq0; lia].
    + rewrite <- Rmult_assoc, (Rmult_comm (eps0 / 2) (/ INR N)), Rmult_assoc. do 2 f_equal.
      rewrite <- rsum_scal_l. apply rsum_ext; intros j _. rewrite <- rsum_scal_l. apply rsum_ext; intros k _. ring.
Qed.

(** ** C14 *)
Lemma c14 lo hi np M b g n1 nt : grid_init Rt lo hi np (Some M) b = Ok g ->
  nth_error np 0 = Some n1 -> nth_error np 1 = Some nt ->
  let dr := spacing (nth 0 lo 0) (nth 0 hi 0) n1 in
  let dt := spacing (nth 1 lo 0) (nth 1 hi 0) nt in
  rsum n1 (cell_volume_rt g) =
    c_light * dt * PI * ((nth 0 hi 0 + dr / 2) ^ 2 - (nth 0 lo 0 - dr / 2) ^ 2) /\
  (forall j, (j < n1)%nat ->
     cell_volume_rt g j = 2 * PI * coord (nth 0 lo 0) (nth 0 hi 0) n1 j * dr * (c_light * dt)) /\
  (nth 0 lo 0 < nth 0 hi 0 -> nth 1 lo 0 < nth 1 hi 0 ->
   forall j, (j < n1)%nat -> (0 <= cell_volume_rt g j <-> 0 <= coord (nth 0 lo 0) (nth 0 hi 0) n1 j)).
Proof.
  intros H N1 N2 dr dt.
  destruct (grid_init_axes _ _ _ _ _ _ _ H) as (El & Eh & La & Ld & Hax). simpl ndims_of in *.
  destruct (Hax 0%nat) as (n1' & N1' & HL & H0 & H1 & Hdx & Hst); [lia|]. rewrite N1 in N1'; injection N1' as <-.
  assert (Hex : exists g, grid_init Rt lo hi np (Some M) b = Ok g) by eauto.
  apply grid_init_ok_iff in Hex. destruct Hex as (_ & _ & _ & Hn & _). simpl ndims_of in Hn.
  destruct (Hn 0%nat) as (n & Q & G); [lia|]. rewrite N1 in Q; injection Q as <-.
  destruct (Hn 1%nat) as (n' & Q & G'); [lia|]. rewrite N2 in Q; injection Q as <-.
  assert (Edr : vget (g_dx g) 0 = dr) by exact Hdx.
  assert (Edt : lastR (g_dx g) = dt).
  { unfold lastR. rewrite last_nth, Ld. change (2 - 1)%nat with 1%nat.
    apply (dx_spacing _ _ _ _ _ _ _ 1 nt H); [simpl; lia|exact N2]. }
  conj.
  - rewrite (cell_volumes_tile g n1); [|intros j Hj; exact (Hst j Hj)|lia].
    rewrite Edr, Edt. change (vget (nth 0 (g_axes g) []) (n1 - 1)) with (vget (nth 0 (g_axes g) []) (n1 - 1)%nat).
    cbn zeta in H0, H1. rewrite H1, H0. unfold vget. field.
  - intros j Hj. rewrite cell_volume_rt_eq, Edr, Edt.
    change (vget (nth 0 (g_axes g) []) j) with (axis_at g 0 j).
    rewrite (axis_coord _ _ _ _ _ _ _ 0 n1 j H) by (simpl; try lia; assumption). ring.
  - intros B0 B1 j Hj. rewrite cell_volume_rt_eq, Edr, Edt.
    change (vget (nth 0 (g_axes g) []) j) with (axis_at g 0 j).
    rewrite (axis_coord _ _ _ _ _ _ _ 0 n1 j H) by (simpl; try lia; assumption).
    pose proof (spacing_pos _ _ _ G B0) as P0. pose proof (spacing_pos _ _ _ G' B1) as P1.
    fold dr in P0. fold dt in P1. pose proof PI_RGT_0. pose proof c_light_pos.
    set (r := coord _ _ _ _).
    assert (Pw : 0 < 2 * PI * dr * (dt * c_light)).
    { clear - P0 P1 H2 H3. clearbody dr dt. generalize dependent PI; intros pi Hpi. repeat apply Rmult_lt_0_compat; lra. }
    replace (2 * PI * r * dr * (dt * c_light)) with (r * (2 * PI * dr * (dt * c_light))) by ring.
    generalize dependent (2 * PI * dr * (dt * c_light)). intros w Pw. clear - Pw.
    split; intros Hx; [|nra]. destruct (Rle_lt_dec 0 r); [assumption|]. exfalso. nra.
Qed.
