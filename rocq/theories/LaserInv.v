(** Structural invariants of grids and lasers. *)
From Verif Require Import PyBase CSum NpFFT FFTProofs NumPy GridModel GridSpec GridProofs LaserSpec GridObs
  EnergyModel EnergyProofs LaserModel.
Open Scope R_scope.

Ltac conj := repeat match goal with |- _ /\ _ => split end.

(** Sizes of a grid's attributes in geometry d: shape [n0;n1;nt]. *)
Record GShape (d : pydim) (g : grid) (n0 n1 nt : nat) : Prop := mkGShape {
  gs_shape : g_shape g = [n0; n1; nt];
  gs_pos : (1 <= n0 /\ 2 <= n1 /\ 2 <= nt)%nat;
  gs_lo : length (g_lo g) = ndims_of d;
  gs_hi : length (g_hi g) = ndims_of d;
  gs_axes : length (g_axes g) = ndims_of d;
  gs_dx : length (g_dx g) = ndims_of d;
  gs_tax : length (time_axis g) = nt;
  gs_rt : d = Rt -> exists M, (1 <= M)%nat /\ n0 = (2 * M - 1)%nat /\
            g_modes g = Some (azimuthal_modes (Z.of_nat M)) /\
            nth 0 (g_npoints g) 0%nat = n1 /\ nth 1 (g_npoints g) 0%nat = nt /\
            length (nth 0 (g_axes g) []) = n1;
  gs_xyt : d <> Rt -> length (nth 0 (g_axes g) []) = n0 /\ length (nth 1 (g_axes g) []) = n1
}.

Lemma last_nth {A} (l : list A) d : last l d = nth (length l - 1) l d.
Proof.
  induction l as [|a l IH]; [reflexivity|].
  destruct l as [|b l]; [reflexivity|].
  change (last (a :: b :: l) d) with (last (b :: l) d). rewrite IH. simpl length.
  replace (S (S (length l)) - 1)%nat with (S (S (length l) - 1)) by lia. reflexivity.
Qed.

Lemma GShape_meta d g g' n0 n1 nt : same_meta g g' -> GShape d g n0 n1 nt -> GShape d g' n0 n1 nt.
Proof.
  intros (H1 & H2 & H3 & H4 & H5 & H6 & H7 & H8 & H9 & H10) [].
  constructor; unfold time_axis in *; rewrite ?H1, ?H2, ?H3, ?H4, ?H5, ?H6, ?H7, ?H8, ?H9, ?H10; assumption.
Qed.

Lemma nth_error_nth0 (l : list nat) i n : nth_error l i = Some n -> nth i l 0%nat = n.
Proof. intros H. apply nth_error_nth with (d := 0%nat) in H. exact H. Qed.

Lemma grid_init_GShape_rt lo hi np M b g : grid_init Rt lo hi np (Some M) b = Ok g ->
  exists n1 nt, nth_error np 0 = Some n1 /\ nth_error np 1 = Some nt /\ (1 <= M)%Z /\
  GShape Rt g (2 * Z.to_nat M - 1) n1 nt.
Proof.
  intros H. destruct (grid_init_rt _ _ _ _ _ _ H) as (Hs & Hm & _ & HM).
  assert (Hex : exists g, grid_init Rt lo hi np (Some M) b = Ok g) by eauto.
  apply grid_init_ok_iff in Hex. destruct Hex as (_ & Hlo & Hhi & Hn & _).
  destruct (grid_init_axes _ _ _ _ _ _ _ H) as (El & Eh & La & Ld & Hax).
  simpl ndims_of in *.
  destruct (Hn 0%nat) as (n1 & N1 & G1); [lia|]. destruct (Hn 1%nat) as (nt & N2 & G2); [lia|].
  destruct (Hax 0%nat) as (n1' & N1' & A1 & _); [lia|].
  destruct (Hax 1%nat) as (nt' & N2' & A2 & _); [lia|].
  assert (Q1 : n1' = n1) by congruence. assert (Q2 : nt' = nt) by congruence. rewrite Q1 in A1. rewrite Q2 in A2. clear N1' N2' Q1 Q2.
  assert (P : g_npoints g = np).
  { revert H. unfold grid_init. cbn [pyassert bind].
    destruct (Nat.eqb (length lo) 2); [cbn [pyassert bind]|discriminate].
    destruct (Nat.eqb (length hi) 2); [cbn [pyassert bind]|discriminate].
    match goal with |- context [bind ?m _] => destruct m as [r|e] end; [cbn [pyassert bind]|discriminate].
    destruct (Z.ltb_spec (2 * M - 1) 0); [discriminate|].
    remember (2 * M - 1)%Z as q. intros [= <-]. reflexivity. }
  exists n1, nt. split; [assumption|split; [assumption|split; [assumption|]]].
  constructor; simpl ndims_of; try congruence.
  - rewrite Hs. rewrite (nth_error_nth0 _ _ _ N1), (nth_error_nth0 _ _ _ N2). reflexivity.
  - lia.
  - unfold time_axis. rewrite last_nth, La. exact A2.
  - intros _. exists (Z.to_nat M). rewrite Z2Nat.id by lia. rewrite P.
    rewrite (nth_error_nth0 _ _ _ N1), (nth_error_nth0 _ _ _ N2).
    repeat split; try assumption; lia.
Qed.

Lemma grid_init_xyt_np lo hi np nm b g : grid_init Xyt lo hi np nm b = Ok g -> g_shape g = np.
Proof.
  unfold grid_init. cbn [pyassert bind].
  destruct (Nat.eqb (length lo) 3); [cbn [pyassert bind]|discriminate].
  destruct (Nat.eqb (length hi) 3); [cbn [pyassert bind]|discriminate].
  match goal with |- context [bind ?m _] => destruct m as [r|e] end; [cbn [pyassert bind]|discriminate].
  intros [= <-]. reflexivity.
Qed.

Lemma grid_init_GShape_xyt lo hi np nm b g : grid_init Xyt lo hi np nm b = Ok g -> length np = 3%nat ->
  exists n0 n1 nt, np = [n0; n1; nt] /\ (2 <= n0)%nat /\ GShape Xyt g n0 n1 nt.
Proof.
  intros H Hnp.
  destruct np as [|n0 [|n1 [|nt [|? ?]]]]; try discriminate.
  assert (Hex : exists g, grid_init Xyt lo hi [n0;n1;nt] nm b = Ok g) by eauto.
  apply grid_init_ok_iff in Hex. destruct Hex as (_ & Hlo & Hhi & Hn & _).
  destruct (grid_init_axes _ _ _ _ _ _ _ H) as (El & Eh & La & Ld & Hax).
  simpl ndims_of in *.
  destruct (Hn 0%nat) as (? & [= <-] & G0); [lia|].
  destruct (Hn 1%nat) as (? & [= <-] & G1); [lia|].
  destruct (Hn 2%nat) as (? & [= <-] & G2); [lia|].
  destruct (Hax 0%nat) as (? & [= <-] & A0 & _); [lia|].
  destruct (Hax 1%nat) as (? & [= <-] & A1 & _); [lia|].
  destruct (Hax 2%nat) as (? & [= <-] & A2 & _); [lia|].
  exists n0, n1, nt. split; [reflexivity|split; [assumption|]].
  constructor; simpl ndims_of; try congruence.
  - apply grid_init_xyt_np in H. exact H.
  - lia.
  - unfold time_axis. rewrite last_nth, La. exact A2.
  - intros _. split; assumption.
Qed.

Lemma omega_axis_meta g g' w : same_meta g g' -> omega_axis g' w = omega_axis g w.
Proof.
  intros (H1 & H2 & H3 & H4 & H5 & H6 & H7 & H8 & H9 & H10). unfold omega_axis. rewrite H5, H8. reflexivity.
Qed.

(** ** Construction of a Laser *)
Lemma laser_init_grid d lo hi np p nm nte L : laser_init d lo hi np p nm nte = Ok L ->
  exists g, grid_init d lo hi np (Some nm) true = Ok g.
Proof.
  unfold laser_init. destruct (grid_init d lo hi np (Some nm) true) as [g|e]; [eauto|discriminate].
Qed.

(** The profile with its energy attribute removed. *)
Definition no_energy (p : profile) : profile :=
  mkProfile (p_omega0 p) (p_lambda0 p) (p_pol p) None (p_dtype p) (p_eval p).

Lemma samples_no_energy_xyt g p : sample_xyt g (no_energy p) = sample_xyt g p.
Proof. reflexivity. Qed.
Lemma samples_no_energy_rt g p n : sample_rt g (no_energy p) n = sample_rt g p n.
Proof. reflexivity. Qed.

(** Construction factors through the construction without energy. *)
Lemma laser_init_split d lo hi np p nm nte :
  laser_init d lo hi np p nm nte =
  do L0 <- laser_init d lo hi np (no_energy p) nm nte;
  init_normalize (mkLaser (l_dim L0) (l_grid L0) p (l_iter L0) (l_omega L0) (l_prop L0)).
Proof.
  unfold laser_init. destruct (grid_init d lo hi np (Some nm) true) as [g|e]; [|reflexivity].
  cbn [bind]. destruct d; try reflexivity.
  - match goal with |- context [Z.ltb ?a ?b] => destruct (Z.ltb a b) end; [reflexivity|].
    rewrite samples_no_energy_rt.
    match goal with |- context [snd ?r] => destruct (snd r) end; reflexivity.
  - rewrite samples_no_energy_xyt.
    match goal with |- context [snd ?r] => destruct (snd r) end; reflexivity.
Qed.

(** The un-normalized laser: what it stores. *)
Lemma laser_init_xyt_raw lo hi np p nm nte L0 :
  laser_init Xyt lo hi np (no_energy p) nm nte = Ok L0 ->
  exists g n0 n1 nt, grid_init Xyt lo hi np (Some nm) true = Ok g /\ np = [n0;n1;nt] /\
    (2 <= n0)%nat /\ GShape Xyt g n0 n1 nt /\ p_dtype p = Complex128 /\
    CohG (l_grid L0) /\ same_meta g (l_grid L0) /\ tread (l_grid L0) = Ok (sample_xyt g p) /\
    l_dim L0 = Xyt /\ l_prof L0 = no_energy p /\ l_iter L0 = 0%nat /\
    l_omega L0 = omega_axis g (p_omega0 p) /\ l_prop L0 = None.
Proof.
  unfold laser_init. destruct (grid_init Xyt lo hi np (Some nm) true) as [g|e] eqn:Eg; [|discriminate].
  cbn [bind]. rewrite samples_no_energy_xyt.
  pose proof (grid_init_CohG _ _ _ _ _ _ Eg) as HG. pose proof (proj1 HG) as HW.
  destruct HW as (W1 & W2 & W3 & W4 & W5 & W6).
  set (r := set_temporal_field g (sample_xyt g p)).
  destruct (snd r) as [u|e] eqn:Er; [|discriminate].
  assert (Hok : shp (sample_xyt g p) = g_shape g /\ dty (sample_xyt g p) = Complex128).
  { unfold r, set_temporal_field in Er. rewrite W3, W2 in Er.
    destruct (negb (shape_eqb _ _)) eqn:E1; [discriminate|].
    destruct (negb (dtype_eqb _ _)) eqn:E2; [discriminate|].
    apply negb_false_iff in E1, E2. apply shape_eqb_true in E1. apply dtype_eqb_true in E2. auto. }
  destruct Hok as (Hs & Hd).
  destruct (set_t_ok g (sample_xyt g p) (proj1 HG) Hs Hd) as (_ & Ht & _).
  cbn [init_normalize l_prof no_energy p_energy]. intros [= <-]. simpl.
  assert (Hnp : length np = 3%nat).
  { rewrite <- (grid_init_xyt_np _ _ _ _ _ _ Eg), <- Hs. reflexivity. }
  destruct (grid_init_GShape_xyt _ _ _ _ _ _ Eg Hnp) as (n0 & n1 & nt & -> & G2 & GS).
  exists g, n0, n1, nt. conj; try assumption; try reflexivity.
  - apply (set_t_Coh g _ HG).
  - apply (set_t_meta g).
  - apply omega_axis_meta, set_t_meta.
Qed.

Lemma take_modes_shape a M : (1 <= M)%Z -> (2 * M - 1 <= Z.of_nat (dim0 a))%Z ->
  shp (take_modes a M) = [Z.to_nat (2 * M - 1); dim1 a; dim2 a].
Proof.
  intros HM Hn. unfold take_modes, py_slice_start; cbn [shp].
  destruct (Z.leb_spec 0 (- M + 1)), (Z.ltb_spec 1 M); f_equal; lia.
Qed.
(** The slot of mode m holds entry m (counted from the end when negative) of the decomposition. *)
Lemma take_modes_slot a (M : nat) m j k : (1 <= M)%nat -> (2 * M - 1 <= dim0 a)%nat ->
  (- Z.of_nat M < m < Z.of_nat M)%Z ->
  at3 (take_modes a (Z.of_nat M)) (mode_slot M m) j k =
  at3 a (if Z.leb 0 m then Z.to_nat m else Z.to_nat (m + Z.of_nat (dim0 a))) j k.
Proof.
  intros HM Hn Hm. unfold take_modes, mode_slot, py_slice_start; cbn [at3].
  destruct (Z.leb_spec 0 m).
  - destruct (Nat.ltb_spec (Z.to_nat m) (Nat.min (Z.to_nat (Z.of_nat M)) (dim0 a))); [reflexivity|lia].
  - match goal with |- context [Nat.ltb ?a ?b] => destruct (Nat.ltb_spec a b) end; [lia|].
    destruct (Z.leb_spec 0 (- Z.of_nat M + 1)); f_equal; lia.
Qed.

Lemma laser_init_rt_raw lo hi np p nm nte L0 :
  laser_init Rt lo hi np (no_energy p) nm nte = Ok L0 ->
  exists g n1 nt N, grid_init Rt lo hi np (Some nm) true = Ok g /\ (1 <= nm)%Z /\
    N = Z.to_nat (match nte with None => (2 * nm - 1)%Z | Some n => n end) /\
    (2 * Z.to_nat nm - 1 <= N)%nat /\
    GShape Rt g (2 * Z.to_nat nm - 1) n1 nt /\
    CohG (l_grid L0) /\ same_meta g (l_grid L0) /\
    tread (l_grid L0) = Ok (take_modes (np_ifft_first (sample_rt g p N)) nm) /\
    l_dim L0 = Rt /\ l_prof L0 = no_energy p /\ l_iter L0 = 0%nat /\
    l_omega L0 = omega_axis g (p_omega0 p) /\ l_prop L0 = None.
Proof.
  unfold laser_init. destruct (grid_init Rt lo hi np (Some nm) true) as [g|e] eqn:Eg; [|discriminate].
  cbn [bind]. rewrite samples_no_energy_rt.
  pose proof (grid_init_CohG _ _ _ _ _ _ Eg) as HG.
  destruct (grid_init_GShape_rt _ _ _ _ _ _ Eg) as (n1 & nt & _ & _ & HM & GS).
  set (n := match nte with None => _ | Some n => n end).
  destruct (Z.ltb_spec n (2 * nm - 1)); [discriminate|].
  set (f := take_modes (np_ifft_first (sample_rt g p (Z.to_nat n))) nm).
  assert (Hs : shp f = g_shape g).
  { unfold f. rewrite take_modes_shape; [|exact HM|unfold dim0; cbn [shp np_ifft_first sample_rt nth]; lia].
    destruct GS as [Gs _ _ _ _ _ Gt Gr _]. rewrite Gs.
    destruct (Gr eq_refl) as (M & HM' & _ & _ & _ & _ & La).
    unfold dim1, dim2; cbn [shp np_ifft_first sample_rt nth].
    rewrite La. unfold time_axis in Gt. rewrite last_nth in Gt.
    assert (Hl : length (g_axes g) = 2%nat) by (destruct (grid_init_axes _ _ _ _ _ _ _ Eg) as (_ & _ & Hl & _); exact Hl).
    rewrite Hl in Gt. change (2 - 1)%nat with 1%nat in Gt. rewrite Gt. f_equal. lia. }
  destruct (set_t_ok g f (proj1 HG) Hs eq_refl) as (Hr & Ht & _).
  rewrite Hr. cbn [init_normalize l_prof no_energy p_energy]. intros [= <-]. simpl l_grid.
  exists g, n1, nt, (Z.to_nat n). conj; try assumption; try reflexivity; try lia.
  - apply (set_t_Coh g _ HG).
  - apply (set_t_meta g).
  - apply omega_axis_meta, set_t_meta.
Qed.

(** The energy step. *)
Lemma init_normalize_spec L a : CohG (l_grid L) -> tread (l_grid L) = Ok a ->
  match p_energy (l_prof L) with
  | Some (Some E) => energy_of (l_dim L) (l_grid L) a = 0 \/
                     (0 < energy_of (l_dim L) (l_grid L) a /\ 0 <= E)
  | _ => True end ->
  exists g' s b, init_normalize L = Ok (set_grid L g') /\ CohG g' /\ same_meta (l_grid L) g' /\
    0 <= s /\ tread g' = Ok b /\ is_scaled (RtoC s) a b /\
    match p_energy (l_prof L) with
    | Some (Some E) =>
        (energy_of (l_dim L) (l_grid L) a = 0 -> s = 1) /\
        (0 < energy_of (l_dim L) (l_grid L) a -> s = sqrt (E / energy_of (l_dim L) (l_grid L) a) /\
           snd (compute_laser_energy (l_dim L) g') = Ok E)
    | _ => s = 1
    end.
Proof.
  intros HG Ha HE. unfold init_normalize.
  assert (Hone : is_scaled (RtoC 1) a a) by (split; [reflexivity|split; [reflexivity|intros; ring]]).
  assert (Hid : set_grid L (l_grid L) = L) by (destruct L; reflexivity).
  destruct (p_energy (l_prof L)) as [[E|]|].
  - destruct HE as [H0|[Hp HE]].
    + destruct (normalize_energy_zero (l_dim L) (l_grid L) a E (proj1 HG) Ha H0)
        as (g' & Hn & HW & HMt & Ht & _).
      assert (Hg' : g' = fst (normalize_energy (l_dim L) (Some E) (l_grid L))) by (rewrite Hn; reflexivity).
      rewrite Hn; simpl. exists g', 1, a. conj; try assumption; try lra; try reflexivity.
      * split; [exact HW|]. rewrite Hg'. unfold normalize_energy.
        destruct (compute_energy_eq (l_dim L) (l_grid L) a Ha) as (E1 & E2). rewrite E1, E2, H0.
        rewrite (proj2 (Reqb_true 0 0) eq_refl). simpl. apply (get_t_Coh _ HG).
      * congruence.
    + destruct (normalize_energy_spec (l_dim L) (l_grid L) a E (proj1 HG) Ha Hp HE)
        as (g' & s & b & Hn & HW & HMt & Hs0 & Hs & Ht & Hsc & Hc).
      assert (Hg' : g' = fst (normalize_energy (l_dim L) (Some E) (l_grid L))) by (rewrite Hn; reflexivity).
      rewrite Hn; simpl. exists g', s, b. conj; try assumption; try reflexivity.
      * split; [exact HW|]. rewrite Hg'. unfold normalize_energy.
        destruct (compute_energy_eq (l_dim L) (l_grid L) a Ha) as (E1 & E2). rewrite E1, E2.
        destruct (Reqb _ 0); simpl; [apply (get_t_Coh _ HG)|].
        rewrite get_t_eq. cbn [fst snd]. rewrite tread_get_t, Ha.
        apply set_t_Coh, get_t_Coh, get_t_Coh, HG.
      * lra.
      * intros _; split; assumption.
  - simpl. exists (l_grid L), 1, a. conj; try assumption; try lra; try reflexivity. apply same_meta_refl.
  - exists (l_grid L), 1, a. rewrite Hid. conj; try assumption; try lra; try reflexivity. apply same_meta_refl.
Qed.
