(** For C08: what the constructor stores for any profile, its aliasing law, and interpolation. *)
From Verif Require Import PyBase CSum NpFFT FFTProofs NumPy GridModel GridSpec GridProofs LaserSpec AngleSpec GridObs EnergyModel EnergyProofs
  AngularProofs LaserModel LaserInv LaserInitProofs.
Open Scope R_scope.

Lemma rt_any lo hi np n1 nt p (M : nat) nte L :
  laser_init Rt lo hi np p (Z.of_nat M) nte = Ok L ->
  nth_error np 0 = Some n1 -> nth_error np 1 = Some nt ->
  0 <= nth 0 lo 0 -> nth 0 lo 0 < nth 0 hi 0 -> nth 1 lo 0 < nth 1 hi 0 ->
  energy_request_ok (p_energy p) ->
  let N := Z.to_nat (match nte with None => 2 * Z.of_nat M - 1 | Some n => n end) in
  let f := fun (m : Z) j k => angle_mode N (fun theta =>
     p_eval p (coord (nth 0 lo 0) (nth 0 hi 0) n1 j * cos theta) (coord (nth 0 lo 0) (nth 0 hi 0) n1 j * sin theta)
              (coord (nth 1 lo 0) (nth 1 hi 0) nt k)) m in
  exists a s, snd (get_temporal_field (l_grid L)) = Ok a /\
    shp a = [(2 * M - 1)%nat; n1; nt] /\ 0 <= s /\
    (forall m j k, (- Z.of_nat M < m < Z.of_nat M)%Z -> (j < n1)%nat -> (k < nt)%nat ->
       at3 a (mode_slot M m) j k = Cmult (RtoC s) (f m j k)) /\
    energy_factor (p_energy p)
      (E_rt lo hi (2 * M - 1) n1 nt (fun q j k => f (Z.of_nat q - (Z.of_nat M - 1))%Z j k)) s.
Proof.
  intros H N1 N2 B0 B1 B2 HE N0 f. rewrite laser_init_split in H.
  destruct (laser_init Rt lo hi np (no_energy p) (Z.of_nat M) nte) as [L0|e] eqn:E0; [|discriminate].
  cbn [bind] in H.
  destruct (laser_init_rt_raw _ _ _ _ _ _ _ E0) as
    (g & n1' & nt' & N & Hg & HM & HNe & HNM & GS & HG & HMt & Ht & D1 & D2 & D3 & D4 & D5).
  rewrite Nat2Z.id in *.
  destruct (grid_init_GShape_rt _ _ _ _ _ _ Hg) as (n1'' & nt'' & N1' & N2' & _ & GS').
  rewrite N1 in N1'; injection N1' as <-. rewrite N2 in N2'; injection N2' as <-. rewrite Nat2Z.id in GS'.
  assert (Q : [(2 * M - 1)%nat; n1; nt] = [(2 * M - 1)%nat; n1'; nt']).
  { rewrite <- (gs_shape _ _ _ _ _ GS), <- (gs_shape _ _ _ _ _ GS'). reflexivity. }
  assert (Q1 : n1' = n1) by congruence. assert (Q2 : nt' = nt) by congruence. clear Q.
  rewrite Q1, Q2 in GS. clear Q1 Q2 GS' n1' nt'.
  set (a0 := take_modes (np_ifft_first (sample_rt g p N)) (Z.of_nat M)) in *.
  destruct GS as [Gs Gp _ _ Ga _ Gt Gr _]. destruct (Gr eq_refl) as (M' & _ & _ & _ & _ & _ & La).
  assert (Hs : shp a0 = [(2 * M - 1)%nat; n1; nt]).
  { pose proof (proj1 (tread_shape _ _ (proj1 HG) Ht)) as Hsh. rewrite Hsh.
    destruct HMt as (_ & _ & _ & _ & _ & _ & _ & Hshp & _). rewrite Hshp. exact Gs. }
  assert (HNp : (0 < N)%nat) by lia.
  assert (Hf : forall m j k, (- Z.of_nat M < m < Z.of_nat M)%Z -> (j < n1)%nat -> (k < nt)%nat ->
             at3 a0 (mode_slot M m) j k = f m j k).
  { intros m j k Hm Hj Hk. unfold a0. rewrite take_modes_slot; [|lia|unfold dim0; simpl; lia|exact Hm].
    assert (Hd0 : dim0 (np_ifft_first (sample_rt g p N)) = N) by reflexivity.
    rewrite Hd0. cbn [at3 np_ifft_first].
    change (dim0 (sample_rt g p N)) with N.
    assert (EN : N0 = N) by (unfold N0; subst N; reflexivity || (unfold N0; lia)).
    unfold f. rewrite EN. unfold ifft1, angle_mode. f_equal. apply csum_ext. intros q _. cbn [at3 sample_rt].
    rewrite (axis_coord _ _ _ _ _ _ _ 0 n1 j Hg), (axis_coord _ _ _ _ _ _ _ 1 nt k Hg) by (simpl; try lia; assumption).
    f_equal. pose proof (INR_neq0 N HNp) as HNn.
    unfold angle_node. destruct (Z.leb_spec 0 m).
    - f_equal. rewrite (INR_IZR_INZ (Z.to_nat m)), Z2Nat.id by lia. unfold angle_node. field. exact HNn.
    - rewrite <- (cis_period (IZR m * (2 * PI / INR N * INR q)) (Z.of_nat q)). f_equal.
      rewrite <- INR_IZR_INZ. rewrite (INR_IZR_INZ (Z.to_nat _)), Z2Nat.id by lia. rewrite plus_IZR, <- INR_IZR_INZ. field. exact HNn. }
  set (L1 := mkLaser (l_dim L0) (l_grid L0) p (l_iter L0) (l_omega L0) (l_prop L0)) in *.
  set (e := E_rt lo hi (2 * M - 1) n1 nt (fun q j k => f (Z.of_nat q - (Z.of_nat M - 1))%Z j k)).
  assert (He : energy_of (l_dim L1) (l_grid L1) a0 = e).
  { unfold L1; cbn [l_dim l_grid]. rewrite D1. rewrite (energy_of_rt _ _ _ _ _ _ _ _ _ _ Hg N1 N2 HMt Hs).
    unfold e, E_rt. f_equal. unfold rsum3. rewrite rsum_slots by lia.
    apply rsum_ext; intros q Hq. apply rsum_ext; intros j Hj. apply rsum_ext; intros k Hk.
    rewrite Hf by (try assumption; lia). reflexivity. }
  pose proof (E_rt_nonneg lo hi (2 * M - 1) n1 nt (fun q j k => f (Z.of_nat q - (Z.of_nat M - 1))%Z j k)
     (proj1 (proj2 Gp)) (proj2 (proj2 Gp)) B0 B1 B2) as Hnn. fold e in Hnn.
  destruct (init_normalize_spec L1 a0 HG Ht) as (g' & s & b & Hi & HG' & HM' & Hs0 & Htb & Hsc & Hfac).
  { unfold L1 at 1; cbn [l_prof]. destruct (p_energy p) as [[E|]|]; try exact I. rewrite He.
    destruct Hnn; [right; split; [assumption|exact HE]|left; auto]. }
  rewrite Hi in H. injection H as <-. cbn [l_grid set_grid].
  exists b, s. destruct Hsc as (S1 & S2 & S3). conj.
  - exact Htb.
  - congruence.
  - exact Hs0.
  - intros m j k Hm Hj Hk. rewrite S3; [rewrite Hf by assumption; reflexivity|].
    unfold inb, dim0, dim1, dim2; rewrite Hs; simpl nth. repeat split; try assumption.
    apply azimuthal_modes_slot; [lia|exact Hm].
  - unfold L1 in Hfac at 1; cbn [l_prof] in Hfac. unfold energy_factor.
    destruct (p_energy p) as [[E|]|]; try exact Hfac. rewrite He in Hfac. destruct Hfac as (F1 & F2).
    split; [exact F1|]. intros Hp. apply (F2 Hp).
Qed.

Lemma angle_ortho_mod N (z : Z) : (0 < N)%nat ->
  csum N (fun a => cis (IZR z * angle_node N a)) = if Z.eqb (z mod Z.of_nat N) 0 then RtoC (INR N) else RtoC 0.
Proof.
  intros HN. pose proof (INR_neq0 N HN) as HNn. unfold angle_node.
  rewrite (csum_ext _ _ (fun a => cis (2 * PI * (INR a * IZR z) / INR N))) by (intros; f_equal; field; exact HNn).
  destruct (Z.eqb_spec (z mod Z.of_nat N) 0) as [E|E]; [apply ortho_z|apply ortho_nz]; assumption.
Qed.

Lemma angle_mode_folded N K A F m : (0 < N)%nat ->
  (forall theta, F theta = recon (S K) A theta) -> angle_mode N F m = folded N K A m.
Proof.
  intros HN HF. pose proof (INR_neq0 N HN) as HNn. unfold angle_mode, folded.
  rewrite (csum_ext N _ (fun a => csum (2 * K + 1) (fun q =>
      Cmult (A (Z.of_nat q - Z.of_nat K)%Z) (cis (IZR (m - (Z.of_nat q - Z.of_nat K)) * angle_node N a))))).
  2:{ intros a _. rewrite HF. unfold recon. rewrite <- csum_scal_r. replace (2 * S K - 1)%nat with (2 * K + 1)%nat by lia.
      apply csum_ext. intros q _. cbv zeta. replace (Z.of_nat q - (Z.of_nat (S K) - 1))%Z with (Z.of_nat q - Z.of_nat K)%Z by lia.
      rewrite <- Cmult_assoc, <- cis_plus. f_equal. f_equal. rewrite !minus_IZR. ring. }
  rewrite csum_swap, <- csum_scal_l. apply csum_ext. intros q _. cbv zeta.
  rewrite csum_scal_l, angle_ortho_mod by exact HN.
  set (m' := (Z.of_nat q - Z.of_nat K)%Z).
  assert (E : Z.eqb ((m - m') mod Z.of_nat N) 0 = Z.eqb ((m' - m) mod Z.of_nat N) 0).
  { replace (m' - m)%Z with (- (m - m'))%Z by ring.
    destruct (Z.eqb_spec ((m - m') mod Z.of_nat N) 0) as [E|E].
    - symmetry. apply Z.eqb_eq, Z.mod_opp_l_z; [lia|exact E].
    - symmetry. apply Z.eqb_neq. rewrite Z.mod_opp_l_nz by (try lia; exact E).
      pose proof (Z.mod_pos_bound (m - m') (Z.of_nat N)). lia. }
  rewrite E. clear E. destruct (Z.eqb _ _); [|ring].
  transitivity (Cmult (A m') (Cmult (RtoC (/ INR N)) (RtoC (INR N)))); [ring|].
  rewrite <- RtoC_mult, Rinv_l by exact HNn. ring.
Qed.

(** With 2M-1 angles the components |m| < M interpolate F at the angles. *)
Lemma angle_mode_interpolates M F a : (1 <= M)%nat -> (a < 2 * M - 1)%nat ->
  recon M (angle_mode (2 * M - 1) F) (angle_node (2 * M - 1) a) = F (angle_node (2 * M - 1) a).
Proof.
  intros HM Ha. set (N := (2 * M - 1)%nat) in *. assert (HN : (0 < N)%nat) by lia. pose proof (INR_neq0 N HN) as HNn.
  unfold recon. fold N. unfold angle_mode.
  rewrite (csum_ext N _ (fun q => csum N (fun b => Cmult (Cmult (RtoC (/ INR N)) (F (angle_node N b)))
     (Cmult (cis (- (IZR (Z.of_nat M - 1) * (angle_node N b - angle_node N a)))) (cis (IZR (Z.of_nat b - Z.of_nat a) * angle_node N q)))))).
  2:{ intros q _. cbv zeta. rewrite <- csum_scal_l, <- csum_scal_r. apply csum_ext. intros b _.
      transitivity (Cmult (Cmult (RtoC (/ INR N)) (F (angle_node N b)))
        (Cmult (cis (IZR (Z.of_nat q - (Z.of_nat M - 1)) * angle_node N b)) (cis (- (IZR (Z.of_nat q - (Z.of_nat M - 1)) * angle_node N a))))); [ring|].
      f_equal. rewrite <- !cis_plus. f_equal. rewrite !minus_IZR, <- !INR_IZR_INZ. unfold angle_node. field. exact HNn. }
  rewrite csum_swap.
  rewrite (csum_single _ _ a Ha).
  - rewrite csum_scal_l, csum_scal_l. rewrite angle_ortho_mod by exact HN. rewrite Z.sub_diag, Zmod_0_l. cbn [Z.eqb].
    replace (- (IZR (Z.of_nat M - 1) * (angle_node N a - angle_node N a))) with 0 by ring. rewrite cis_0.
    transitivity (Cmult (F (angle_node N a)) (Cmult (RtoC (/ INR N)) (RtoC (INR N)))); [ring|].
    rewrite <- RtoC_mult, Rinv_l by exact HNn. ring.
  - intros b Hb Hne. rewrite csum_scal_l, csum_scal_l, angle_ortho_mod by exact HN.
    destruct (Z.eqb_spec ((Z.of_nat b - Z.of_nat a) mod Z.of_nat N) 0) as [E|E]; [|ring].
    apply Z.mod_divide in E; [|lia]. destruct E as (c & Hc).
    assert (c = 0 \/ c >= 1 \/ c <= -1)%Z as [->|[Hq|Hq]] by lia; [lia|nia|nia].
Qed.

Lemma c08_interpolates lo hi np n1 nt p (M : nat) L :
  laser_init Rt lo hi np p (Z.of_nat M) None = Ok L -> (1 <= M)%nat ->
  nth_error np 0 = Some n1 -> nth_error np 1 = Some nt ->
  0 <= nth 0 lo 0 -> nth 0 lo 0 < nth 0 hi 0 -> nth 1 lo 0 < nth 1 hi 0 ->
  energy_request_ok (p_energy p) ->
  exists a s, snd (get_temporal_field (l_grid L)) = Ok a /\ 0 <= s /\
    forall i j k, (i < 2 * M - 1)%nat -> (j < n1)%nat -> (k < nt)%nat ->
    let theta := angle_node (2 * M - 1) i in
    recon M (comp M a j k) theta =
    Cmult (RtoC s) (p_eval p (coord (nth 0 lo 0) (nth 0 hi 0) n1 j * cos theta) (coord (nth 0 lo 0) (nth 0 hi 0) n1 j * sin theta)
                             (coord (nth 1 lo 0) (nth 1 hi 0) nt k)).
Proof.
  intros HI HM N1 N2 B0 B1 B2 HE.
  destruct (rt_any lo hi np n1 nt p M None L HI N1 N2 B0 B1 B2 HE) as (a & s & Ha & _ & Hs0 & Hs & _).
  exists a, s. split; [exact Ha|]. split; [exact Hs0|]. intros i j k Hi Hj Hk theta.
  set (F := fun th => p_eval p (coord (nth 0 lo 0) (nth 0 hi 0) n1 j * cos th) (coord (nth 0 lo 0) (nth 0 hi 0) n1 j * sin th)
                             (coord (nth 1 lo 0) (nth 1 hi 0) nt k)).
  change (p_eval p _ _ _) with (F theta). unfold theta. rewrite <- (angle_mode_interpolates M F i HM Hi).
  unfold recon. rewrite <- csum_scal_l. apply csum_ext. intros q Hq. cbv zeta. unfold comp.
  rewrite Hs by (try assumption; lia). replace (Z.to_nat (2 * Z.of_nat M - 1)) with (2 * M - 1)%nat by lia.
  rewrite <- Cmult_assoc. reflexivity.
Qed.
