(** C23-C25: failing propagate, resampling, absorbing layer. *)
From Verif Require Import PyBase CSum NpFFT FFTProofs NumPy GridModel GridSpec GridProofs LaserSpec GridObs
  EnergyModel EnergyProofs AngularProofs LaserModel OpticsModel LaserOps LaserInv LaserInitProofs LaserStepProofs
  PropagateProofs HistoryProofs OpticsProofs OpticsProofs2 LaserExamples SolverSpec PropLaws.
From Coq Require Import FunctionalExtensionality.
Open Scope R_scope.

(** dx is the spacing of every axis. *)
Definition consistent (g : grid) : Prop :=
  forall q, (q < length (g_axes g))%nat -> forall i, (Datatypes.S i < length (nth q (g_axes g) []))%nat ->
    nth (Datatypes.S i) (nth q (g_axes g) []) 0 - nth i (nth q (g_axes g) []) 0 = nth q (g_dx g) 0.

Lemma consistent_meta g g' : same_meta g g' -> consistent g -> consistent g'.
Proof. intros (_ & _ & _ & H4 & H5 & _). unfold consistent. rewrite H4, H5. auto. Qed.
Lemma consistent_init d lo hi np nm b g : grid_init d lo hi np nm b = Ok g -> consistent g.
Proof.
  intros H q Hq i Hi. destruct (grid_init_axes _ _ _ _ _ _ _ H) as (_ & _ & La & _ & Hax).
  destruct (Hax q) as (n & _ & Hn & _ & _ & _ & Hs); [lia|]. apply Hs. lia.
Qed.
Lemma consistent_user g : user_grid g -> consistent g.
Proof.
  intros (lo & hi & np & M & g0 & h & Hg & ->). eapply consistent_meta; [apply grun_meta|].
  apply (consistent_init _ _ _ _ _ _ _ Hg).
Qed.
Lemma nth_map_plus l tau i : (i < length l)%nat -> nth i (map (fun t => t + tau) l) 0 = nth i l 0 + tau.
Proof.
  intros H. rewrite (nth_indep _ 0 (0 + tau)) by (rewrite map_length; exact H).
  apply (map_nth (fun t => t + tau)).
Qed.

(** ** C23 *)
Lemma c23_plain S L d nr ng b e : reachable S L -> (l_dim L = Xyt \/ ng = None) ->
  snd (propagate S L d nr ng b) = Err e ->
  let L' := fst (propagate S L d nr ng b) in
  same_except_field L L' /\
  snd (get_temporal_field (l_grid L')) = snd (get_temporal_field (l_grid L)) /\
  snd (get_spectral_field (l_grid L')) = snd (get_spectral_field (l_grid L)).
Proof.
  intros HR Hng He. cbn zeta. destruct (reachable_Inv S L HR) as (n0 & n1 & nt & HI).
  pose proof (i_coh _ _ _ _ HI) as HG.
  destruct (absorb_cases (l_dim L) nr (l_grid L)) as [Hab|(e' & Hab)].
  - exfalso. destruct (absorb_boundary_steps (l_dim L) nr (l_grid L) HG) as (AG & AM & AR & _).
    destruct (proj1 (tread_sread_iff _ (proj1 AG)) (AR (i_read _ _ _ _ HI))) as (s & Hs).
    destruct (propagate_plain S L n0 n1 nt d nr ng b s HI Hng Hab Hs) as (g1 & Hpg & _).
    rewrite Hpg in He. discriminate.
  - destruct (propagate_absorb_fail S L d nr ng b e' HG Hab) as (g' & Hpg & H1 & H2 & H3 & H4).
    rewrite Hpg. cbn [fst]. conj; [|exact H3|exact H4].
    destruct H2 as (M1&M2&M3&M4&M5&M6&M7&_). unfold same_except_field. cbn. conj; auto.
Qed.

(** An invalid nr_boundary is detected before anything is changed, resampling or not. *)
Lemma c23_boundary S L d nr ng b : reachable S L ->
  snd (absorb_boundary (l_dim L) nr (l_grid L)) <> Ok tt ->
  let L' := fst (propagate S L d nr ng b) in
  same_except_field L L' /\
  snd (get_temporal_field (l_grid L')) = snd (get_temporal_field (l_grid L)) /\
  snd (get_spectral_field (l_grid L')) = snd (get_spectral_field (l_grid L)).
Proof.
  intros HR Hnr. cbn zeta. destruct (reachable_Inv S L HR) as (n0 & n1 & nt & HI).
  pose proof (i_coh _ _ _ _ HI) as HG.
  destruct (absorb_cases (l_dim L) nr (l_grid L)) as [Hab|(e' & Hab)]; [contradiction|].
  destruct (propagate_absorb_fail S L d nr ng b e' HG Hab) as (g' & Hpg & H1 & H2 & H3 & H4).
  rewrite Hpg. cbn [fst]. conj; [|exact H3|exact H4].
  destruct H2 as (M1&M2&M3&M4&M5&M6&M7&_). unfold same_except_field. cbn. conj; auto.
Qed.

(** Resampling onto a fresh grid with another number of time points (or more azimuthal modes)
    raises and loses the pulse. *)
Lemma fresh_grid_unreadable lo hi np M g : grid_init Rt lo hi np (Some M) true = Ok g ->
  tread g = Err ValueError /\ sread g = Err ValueError.
Proof.
  intros H. unfold grid_init in H. cbn [pyassert bind] in H.
  destruct (pyassert (Nat.eqb (length lo) 2)); [cbn [bind] in H|discriminate].
  destruct (pyassert (Nat.eqb (length hi) 2)); [cbn [bind] in H|discriminate].
  destruct (build_axes 2 0 lo hi np); [cbn [bind] in H|discriminate].
  destruct (Z.ltb _ 0); [discriminate|]. injection H as <-. split; reflexivity.
Qed.

Lemma tread_over gn g : tread (overwrite_time gn g) = tread gn.
Proof. unfold tread, get_temporal_field, overwrite_time, with_domain; cbn. destruct (g_tv gn), (g_sv gn); reflexivity. Qed.
Lemma sread_over gn g : sread (overwrite_time gn g) = sread gn.
Proof.
  unfold sread, get_spectral_field, overwrite_time, with_domain; cbn.
  destruct (g_isenv gn), (g_tv gn), (g_sv gn); reflexivity.
Qed.
Lemma sread_wd g lo hi ax : sread (with_domain g lo hi ax) = sread g.
Proof.
  unfold sread, get_spectral_field, with_domain; cbn.
  destruct (g_isenv g), (g_tv g), (g_sv g); reflexivity.
Qed.
Lemma c23_loses S L d b lo hi np M gn : reachable S L -> l_dim L = Rt ->
  grid_init Rt lo hi np (Some M) true = Ok gn ->
  last (g_shape gn) 0%nat <> last (g_shape (l_grid L)) 0%nat ->
  let r := propagate S L d None (Some gn) b in
  snd r = Err ValueError /\
  (exists a, snd (get_temporal_field (l_grid L)) = Ok a) /\
  snd (get_temporal_field (l_grid (fst r))) = Err ValueError /\
  snd (get_spectral_field (l_grid (fst r))) = Err ValueError /\
  (forall d' nr' b', nr' = None -> snd (propagate S (fst r) d' nr' None b') = Err ValueError).
Proof.
  intros HR Ed Hg Hne. cbn zeta. destruct (reachable_Inv S L HR) as (n0 & n1 & nt & HI).
  destruct (reachable_read S L HR) as (a & s & Ha & Hs & _).
  destruct (grid_init_GShape_rt _ _ _ _ _ _ Hg) as (m1 & mt & _ & _ & HM & GS).
  pose proof (grid_init_CohG _ _ _ _ _ _ Hg) as HGn.
  destruct (fresh_grid_unreadable _ _ _ _ _ Hg) as (F1 & F2).
  rewrite (gs_shape _ _ _ _ _ GS), (gs_shape _ _ _ _ _ (i_shape _ _ _ _ HI)) in Hne. simpl in Hne.
  destruct (propagate_resample S L n0 n1 nt d None gn b s _ m1 mt HI Ed GS HGn eq_refl Hs)
      as [(Emt & _)|[(_ & Hpg)|(Emt & _)]]; try (exfalso; congruence).
  rewrite Hpg. cbn [fst snd l_grid set_grid].
  conj; try reflexivity.
  - exists a; exact Ha.
  - rewrite <- F1. apply tread_over.
  - rewrite <- F2. apply sread_over.
  - intros d' nr' b' ->. unfold propagate. cbn [l_grid set_grid].
    assert (HE : g_isenv (overwrite_time gn (l_grid L)) = true) by apply (proj1 (proj1 HGn)).
    rewrite HE. cbn [negb absorb_boundary snd fst].
    change (snd (get_spectral_field (overwrite_time gn (l_grid L)))) with (sread (overwrite_time gn (l_grid L))).
    rewrite sread_over, F2. reflexivity.
Qed.

(** ** C24 *)
Lemma rt_lists g n0 n1 nt : GShape Rt g n0 n1 nt ->
  exists r0 t0 r1 t1 ar ax dr dt, g_lo g = [r0; t0] /\ g_hi g = [r1; t1] /\ g_axes g = [ar; ax] /\ g_dx g = [dr; dt].
Proof.
  intros HS. pose proof (gs_lo _ _ _ _ _ HS) as A1. pose proof (gs_hi _ _ _ _ _ HS) as A2.
  pose proof (gs_axes _ _ _ _ _ HS) as A3. pose proof (gs_dx _ _ _ _ _ HS) as A4. simpl in *.
  destruct (g_lo g) as [|? [|? [|]]]; try discriminate. destruct (g_hi g) as [|? [|? [|]]]; try discriminate.
  destruct (g_axes g) as [|? [|? [|]]]; try discriminate. destruct (g_dx g) as [|? [|? [|]]]; try discriminate.
  do 8 eexists. conj; reflexivity.
Qed.

Lemma c24 S L d gn b L' : reachable S L -> l_dim L = Rt -> user_grid gn ->
  propagate S L d None (Some gn) b = (L', Ok tt) ->
  (* the transverse grid is gn's, the time window is the old one shifted by d/c *)
  nth 0 (g_lo (l_grid L')) 0 = nth 0 (g_lo gn) 0 /\ nth 0 (g_hi (l_grid L')) 0 = nth 0 (g_hi gn) 0 /\
  nth 0 (g_axes (l_grid L')) [] = nth 0 (g_axes gn) [] /\ nth 0 (g_dx (l_grid L')) 0 = nth 0 (g_dx gn) 0 /\
  nth 1 (g_lo (l_grid L')) 0 = nth 1 (g_lo (l_grid L)) 0 + d / c_light /\
  nth 1 (g_hi (l_grid L')) 0 = nth 1 (g_hi (l_grid L)) 0 + d / c_light /\
  nth 1 (g_axes (l_grid L')) [] = map (fun t => t + d / c_light) (nth 1 (g_axes (l_grid L)) []) /\
  (* but the time step recorded is gn's, and the labels are gn's *)
  nth 1 (g_dx (l_grid L')) 0 = nth 1 (g_dx gn) 0 /\ g_modes (l_grid L') = g_modes gn /\ l_prop L' = None /\
  (* each slot of the result is the resampled propagation of the same slot *)
  exists s s' modes modes', snd (get_spectral_field (l_grid L)) = Ok s /\ snd (get_spectral_field (l_grid L')) = Ok s' /\
    g_modes (l_grid L) = Some modes /\ g_modes gn = Some modes' /\ (length modes' <= length modes)%nat /\
    shp s' = [length modes'; length (nth 0 (g_axes gn) []); dim2 s] /\ dim2 s = length (l_omega L) /\
    forall i m j k, nth_error modes' i = Some m ->
      at3 s' i j k = Cmult (step_rt S (mkRtProp (nth 0 (g_axes (l_grid L)) []) (map (fun w => w / c_light) (l_omega L))
                                 (Some (nth 0 (g_axes gn) [])) m b) (fun kk jj => at3 s i jj kk) d k j)
                           (cis (- ((nth k (l_omega L) 0 - p_omega0 (l_prof L)) * (d / c_light)))).
Proof.
  intros HR Ed Hu Hp. destruct (reachable_Inv S L HR) as (n0 & n1 & nt & HI).
  destruct (reachable_read S L HR) as (a & s & Ha & Hs & _).
  destruct (user_grid_props gn Hu) as (HGn & m0 & m1 & mt & HSn).
  destruct (propagate_resample S L n0 n1 nt d None gn b s m0 m1 mt HI Ed HSn HGn eq_refl Hs)
      as [(Emt & Hle & g1 & Hpg & HG1 & HM1 & Hs1 & Ht1)|[(_ & Hpg)|(_ & _ & Hpg)]];
      rewrite Hpg in Hp; try discriminate.
  injection Hp as <-. cbn [l_grid set_grid l_prop set_prop].
  pose proof (i_shape _ _ _ _ HI) as HS. rewrite Ed in HS.
  destruct (rt_lists _ _ _ _ HS) as (r0 & t0 & r1 & t1 & ar & ax & dr & dt & E1 & E2 & E3 & E4).
  destruct (rt_lists _ _ _ _ HSn) as (r0' & t0' & r1' & t1' & ar' & ax' & dr' & dt' & E1' & E2' & E3' & E4').
  destruct HM1 as (M1&M2&M3&M4&M5&M6&M7&M8&_).
  unfold overwrite_time, time_axis in M1, M2, M4, M5, M7. cbn [with_domain g_lo g_hi g_axes g_dx g_modes] in M1, M2, M4, M5, M7.
  rewrite E1, E1' in M1. rewrite E2, E2' in M2. rewrite E3, E3' in M4. unfold set_last, lastR in M1, M2, M4. simpl in M1, M2, M4.
  unfold shift_domain, time_axis. cbn [with_domain g_lo g_hi g_axes g_dx g_modes].
  rewrite M1, M2, M4, M5, M7, E1, E2, E3, E1', E2', E3', E4'. unfold set_last, lastR. cbn [removelast last app nth].
  conj; try reflexivity.
  destruct (gs_rt _ _ _ _ _ HS eq_refl) as (Mo & HMo & Hn0 & Hmo & _).
  destruct (gs_rt _ _ _ _ _ HSn eq_refl) as (Mn & HMn & Hm0 & Hmn & _ & _ & Hl).
  exists s. eexists. eexists. eexists. split; [exact Hs|]. split; [etransitivity; [apply sread_wd|exact Hs1]|].
  split; [exact Hmo|]. split; [exact Hmn|].
  destruct (sread_shape _ _ (proj1 (i_coh _ _ _ _ HI)) Hs) as (Hsh & _). rewrite (gs_shape _ _ _ _ _ HS) in Hsh.
  conj.
  - rewrite !azimuthal_modes_length by lia. lia.
  - cbn [apply_phase shp]. rewrite azimuthal_modes_length by lia.
    unfold dim2. rewrite Hsh. cbn [nth]. rewrite E3' in Hl. cbn [nth] in Hl. rewrite Hl, Emt. f_equal. lia.
  - unfold dim2. rewrite Hsh. cbn [nth]. symmetry. apply (i_omega _ _ _ _ HI).
  - intros i m j k Hm. cbn [apply_phase at3]. unfold step_mode, build_rt. rewrite Hmn.
    erewrite map_nth_error by exact Hm. rewrite E3, E3'. reflexivity.
Qed.

Lemma c24_good S L d gn b L' : reachable S L -> l_dim L = Rt -> user_grid gn ->
  propagate S L d None (Some gn) b = (L', Ok tt) ->
  consistent (l_grid L) -> nth 1 (g_dx gn) 0 = nth 1 (g_dx (l_grid L)) 0 ->
  consistent (l_grid L').
Proof.
  intros HR Ed Hu Hp HC Hdt.
  destruct (c24 S L d gn b L' HR Ed Hu Hp) as (H1&H2&H3&H4&H5&H6&H7&H8&_).
  destruct (reachable_Inv S L HR) as (n0 & n1 & nt & HI).
  assert (HR' : reachable S L').
  { replace L' with (fst (lstep S L (OpPropagate d None (Some gn) b))) by (cbn [lstep]; rewrite Hp; reflexivity).
    apply reachable_step; [exact HR|exact Hu|right; cbn [lstep]; rewrite Hp; reflexivity]. }
  destruct (reachable_Inv S L' HR') as (m0 & m1 & mt & HI').
  assert (Ed' : l_dim L' = Rt).
  { destruct (step_ok_inv S L n0 n1 nt (OpPropagate d None (Some gn) b) HI Hu) as (? & ? & _ & _ & D & _);
    cbn [lstep] in *; rewrite Hp in *; [reflexivity|]. cbn in D. congruence. }
  pose proof (gs_axes _ _ _ _ _ (i_shape _ _ _ _ HI')) as La. rewrite Ed' in La. simpl in La.
  pose proof (gs_axes _ _ _ _ _ (i_shape _ _ _ _ HI)) as La0. rewrite Ed in La0. simpl in La0.
  pose proof (consistent_user gn Hu) as Hgn. destruct (user_grid_props gn Hu) as (_ & k0 & k1 & kt & HSn).
  pose proof (gs_axes _ _ _ _ _ HSn) as Lan. simpl in Lan.
  intros q Hq i Hi. rewrite La in Hq. destruct q as [|[|q]]; [| |lia].
  - rewrite H3 in Hi |- *. rewrite H4. apply Hgn; [lia|exact Hi].
  - rewrite H7 in Hi |- *. rewrite map_length in Hi. rewrite !nth_map_plus by lia. rewrite H8, Hdt.
    rewrite <- (HC 1%nat) with (i := i) by lia. ring.
Qed.

Lemma c24_bad S L d gn b L' : reachable S L -> l_dim L = Rt -> user_grid gn ->
  propagate S L d None (Some gn) b = (L', Ok tt) ->
  consistent (l_grid L) -> nth 1 (g_dx gn) 0 <> nth 1 (g_dx (l_grid L)) 0 ->
  ~ consistent (l_grid L').
Proof.
  intros HR Ed Hu Hp HC Hdt HC'.
  destruct (c24 S L d gn b L' HR Ed Hu Hp) as (H1&H2&H3&H4&H5&H6&H7&H8&_).
  destruct (reachable_Inv S L HR) as (n0 & n1 & nt & HI).
  pose proof (gs_axes _ _ _ _ _ (i_shape _ _ _ _ HI)) as La0. rewrite Ed in La0. simpl in La0.
  pose proof (gs_tax _ _ _ _ _ (i_shape _ _ _ _ HI)) as Lt. unfold time_axis in Lt. rewrite last_nth, La0 in Lt. simpl in Lt.
  pose proof (gs_pos _ _ _ _ _ (i_shape _ _ _ _ HI)) as (_ & _ & P).
  assert (La : (1 < length (g_axes (l_grid L')))%nat).
  { destruct (g_axes (l_grid L')) as [|x [|y l]]; simpl in *; try lia;
    apply (f_equal (@length R)) in H7; rewrite map_length, Lt in H7; simpl in H7; lia. }
  specialize (HC' 1%nat La 0%nat). rewrite H7, map_length in HC'. specialize (HC' ltac:(lia)).
  rewrite !nth_map_plus in HC' by lia. rewrite H8 in HC'. apply Hdt. rewrite <- HC', <- (HC 1%nat) with (i := 0%nat) by lia. ring.
Qed.

(** ** C25 *)
Lemma linspace_half_bounds n i : 0 <= vget (linspace 0 (PI / 2) n) i <= PI / 2.
Proof.
  pose proof PI_RGT_0 as HP. unfold vget. destruct (Nat.lt_ge_cases i (length (linspace 0 (PI / 2) n))) as [H|H].
  2:{ rewrite nth_overflow by exact H. lra. }
  destruct n as [|[|n]]; [simpl in H; lia|destruct i as [|[|i]]; simpl in *; lra|].
  unfold linspace in *. rewrite map_length, seq_length in H.
  rewrite (nth_indep _ 0 (0 + INR 0 * ((PI / 2 - 0) / (INR (Datatypes.S (Datatypes.S n)) - 1)))) by (rewrite map_length, seq_length; exact H).
  rewrite (map_nth (fun i => 0 + INR i * ((PI / 2 - 0) / (INR (Datatypes.S (Datatypes.S n)) - 1)))), seq_nth by exact H.
  simpl Nat.add.
  assert (Hn : INR (Datatypes.S (Datatypes.S n)) - 1 = INR (Datatypes.S n)) by (rewrite (S_INR (Datatypes.S n)); lra).
  rewrite Hn.
  assert (Hp : 0 < INR (Datatypes.S n)) by (apply lt_0_INR; lia).
  assert (Hi : INR i <= INR (Datatypes.S n)) by (apply le_INR; lia). pose proof (pos_INR i) as Hi0.
  replace (0 + INR i * ((PI / 2 - 0) / INR (Datatypes.S n))) with (PI / 2 * (INR i / INR (Datatypes.S n))) by (field; lra).
  assert (Hq : 0 <= INR i / INR (Datatypes.S n) <= 1).
  { split; [apply Rmult_le_pos; [exact Hi0|apply Rlt_le, Rinv_0_lt_compat, Hp]|].
    apply Rmult_le_reg_r with (INR (Datatypes.S n)); [exact Hp|]. unfold Rdiv. rewrite Rmult_assoc, Rinv_l by lra. lra. }
  nra.
Qed.
Lemma absorb_shape_bounds n i : 0 <= absorb_shape n i <= 1.
Proof.
  unfold absorb_shape. destruct (Nat.eqb i (n - 1)); [lra|].
  pose proof (linspace_half_bounds n i) as (H1 & H2). split; [apply sqrt_pos|].
  rewrite <- sqrt_1. apply sqrt_le_1_alt. apply COS_bound.
Qed.
Lemma absorb_hi_bounds n N p : 0 <= absorb_hi n N p <= 1.
Proof. unfold absorb_hi. destruct (Nat.leb _ _); [apply absorb_shape_bounds|lra]. Qed.
Lemma absorb_lo_bounds n p : 0 <= absorb_lo n p <= 1.
Proof. unfold absorb_lo. destruct (Nat.ltb _ _); [apply absorb_shape_bounds|lra]. Qed.

(** A damping profile over the first two array axes: attenuates, is 1 away from the layer of [n]
    cells at the outer edges, and 0 on the outermost cells. *)
Definition layer_factor (d : pydim) (n n0 n1 : nat) (F : nat -> nat -> R) : Prop :=
  (forall i j, 0 <= F i j <= 1) /\
  match d with
  | Rt => (forall i j, (j + n < n1)%nat -> F i j = 1) /\ (forall i, F i (n1 - 1)%nat = 0)
  | _ => (forall i j, (n <= i)%nat -> (i + n < n0)%nat -> (n <= j)%nat -> (j + n < n1)%nat -> F i j = 1) /\
         (forall i j, (i = 0 \/ i = n0 - 1 \/ j = 0 \/ j = n1 - 1)%nat -> F i j = 0)
  end.

Lemma absorb_shape_end n : absorb_shape n (n - 1) = 0.
Proof. unfold absorb_shape. rewrite Nat.eqb_refl. reflexivity. Qed.
Lemma absorb_hi_end n N : (1 <= n)%nat -> (n <= N)%nat -> absorb_hi n N (N - 1) = 0.
Proof.
  intros H1 H2. unfold absorb_hi. destruct (Nat.leb_spec (N - n) (N - 1)); [|lia].
  replace (N - 1 - (N - n))%nat with (n - 1)%nat by lia. apply absorb_shape_end.
Qed.
Lemma absorb_lo_end n : (1 <= n)%nat -> absorb_lo n 0 = 0.
Proof.
  intros H1. unfold absorb_lo. destruct (Nat.ltb_spec 0 n); [|lia]. rewrite Nat.sub_0_r. apply absorb_shape_end.
Qed.
Lemma absorb_hi_one n N p : (p + n < N)%nat -> absorb_hi n N p = 1.
Proof. intros H. unfold absorb_hi. destruct (Nat.leb_spec (N - n) p); [lia|reflexivity]. Qed.
Lemma absorb_lo_one n p : (n <= p)%nat -> absorb_lo n p = 1.
Proof. intros H. unfold absorb_lo. destruct (Nat.ltb_spec p n); [lia|reflexivity]. Qed.
Lemma Rmult01 a b : 0 <= a <= 1 -> 0 <= b <= 1 -> 0 <= a * b <= 1.
Proof. intros; split; nra. Qed.

Definition damp (F : nat -> nat -> R) (a : ndarray) : ndarray :=
  mkArr (shp a) (dty a) (fun i j k => Cmult (RtoC (F i j)) (at3 a i j k)).

Lemma c25 S L d z ng b a : reachable S L -> snd (get_temporal_field (l_grid L)) = Ok a ->
  (0 < z)%Z -> (Z.to_nat z <= dim1 a)%nat -> (l_dim L = Xyt -> (Z.to_nat z <= dim0 a)%nat) ->
  exists F g1, layer_factor (l_dim L) (Z.to_nat z) (dim0 a) (dim1 a) F /\
    snd (get_temporal_field g1) = Ok (damp F a) /\ same_window (l_grid L) g1 /\
    reachable S L /\
    propagate S L d (Some (PyInt z)) ng b = propagate S (set_grid L g1) d None ng b.
Proof.
  intros HR Ha Hz H1 H0. destruct (reachable_Inv S L HR) as (n0 & n1 & nt & HI).
  pose proof (i_coh _ _ _ _ HI) as HG. set (n := Z.to_nat z) in *.
  assert (Hn : (1 <= n)%nat) by (unfold n; lia).
  set (g0 := fst (get_temporal_field (l_grid L))).
  assert (HG0 : CohG g0) by apply get_t_Coh, HG.
  assert (HM0 : same_meta (l_grid L) g0) by apply get_t_meta.
  destruct (tread_shape _ _ (proj1 HG) Ha) as (Hsh & Hdt).
  assert (HF : exists F, layer_factor (l_dim L) n (dim0 a) (dim1 a) F /\ absorb_field (l_dim L) n a = Ok (damp F a)).
  { destruct (i_dim _ _ _ _ HI) as [Ed|Ed]; rewrite Ed in *; unfold absorb_field.
    - destruct (Nat.ltb_spec (dim1 a) n); [lia|].
      exists (fun _ j => absorb_hi n (dim1 a) j). split.
      + split; [intros; apply absorb_hi_bounds|]. split; intros; [apply absorb_hi_one; assumption|apply absorb_hi_end; assumption].
      + f_equal. unfold damp. f_equal. apply functional_extensionality; intros i. apply functional_extensionality; intros j.
        apply functional_extensionality; intros k. ring.
    - specialize (H0 eq_refl). destruct (Nat.ltb_spec (dim0 a) n); [lia|]. destruct (Nat.ltb_spec (dim1 a) n); [lia|].
      exists (fun i j => absorb_hi n (dim0 a) i * absorb_lo n i * absorb_hi n (dim1 a) j * absorb_lo n j). split.
      + split; [intros; repeat apply Rmult01; try apply absorb_hi_bounds; apply absorb_lo_bounds|]. split.
        * intros i j A B C D. rewrite !absorb_hi_one, !absorb_lo_one by assumption. ring.
        * intros i j [-> |[-> |[-> | ->]]]; rewrite ?absorb_lo_end, ?absorb_hi_end by assumption; ring.
      + f_equal. unfold damp. f_equal. apply functional_extensionality; intros i. apply functional_extensionality; intros j.
        apply functional_extensionality; intros k. rewrite !RtoC_mult. ring. }
  destruct HF as (F & HF & Hab).
  destruct (set_t_ok g0 (damp F a) (proj1 HG0)) as (R1 & R2 & R3).
  { destruct HM0 as (_&_&_&_&_&_&_&M8&_). rewrite M8. exact Hsh. }
  { exact Hdt. }
  exists F, (fst (set_temporal_field g0 (damp F a))). conj; try assumption.
  - apply same_meta_window. eapply same_meta_trans; [exact HM0|apply set_t_meta].
  - unfold propagate at 1. rewrite (proj1 (proj1 HG)). cbn [negb].
    assert (EA : absorb_boundary (l_dim L) (Some (PyInt z)) (l_grid L) = set_temporal_field g0 (damp F a)).
    { unfold absorb_boundary. destruct (Z.leb_spec z 0); [lia|]. fold n.
      change (snd (get_temporal_field (l_grid L))) with (tread (l_grid L)).
      assert (Ha' : tread (l_grid L) = Ok a) by exact Ha. rewrite Ha'. rewrite Hab. reflexivity. }
    rewrite EA, R1. unfold propagate. cbn [l_grid set_grid l_dim l_prop].
    assert (HE : g_isenv (fst (set_temporal_field g0 (damp F a))) = true).
    { apply (proj1 (proj1 (set_t_Coh g0 (damp F a) HG0))). }
    rewrite HE. cbn [negb absorb_boundary fst snd].
    destruct (snd (get_spectral_field _)); reflexivity.
Qed.

Lemma c25_reject S L d nr ng b a : reachable S L -> snd (get_temporal_field (l_grid L)) = Ok a ->
  (nr = PyOther \/ (exists z, nr = PyInt z /\ (z <= 0)%Z) ->
     snd (propagate S L d (Some nr) ng b) = Err AssertionError) /\
  (forall z, nr = PyInt z -> (0 < z)%Z -> (dim1 a < Z.to_nat z)%nat \/ (l_dim L = Xyt /\ (dim0 a < Z.to_nat z)%nat) ->
     snd (propagate S L d (Some nr) ng b) = Err ValueError).
Proof.
  intros HR Ha. destruct (reachable_Inv S L HR) as (n0 & n1 & nt & HI).
  pose proof (i_coh _ _ _ _ HI) as HG.
  assert (HX : forall e, snd (absorb_boundary (l_dim L) (Some nr) (l_grid L)) = Err e -> snd (propagate S L d (Some nr) ng b) = Err e).
  { intros e He. destruct (propagate_absorb_fail S L d (Some nr) ng b e HG He) as (g' & E & _). rewrite E. reflexivity. }
  split.
  - intros [-> | (z & -> & Hz)]; apply HX; [reflexivity|]. unfold absorb_boundary. destruct (Z.leb_spec z 0); [reflexivity|lia].
  - intros z -> Hz Hb. apply HX. unfold absorb_boundary. destruct (Z.leb_spec z 0); [lia|].
    change (snd (get_temporal_field (l_grid L))) with (tread (l_grid L)).
    assert (Ha' : tread (l_grid L) = Ok a) by exact Ha. rewrite Ha'.
    assert (EF : absorb_field (l_dim L) (Z.to_nat z) a = Err ValueError); [|rewrite EF; reflexivity].
    unfold absorb_field. destruct (i_dim _ _ _ _ HI) as [Ed|Ed]; rewrite Ed in *.
    + destruct Hb as [Hb|(Hb & _)]; [|discriminate]. destruct (Nat.ltb_spec (dim1 a) (Z.to_nat z)); [reflexivity|lia].
    + destruct (Nat.ltb_spec (dim0 a) (Z.to_nat z)); [reflexivity|].
      destruct (Nat.ltb_spec (dim1 a) (Z.to_nat z)); [reflexivity|]. lia.
Qed.
