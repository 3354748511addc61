(** Histories of laser calls: invariants, the time window (C19), cached propagator (C21). *)
From Verif Require Import PyBase CSum NpFFT FFTProofs NumPy GridModel GridSpec GridProofs LaserSpec GridObs
  EnergyModel EnergyProofs AngularProofs LaserModel LaserOps LaserInv LaserInitProofs LaserStepProofs PropagateProofs.
Open Scope R_scope.

(** ** Construction establishes the invariant *)
Lemma omega_axis_length g w : length (omega_axis g w) = lastN (g_shape g).
Proof. unfold omega_axis. rewrite map_length, seq_length. reflexivity. Qed.

Lemma init_normalize_inv L L' : CohG (l_grid L) -> (exists a, tread (l_grid L) = Ok a) ->
  init_normalize L = Ok L' ->
  exists g', L' = set_grid L g' /\ CohG g' /\ same_meta (l_grid L) g' /\ (exists a, tread g' = Ok a).
Proof.
  intros HG Hr. unfold init_normalize. destruct (p_energy (l_prof L)) as [v|].
  - pose proof (normalize_grid_steps (l_dim L) v KEnergy (l_grid L) HG) as (H1 & H2 & H3).
    cbn [normalize_grid] in *.
    destruct (snd (normalize_energy (l_dim L) v (l_grid L))); [|discriminate].
    intros [= <-]. eexists. conj; [reflexivity|exact H1|exact H2|exact (H3 Hr)].
  - intros [= <-]. exists (l_grid L). conj; [destruct L; reflexivity|exact HG|apply same_meta_refl|exact Hr].
Qed.

Lemma set_grid_grid L g : l_grid (set_grid L g) = g. Proof. reflexivity. Qed.

Lemma laser_init_Inv d lo hi np p nm nte L : laser_init d lo hi np p nm nte = Ok L ->
  exists g n0 n1 nt, grid_init d lo hi np (Some nm) true = Ok g /\ same_meta g (l_grid L) /\
    l_dim L = d /\ l_prof L = p /\ l_omega L = omega_axis g (p_omega0 p) /\ l_prop L = None /\
    l_iter L = 0%nat /\ nth_error np (ndims_of d - 1) = Some nt /\
    GShape d g n0 n1 nt /\ Inv L n0 n1 nt.
Proof.
  intros H. assert (Hd : d = Rt \/ d = Xyt).
  { destruct d; auto. discriminate. }
  rewrite laser_init_split in H.
  destruct (laser_init d lo hi np (no_energy p) nm nte) as [L0|e] eqn:E0; [|discriminate].
  cbn [bind] in H.
  assert (HX : exists g n0 n1 nt, grid_init d lo hi np (Some nm) true = Ok g /\ same_meta g (l_grid L0) /\
     l_dim L0 = d /\ l_omega L0 = omega_axis g (p_omega0 p) /\ l_prop L0 = None /\ l_iter L0 = 0%nat /\
     nth_error np (ndims_of d - 1) = Some nt /\ GShape d g n0 n1 nt /\ CohG (l_grid L0) /\
     (exists a, tread (l_grid L0) = Ok a)).
  { destruct Hd as [-> | ->].
    - destruct (laser_init_rt_raw _ _ _ _ _ _ _ E0) as
        (g & n1 & nt & N & Hg & HM & HNe & HNM & GS & HG & HMt & Ht & D1 & D2 & D3 & D4 & D5).
      destruct (grid_init_GShape_rt _ _ _ _ _ _ Hg) as (n1' & nt' & _ & N2' & _ & GS').
      assert (Q : nt' = nt).
      { pose proof (gs_shape _ _ _ _ _ GS). pose proof (gs_shape _ _ _ _ _ GS'). congruence. }
      exists g, (2 * Z.to_nat nm - 1)%nat, n1, nt. conj; try assumption; try eauto.
      change (ndims_of Rt - 1)%nat with 1%nat. rewrite N2', Q. reflexivity.
    - destruct (laser_init_xyt_raw _ _ _ _ _ _ _ E0) as
        (g & n0 & n1 & nt & Hg & -> & G2 & GS & Hdt & HG & HMt & Ht & D1 & D2 & D3 & D4 & D5).
      exists g, n0, n1, nt. conj; try assumption; try eauto. }
  destruct HX as (g & n0 & n1 & nt & Hg & HM & D1 & D2 & D3 & D4 & Hnt & GS & HG & Hr).
  destruct (init_normalize_inv (mkLaser (l_dim L0) (l_grid L0) p (l_iter L0) (l_omega L0) (l_prop L0)) _ HG Hr H) as (g' & -> & HG' & HM' & Hr').
  cbn [l_grid] in HM'.
  exists g, n0, n1, nt. cbn [l_grid l_dim l_prof l_omega l_prop l_iter set_grid].
  conj; try assumption; try reflexivity.
  - eapply same_meta_trans; [exact HM|exact HM'].
  - constructor; cbn [l_grid l_dim l_prof l_omega l_prop l_iter set_grid]; try assumption.
    + rewrite D1. eapply GShape_meta; [|exact GS]. eapply same_meta_trans; [exact HM|exact HM'].
    + rewrite D1; exact Hd.
    + rewrite D2, omega_axis_length, (gs_shape _ _ _ _ _ GS). reflexivity.
    + left; exact D3.
Qed.

(** ** Domain shift bookkeeping *)
Lemma set_last_self {A} (l : list A) d : l <> [] -> set_last l (last l d) = l.
Proof. intros H. unfold set_last. symmetry. apply app_removelast_last, H. Qed.
Lemma set_last_twice {A} (l : list A) u v : set_last (set_last l u) v = set_last l v.
Proof.
  unfold set_last. rewrite removelast_app by discriminate. simpl. rewrite app_nil_r. reflexivity.
Qed.
Lemma len_nonempty {A} (l : list A) n : length l = S n -> l <> [].
Proof. intros H ->; discriminate. Qed.
Lemma ndims_S d : exists n, ndims_of d = S n.
Proof. destruct d; simpl; eauto. Qed.

Lemma shift_0 d g n0 n1 nt : GShape d g n0 n1 nt -> shift_domain g 0 = g.
Proof.
  intros HS. destruct (ndims_S d) as (n & Hn).
  pose proof (gs_lo _ _ _ _ _ HS) as A1. pose proof (gs_hi _ _ _ _ _ HS) as A2. pose proof (gs_axes _ _ _ _ _ HS) as A3.
  rewrite Hn in *. apply len_nonempty in A1, A2, A3.
  unfold shift_domain. replace (0 / c_light) with 0 by (unfold Rdiv; ring).
  rewrite !Rplus_0_r. unfold lastR. rewrite !set_last_self by assumption.
  rewrite (map_ext _ (fun x => x)) by (intros; ring). rewrite map_id.
  unfold time_axis. rewrite set_last_self by assumption. destruct g; reflexivity.
Qed.
Lemma shift_shift g a b : shift_domain (shift_domain g a) b = shift_domain g (a + b).
Proof.
  unfold shift_domain, time_axis. cbn [with_domain g_lo g_hi g_axes].
  rewrite !set_last_twice. unfold lastR. rewrite !set_last_last, map_map.
  replace ((a + b) / c_light) with (a / c_light + b / c_light) by (unfold Rdiv; ring).
  rewrite !Rplus_assoc. unfold with_domain; cbn. f_equal.
  f_equal. apply map_ext; intros; ring.
Qed.
Lemma shift_same_meta g g' a : same_meta g g' -> same_meta (shift_domain g a) (shift_domain g' a).
Proof.
  intros (H1 & H2 & H3 & H4 & H5 & H6 & H7 & H8 & H9 & H10).
  unfold same_meta, shift_domain, time_axis, with_domain; cbn. rewrite H1, H2, H4. repeat split; assumption.
Qed.

(** ** One step without resampling *)
Definition step_dist (S : solvers) (L : laser) (o : lop) : R :=
  match o, snd (lstep S L o) with OpPropagate dist _ _ _, Ok _ => dist | _, _ => 0 end.

Lemma fresh_prop_ext L L' b : l_dim L' = l_dim L -> l_omega L' = l_omega L ->
  (exists D, same_meta (shift_domain (l_grid L) D) (l_grid L')) ->
  length (g_lo (l_grid L)) = ndims_of (l_dim L) -> length (g_hi (l_grid L)) = ndims_of (l_dim L) ->
  length (g_axes (l_grid L)) = ndims_of (l_dim L) ->
  (l_dim L = Rt \/ l_dim L = Xyt) ->
  fresh_prop L' b = fresh_prop L b.
Proof.
  intros Hd Ho (D & HM) Ll Lh La Hdim. unfold fresh_prop. rewrite Hd, Ho.
  destruct HM as (H1 & H2 & _ & H4 & _ & _ & H7 & H8 & _).
  cbn [shift_domain with_domain g_lo g_hi g_axes g_modes g_shape] in *.
  rewrite H4, H7. unfold build_xyt. rewrite H1, H2, H8.
  destruct Hdim as [E|E]; rewrite E in *; simpl ndims_of in *.
  - rewrite set_last_nth by lia. reflexivity.
  - unfold vget. rewrite !set_last_nth by lia. reflexivity.
Qed.

Lemma absorb_cases d nr g : snd (absorb_boundary d nr g) = Ok tt \/ exists e, snd (absorb_boundary d nr g) = Err e.
Proof. destruct (snd (absorb_boundary d nr g)) as [[]|e]; eauto. Qed.

Lemma step_plain S L n0 n1 nt o : Inv L n0 n1 nt -> (l_dim L = Xyt \/ no_resample o) ->
  let L' := fst (lstep S L o) in
  Inv L' n0 n1 nt /\ same_meta (shift_domain (l_grid L) (step_dist S L o)) (l_grid L') /\
  l_dim L' = l_dim L /\ l_omega L' = l_omega L /\ l_prof L' = l_prof L.
Proof.
  intros HI Ho. cbn zeta.
  pose proof (i_shape _ _ _ _ HI) as HS. pose proof (i_coh _ _ _ _ HI) as HG.
  pose proof (i_dim _ _ _ _ HI) as Hdim. pose proof (i_omega _ _ _ _ HI) as Hom.
  pose proof (i_read _ _ _ _ HI) as Hr. pose proof (i_prop _ _ _ _ HI) as Hp.
  (* generic: a step that only replaces the grid by one with the same metadata *)
  assert (Hgen : forall g', CohG g' -> same_meta (l_grid L) g' -> (exists a, tread g' = Ok a) ->
      forall it, Inv (mkLaser (l_dim L) g' (l_prof L) it (l_omega L) (l_prop L)) n0 n1 nt /\
      same_meta (shift_domain (l_grid L) 0) g').
  { intros g' H1 H2 H3 it. split.
    - constructor; cbn [l_dim l_grid l_prof l_iter l_omega l_prop]; try assumption.
      + eapply GShape_meta; eassumption.
      + destruct Hp as [Hp|(b & Hp)]; [left; exact Hp|right; exists b].
        rewrite Hp. f_equal. symmetry.
        change (fresh_prop (mkLaser (l_dim L) g' (l_prof L) it (l_omega L) (l_prop L)) b)
          with (fresh_prop (set_grid L g') b).
        apply fresh_prop_meta, H2.
    - rewrite (shift_0 _ _ _ _ _ HS). exact H2. }
  destruct o as [dist nr ng b|oe|v k|w]; unfold step_dist; cbn [lstep].
  - (* propagate *)
    destruct (absorb_cases (l_dim L) nr (l_grid L)) as [Hab|(e & Hab)].
    + destruct (absorb_boundary_steps (l_dim L) nr (l_grid L) HG) as (AG & AM & AR & _).
      destruct (proj1 (tread_sread_iff _ (proj1 AG)) (AR Hr)) as (s & Hs).
      assert (Hng : l_dim L = Xyt \/ ng = None).
      { destruct Ho as [?|Ho]; [left; assumption|]. destruct ng; [destruct Ho|right; reflexivity]. }
      destruct (propagate_plain S L n0 n1 nt dist nr ng b s HI Hng Hab Hs) as (g1 & Hpg & HG1 & HM1 & _ & Ht1).
      rewrite Hpg. cbn [fst snd l_dim l_grid l_prof l_iter l_omega l_prop set_grid set_prop].
      assert (HMs : same_meta (shift_domain (l_grid L) dist) (shift_domain g1 dist)) by (apply shift_same_meta, HM1).
      split; [|conj; try reflexivity; exact HMs].
      constructor; cbn [fst snd l_dim l_grid l_prof l_iter l_omega l_prop set_grid set_prop]; try assumption.
      * apply shift_GShape. eapply GShape_meta; eassumption.
      * rewrite tread_shift. eauto.
      * right.
        assert (Hu : exists b', used_prop L b = fresh_prop L b').
        { unfold used_prop. destruct Hp as [Hp|(b' & Hp)]; rewrite Hp; eauto. }
        destruct Hu as (b' & Hu). exists b'. rewrite Hu. f_equal. symmetry.
        apply fresh_prop_ext; try reflexivity.
        -- exists dist. exact HMs.
        -- apply (gs_lo _ _ _ _ _ HS).
        -- apply (gs_hi _ _ _ _ _ HS).
        -- apply (gs_axes _ _ _ _ _ HS).
        -- exact Hdim.
    + destruct (propagate_absorb_fail S L dist nr ng b e HG Hab) as (g' & Hpg & H1 & H2 & H3 & H4).
      rewrite Hpg. cbn [fst snd].
      destruct (Hgen g' H1 H2) with (it := l_iter L) as (Q1 & Q2); [rewrite H3; exact Hr|].
      split; [exact Q1|conj; try reflexivity; exact Q2].
  - destruct Hr as (a & Ha). destruct (tread_sread_ok _ _ (proj1 HG) Ha) as (s & Hs).
    destruct (apply_optics_spec L oe a s HG Ha Hs) as (g' & s' & Hop & H1 & H2 & H3 & H4 & _).
    rewrite Hop; cbn [fst snd].
    destruct (Hgen g' H1 H2) with (it := l_iter L) as (Q1 & Q2); [eauto|].
    split; [exact Q1|conj; try reflexivity; exact Q2].
  - unfold normalize. cbn [fst snd].
    destruct (normalize_grid_steps (l_dim L) v k (l_grid L) HG) as (H1 & H2 & H3).
    destruct (Hgen _ H1 H2 (H3 Hr)) with (it := l_iter L) as (Q1 & Q2).
    split; [exact Q1|conj; try reflexivity; exact Q2].
  - unfold write_to_file. rewrite get_t_eq; cbn [fst snd].
    pose proof (get_t_Coh _ HG) as H1. pose proof (get_t_meta (l_grid L)) as H2.
    assert (H3 : exists a, tread (fst (get_temporal_field (l_grid L))) = Ok a) by (rewrite tread_get_t; exact Hr).
    destruct (tread (l_grid L)) as [a|e]; [destruct (w _ _ _) as [u|e]|]; cbn [fst snd].
    + destruct (Hgen _ H1 H2 H3) with (it := (l_iter L + 1)%nat) as (Q1 & Q2).
      split; [exact Q1|conj; try reflexivity; exact Q2].
    + destruct (Hgen _ H1 H2 H3) with (it := l_iter L) as (Q1 & Q2).
      split; [exact Q1|conj; try reflexivity; exact Q2].
    + destruct (Hgen _ H1 H2 H3) with (it := l_iter L) as (Q1 & Q2).
      split; [exact Q1|conj; try reflexivity; exact Q2].
Qed.

Lemma history_plain S L n0 n1 nt h : Inv L n0 n1 nt -> (l_dim L = Xyt \/ Forall no_resample h) ->
  let L' := lrun S L h in
  Inv L' n0 n1 nt /\ same_meta (shift_domain (l_grid L) (travelled S L h)) (l_grid L') /\
  l_dim L' = l_dim L /\ l_omega L' = l_omega L /\ l_prof L' = l_prof L.
Proof.
  revert L. induction h as [|o h IH]; intros L HI Hh; cbn zeta; cbn [lrun travelled].
  - conj; try assumption; try reflexivity. rewrite (shift_0 _ _ _ _ _ (i_shape _ _ _ _ HI)). apply same_meta_refl.
  - assert (Ho : l_dim L = Xyt \/ no_resample o) by (destruct Hh as [?|Hf]; [left; assumption|right; inversion Hf; assumption]).
    destruct (step_plain S L n0 n1 nt o HI Ho) as (H1 & H2 & H3 & H4 & H5).
    destruct (IH (fst (lstep S L o)) H1) as (K1 & K2 & K3 & K4 & K5).
    { destruct Hh as [?|Hf]; [left; congruence|right; inversion Hf; assumption]. }
    conj; try congruence; try assumption.
    eapply same_meta_trans; [|exact K2].
    rewrite <- shift_shift. apply shift_same_meta. exact H2.
Qed.

(** C19 without resampling, in coordinates. *)
Lemma window_plain S d lo hi np p nm nte L h :
  laser_init d lo hi np p nm nte = Ok L -> (d = Xyt \/ Forall no_resample h) ->
  let g := l_grid (lrun S L h) in
  let tau := travelled S L h / c_light in
  let q := (ndims_of d - 1)%nat in
  exists nt, nth_error np q = Some nt /\ length (g_axes g) = ndims_of d /\
   nth q (g_lo g) 0 = nth q lo 0 + tau /\ nth q (g_hi g) 0 = nth q hi 0 + tau /\
   length (nth q (g_axes g) []) = nt /\
   (forall k, (k < nt)%nat ->
      axis_at g q k = coord (nth q lo 0) (nth q hi 0) nt k + tau /\
      axis_at g q k = coord (nth q (g_lo g) 0) (nth q (g_hi g) 0) nt k) /\
   nth q (g_dx g) 0 = spacing (nth q lo 0) (nth q hi 0) nt /\
   (forall a, (a < q)%nat -> exists n, nth_error np a = Some n /\
      nth a (g_lo g) 0 = nth a lo 0 /\ nth a (g_hi g) 0 = nth a hi 0 /\
      nth a (g_dx g) 0 = spacing (nth a lo 0) (nth a hi 0) n /\ length (nth a (g_axes g) []) = n /\
      forall i, (i < n)%nat -> axis_at g a i = coord (nth a lo 0) (nth a hi 0) n i).
Proof.
  intros H Hh g tau q.
  destruct (laser_init_Inv _ _ _ _ _ _ _ _ H) as
    (g0 & n0 & n1 & nt & Hg & HM & D1 & D2 & D3 & D4 & D5 & Hnt & GS & HI).
  destruct (history_plain S L n0 n1 nt h HI) as (_ & KM & _); [rewrite D1; exact Hh|].
  fold g in KM.
  assert (KM0 : same_meta (shift_domain g0 (travelled S L h)) g)
    by (eapply same_meta_trans; [apply shift_same_meta, HM|exact KM]).
  clear KM HM. destruct KM0 as (M1 & M2 & _ & M4 & M5 & _).
  cbn [shift_domain with_domain g_lo g_hi g_axes g_dx] in M1, M2, M4, M5.
  fold tau in M1, M2, M4.
  destruct (grid_init_axes _ _ _ _ _ _ _ Hg) as (El & Eh & La & Ld & Hax).
  pose proof (gs_lo _ _ _ _ _ GS) as Ll. pose proof (gs_hi _ _ _ _ _ GS) as Lh.
  assert (Hq : (q < ndims_of d)%nat) by (unfold q; pose proof (ndims_2 d); lia).
  assert (Hnth : forall {A} (l : list A) v dd, length l = ndims_of d -> nth q (set_last l v) dd = v).
  { intros A l v dd Hl. assert (Hl' : length (set_last l v) = ndims_of d) by (rewrite set_last_length; [exact Hl|pose proof (ndims_2 d); lia]).
    unfold q. rewrite <- Hl', <- last_nth. apply set_last_last. }
  assert (Hlast : forall {A} (l : list A) dd, length l = ndims_of d -> last l dd = nth q l dd).
  { intros A l dd Hl. rewrite last_nth, Hl. reflexivity. }
  destruct (Hax q Hq) as (nt' & Hnt' & HL & _ & _ & Hdx & _).
  unfold q in Hnt' at 1. rewrite Hnt in Hnt'. injection Hnt' as <-.
  assert (Hn2 : (2 <= nt)%nat) by apply (gs_pos _ _ _ _ _ GS).
  exists nt. split; [exact Hnt|].
  assert (Tlo : nth q (g_lo g) 0 = nth q lo 0 + tau).
  { rewrite M1, Hnth by exact Ll. unfold lastR. rewrite Hlast by exact Ll. rewrite El. reflexivity. }
  assert (Thi : nth q (g_hi g) 0 = nth q hi 0 + tau).
  { rewrite M2, Hnth by exact Lh. unfold lastR. rewrite Hlast by exact Lh. rewrite Eh. reflexivity. }
  assert (Tax : nth q (g_axes g) [] = map (fun t => t + tau) (nth q (g_axes g0) [])).
  { rewrite M4, Hnth by exact La. unfold time_axis. rewrite Hlast by exact La. reflexivity. }
  conj.
  - rewrite M4, set_last_length; [exact La|rewrite La; pose proof (ndims_2 d); lia].
  - exact Tlo.
  - exact Thi.
  - rewrite Tax, map_length. exact HL.
  - intros k Hk.
    assert (E : axis_at g q k = coord (nth q lo 0) (nth q hi 0) nt k + tau).
    { rewrite <- (axis_coord _ _ _ _ _ _ _ q nt k Hg Hq Hnt Hk). unfold axis_at. rewrite Tax. unfold vget.
      rewrite (nth_indep _ 0 (0 + tau)) by (rewrite map_length, HL; exact Hk).
      rewrite (map_nth (fun t => t + tau)). reflexivity. }
    split; [exact E|]. rewrite E, Tlo, Thi. unfold coord.
    replace (nth q hi 0 + tau - (nth q lo 0 + tau)) with (nth q hi 0 - nth q lo 0) by ring. ring.
  - rewrite M5. apply (dx_spacing _ _ _ _ _ _ _ q nt Hg Hq Hnt).
  - intros a Ha. destruct (Hax a) as (n & Hn & HLa & _); [lia|]. exists n.
    rewrite M1, M2, M4, M5. unfold axis_at. rewrite M4.
    assert (Hlt : (Datatypes.S a < ndims_of d)%nat) by (unfold q in Ha; lia).
    rewrite !set_last_nth by congruence. rewrite El, Eh.
    conj; try reflexivity; try assumption.
    + apply (dx_spacing _ _ _ _ _ _ _ a n Hg); [lia|exact Hn].
    + intros i Hi. apply (axis_coord _ _ _ _ _ _ _ a n i Hg); [lia|exact Hn|exact Hi].
Qed.

(** C19 for the time window, for every history, resampling included, failing calls included. *)
Definition tinfo (g : grid) : R * R * list R := (lastR (g_lo g), lastR (g_hi g), time_axis g).
Definition tshift (x : R * R * list R) (tau : R) : R * R * list R :=
  (fst (fst x) + tau, snd (fst x) + tau, map (fun t => t + tau) (snd x)).
Lemma tinfo_meta g g' : same_meta g g' -> tinfo g' = tinfo g.
Proof. intros (H1 & H2 & _ & H4 & _). unfold tinfo, time_axis. rewrite H1, H2, H4. reflexivity. Qed.
Lemma tinfo_shift g dist : tinfo (shift_domain g dist) = tshift (tinfo g) (dist / c_light).
Proof.
  unfold tinfo, tshift, shift_domain, with_domain, time_axis, lastR; cbn.
  rewrite !set_last_last. reflexivity.
Qed.
Lemma tinfo_over gn g : tinfo (overwrite_time gn g) = tinfo g.
Proof.
  unfold tinfo, overwrite_time, with_domain, time_axis, lastR; cbn. rewrite !set_last_last. reflexivity.
Qed.
Lemma tshift_0 x : tshift x 0 = x.
Proof.
  destruct x as ((a, b), l). unfold tshift; simpl. rewrite !Rplus_0_r. f_equal.
  rewrite (map_ext _ (fun x => x)) by (intros; ring). apply map_id.
Qed.
Lemma tshift_add x a b : tshift (tshift x a) b = tshift x (a + b).
Proof.
  destruct x as ((u, v), l). unfold tshift; simpl. rewrite map_map, !Rplus_assoc.
  f_equal. apply map_ext; intros; ring.
Qed.

Lemma finish_tinfo L dist s : tinfo (l_grid (fst (finish L dist s))) =
  tshift (tinfo (l_grid L)) (match snd (finish L dist s) with Ok _ => dist | Err _ => 0 end / c_light).
Proof.
  unfold finish. pose proof (set_s_meta (l_grid L) (apply_phase (l_omega L) (p_omega0 (l_prof L)) dist s)) as HM.
  destruct (snd (set_spectral_field _ _)) as [u|e]; cbn [fst snd l_grid set_grid].
  - rewrite tinfo_shift, (tinfo_meta _ _ HM). reflexivity.
  - rewrite (tinfo_meta _ _ HM). replace (0 / c_light) with 0 by (unfold Rdiv; ring). rewrite tshift_0. reflexivity.
Qed.

Lemma absorb_meta d nr g : same_meta g (fst (absorb_boundary d nr g)).
Proof.
  unfold absorb_boundary. destruct nr as [[z|]|]; try apply same_meta_refl.
  destruct (Z.leb z 0); [apply same_meta_refl|].
  destruct (snd (get_temporal_field g)) as [f|e]; cbn [fst snd]; [|apply get_t_meta].
  destruct (absorb_field _ _ _) as [f'|e]; cbn [fst]; [|apply get_t_meta].
  eapply same_meta_trans; [apply get_t_meta|apply set_t_meta].
Qed.

Lemma propagate_tinfo S L dist nr ng b :
  tinfo (l_grid (fst (propagate S L dist nr ng b))) =
  tshift (tinfo (l_grid L)) (match snd (propagate S L dist nr ng b) with Ok _ => dist | Err _ => 0 end / c_light).
Proof.
  assert (H0 : forall g, same_meta (l_grid L) g ->
     tinfo g = tshift (tinfo (l_grid L)) (0 / c_light)).
  { intros g HM. rewrite (tinfo_meta _ _ HM). replace (0 / c_light) with 0 by (unfold Rdiv; ring).
    rewrite tshift_0; reflexivity. }
  assert (HO : forall gn g, same_meta (l_grid L) g ->
     tinfo (overwrite_time gn g) = tshift (tinfo (l_grid L)) (0 / c_light)).
  { intros gn g HM. rewrite tinfo_over. apply (H0 g HM). }
  unfold propagate. destruct (negb (g_isenv (l_grid L))); [apply H0, same_meta_refl|].
  pose proof (absorb_meta (l_dim L) nr (l_grid L)) as AM.
  destruct (snd (absorb_boundary (l_dim L) nr (l_grid L))) as [u|e]; [|apply H0, AM].
  set (ga := fst (absorb_boundary (l_dim L) nr (l_grid L))) in *.
  assert (BM : same_meta (l_grid L) (fst (get_spectral_field ga)))
    by (eapply same_meta_trans; [exact AM|apply get_s_meta]).
  destruct (snd (get_spectral_field ga)) as [s|e]; [|apply H0, BM].
  set (gb := fst (get_spectral_field ga)) in *.
  destruct (l_dim L); cbn [l_grid set_grid set_prop].
  - destruct ng as [gn|].
    + destruct (g_modes (overwrite_time gn gb)); [|apply HO, BM].
      destruct (negb _); [apply HO, BM|]. destruct (Nat.ltb _ _); [apply HO, BM|].
      rewrite finish_tinfo. cbn [l_grid set_grid set_prop]. rewrite tinfo_over, (tinfo_meta _ _ BM). reflexivity.
    + destruct (g_modes gb); [|apply H0, BM].
      destruct (Nat.ltb _ _); [apply H0, BM|].
      rewrite finish_tinfo. cbn [l_grid set_grid set_prop]. rewrite (tinfo_meta _ _ BM). reflexivity.
  - rewrite finish_tinfo. cbn [l_grid set_grid set_prop]. rewrite (tinfo_meta _ _ BM). reflexivity.
  - rewrite finish_tinfo. cbn [l_grid set_grid set_prop]. rewrite (tinfo_meta _ _ BM). reflexivity.
Qed.

Lemma step_tinfo S L o : tinfo (l_grid (fst (lstep S L o))) = tshift (tinfo (l_grid L)) (step_dist S L o / c_light).
Proof.
  assert (H0 : forall g, same_meta (l_grid L) g -> tinfo g = tshift (tinfo (l_grid L)) (0 / c_light)).
  { intros g HM. rewrite (tinfo_meta _ _ HM). replace (0 / c_light) with 0 by (unfold Rdiv; ring).
    rewrite tshift_0; reflexivity. }
  destruct o as [dist nr ng b|oe|v k|w]; unfold step_dist; cbn [lstep].
  - apply propagate_tinfo.
  - apply H0. unfold apply_optics. pose proof (get_s_meta (l_grid L)) as HM.
    destruct (snd (get_spectral_field (l_grid L))); cbn [fst l_grid set_grid]; [|exact HM].
    eapply same_meta_trans; [exact HM|apply set_s_meta].
  - apply H0. unfold normalize; cbn [fst l_grid set_grid].
    destruct k; cbn [normalize_grid].
    + unfold normalize_energy. destruct v; [|apply same_meta_refl].
      unfold compute_laser_energy. pose proof (get_t_meta (l_grid L)) as HM.
      destruct (snd (get_temporal_field (l_grid L))); cbn [fst snd]; [|exact HM].
      destruct (Reqb _ 0); cbn [fst]; [exact HM|].
      set (g1 := fst (get_temporal_field (l_grid L))) in *.
      pose proof (get_t_meta g1) as HM1. destruct (snd (get_temporal_field g1)); cbn [fst];
      [|eapply same_meta_trans; eassumption].
      eapply same_meta_trans; [exact HM|]. eapply same_meta_trans; [exact HM1|apply set_t_meta].
    + unfold normalize_peak_field_amplitude. destruct v; [|apply same_meta_refl].
      pose proof (get_t_meta (l_grid L)) as HM.
      destruct (snd (get_temporal_field (l_grid L))); cbn [fst snd]; [|exact HM].
      destruct (Reqb _ 0); cbn [fst]; [exact HM|]. eapply same_meta_trans; [exact HM|apply set_t_meta].
    + unfold normalize_peak_intensity. destruct v; [|apply same_meta_refl].
      pose proof (get_t_meta (l_grid L)) as HM.
      destruct (snd (get_temporal_field (l_grid L))); cbn [fst snd]; [|exact HM].
      destruct (Reqb _ 0); cbn [fst]; [exact HM|]. eapply same_meta_trans; [exact HM|apply set_t_meta].
    + apply same_meta_refl.
  - apply H0. unfold write_to_file. pose proof (get_t_meta (l_grid L)) as HM.
    destruct (snd (get_temporal_field (l_grid L))); cbn [fst l_grid set_grid]; [|exact HM].
    destruct (w _ _ _); exact HM.
Qed.

Lemma run_tinfo S L h : tinfo (l_grid (lrun S L h)) = tshift (tinfo (l_grid L)) (travelled S L h / c_light).
Proof.
  revert L; induction h as [|o h IH]; intros L; cbn [lrun travelled].
  - replace (0 / c_light) with 0 by (unfold Rdiv; ring). rewrite tshift_0; reflexivity.
  - rewrite IH, step_tinfo, tshift_add. f_equal. unfold step_dist, Rdiv. ring.
Qed.

(** ** Successful histories with resampling *)
Lemma step_ok_inv S L n0 n1 nt o : Inv L n0 n1 nt -> user_op o -> snd (lstep S L o) = Ok tt ->
  exists m0 m1, Inv (fst (lstep S L o)) m0 m1 nt /\ l_omega (fst (lstep S L o)) = l_omega L /\
    l_dim (fst (lstep S L o)) = l_dim L /\ l_prof (fst (lstep S L o)) = l_prof L.
Proof.
  intros HI Hu Hok.
  assert (Hc : (l_dim L = Xyt \/ no_resample o) \/
               (l_dim L = Rt /\ exists dist nr gn b, o = OpPropagate dist nr (Some gn) b)).
  { destruct (i_dim _ _ _ _ HI) as [E|E]; [|auto].
    destruct o as [dist nr [gn|] b|oe|v k|w]; simpl; auto. right; split; [exact E|]. eauto 6. }
  destruct Hc as [Hc|(Ed & dist & nr & gn & b & ->)].
  - destruct (step_plain S L n0 n1 nt o HI Hc) as (H1 & _ & H3 & H4 & H5). exists n0, n1. auto.
  - cbn [lstep user_op] in *. destruct (user_grid_props gn Hu) as (HGn & m0 & m1 & mt & HSn).
    pose proof (i_coh _ _ _ _ HI) as HG.
    destruct (absorb_cases (l_dim L) nr (l_grid L)) as [Hab|(e & Hab)].
    2:{ destruct (propagate_absorb_fail S L dist nr (Some gn) b e HG Hab) as (g' & Hpg & _).
        rewrite Hpg in Hok. discriminate. }
    destruct (absorb_boundary_steps (l_dim L) nr (l_grid L) HG) as (AG & AM & AR & _).
    destruct (proj1 (tread_sread_iff _ (proj1 AG)) (AR (i_read _ _ _ _ HI))) as (s & Hs).
    destruct (propagate_resample S L n0 n1 nt dist nr gn b s m0 m1 mt HI Ed HSn HGn Hab Hs)
      as [(Emt & Hle & g1 & Hpg & HG1 & HM1 & _ & Ht1)|[(_ & Hpg)|(_ & _ & Hpg)]];
      rewrite Hpg in Hok; try discriminate.
    rewrite Hpg. exists m0, m1. cbn [fst snd l_omega l_dim l_prof set_grid set_prop].
    conj; try reflexivity. subst mt.
    constructor; cbn [fst snd l_omega l_dim l_prof l_grid l_prop set_grid set_prop].
    + rewrite Ed. apply shift_GShape. eapply GShape_meta; [exact HM1|]. apply overwrite_GShape; [exact HSn|].
      apply (gs_tax _ _ _ _ _ (i_shape _ _ _ _ HI)).
    + apply shift_meta_Coh, HG1.
    + apply (i_dim _ _ _ _ HI).
    + apply (i_omega _ _ _ _ HI).
    + rewrite tread_shift; eauto.
    + left; reflexivity.
Qed.

Lemma run_clean_inv S L n0 n1 nt h : Inv L n0 n1 nt -> Forall user_op h -> clean S L h ->
  exists m0 m1, Inv (lrun S L h) m0 m1 nt /\ l_omega (lrun S L h) = l_omega L /\
    l_dim (lrun S L h) = l_dim L /\ l_prof (lrun S L h) = l_prof L.
Proof.
  revert L n0 n1; induction h as [|o h IH]; intros L n0 n1 HI Hu Hok; cbn [lrun].
  - exists n0, n1; auto.
  - destruct Hok as (Hok & Hoks). inversion Hu as [|? ? Hu1 Hu2]; subst.
    assert (HX : exists m0 m1, Inv (fst (lstep S L o)) m0 m1 nt /\ l_omega (fst (lstep S L o)) = l_omega L /\
      l_dim (fst (lstep S L o)) = l_dim L /\ l_prof (fst (lstep S L o)) = l_prof L).
    { destruct Hok as [Hn|Hok].
      - destruct (step_plain S L n0 n1 nt o HI (or_intror Hn)) as (H1 & _ & H3 & H4 & H5). exists n0, n1; auto.
      - apply (step_ok_inv S L n0 n1 nt o HI Hu1 Hok). }
    destruct HX as (m0 & m1 & HI' & E1 & E2 & E3).
    destruct (IH _ _ _ HI' Hu2 Hoks) as (k0 & k1 & HI'' & E1' & E2' & E3').
    exists k0, k1. conj; congruence || assumption.
Qed.

Lemma reachable_Inv S L : reachable S L -> exists n0 n1 nt, Inv L n0 n1 nt.
Proof.
  intros (d & lo & hi & np & p & nm & nte & L0 & h & Hi & Hu & Hc & ->).
  destruct (laser_init_Inv _ _ _ _ _ _ _ _ Hi) as (g & n0 & n1 & nt & _ & _ & _ & _ & _ & _ & _ & _ & _ & HI).
  destruct (run_clean_inv S L0 n0 n1 nt h HI Hu Hc) as (m0 & m1 & HI' & _). eauto.
Qed.

Lemma reachable_step S L o : reachable S L -> user_op o -> (no_resample o \/ snd (lstep S L o) = Ok tt) ->
  reachable S (fst (lstep S L o)).
Proof.
  intros (d & lo & hi & np & p & nm & nte & L0 & h & Hi & Hu & Hc & ->) Ho Hok.
  exists d, lo, hi, np, p, nm, nte, L0, (h ++ [o]). conj; [exact Hi|apply Forall_app; auto| |].
  - clear Hi Hu. revert L0 Hc Hok. induction h as [|x h IH]; intros L0 Hc Hok; simpl in *; [auto|].
    destruct Hc as (C1 & C2). auto.
  - clear. revert L0. induction h as [|x h IH]; intros L0; simpl; [reflexivity|apply IH].
Qed.
