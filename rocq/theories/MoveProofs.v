From Coq Require Import FunctionalExtensionality.
From Verif Require Import PyBase CSum NpFFT FFTProofs NumPy GridModel GridSpec GridProofs GridObs EnergyModel EnergyProofs LaserSpec LaserModel LaserOps LaserInv LaserStepProofs PropagateProofs HistoryProofs LaserInitProofs OpticsProofs2 LtiSpec LtiProofs LtiStep LtiMain LtiNorm RotProofs MirrorSpec MirrorProofs ScaleProofs TransProofs MoveSpec.
Open Scope R_scope.

Section Move.
Variables a b c : R.
Notation mg := (move_grid a b c).
Notation um := (move_grid (- a) (- b) (- c)).
Lemma ax_unmove x (l : list R) : map (fun u => u + - x) (map (fun u => u + x) l) = l.
Proof. rewrite map_map. rewrite <- (map_id l) at 2. apply map_ext. intros u. ring. Qed.
Lemma unmove3 l : move3 (- a) (- b) (- c) (move3 a b c l) = l.
Proof. destruct l as [|x [|y [|t [|z l]]]]; try reflexivity. cbn [move3]. repeat (f_equal; try ring). Qed.
Lemma unmove_axes l : move_axes (- a) (- b) (- c) (move_axes a b c l) = l.
Proof. destruct l as [|x [|y [|t [|z l]]]]; try reflexivity. cbn [move_axes]. rewrite !ax_unmove. reflexivity. Qed.
Lemma um_mg g : um (mg g) = g.
Proof. unfold move_grid. cbn [g_lo g_hi g_npoints g_axes g_dx g_nmodes g_modes g_shape g_isenv g_dtype g_tf g_tv g_sf g_sv]. rewrite !unmove3, unmove_axes. destruct g; reflexivity. Qed.

Definition mp {A} (r : grid * A) : grid * A := (mg (fst r), snd r).
Lemma get_t_mg g : get_temporal_field (mg g) = mp (get_temporal_field g).
Proof. unfold get_temporal_field, mp. cbn [move_grid g_tv g_sv g_tf]. destruct (g_tv g); [reflexivity|]. destruct (g_sv g); reflexivity. Qed.
Lemma get_s_mg g : get_spectral_field (mg g) = mp (get_spectral_field g).
Proof. unfold get_spectral_field, mp. cbn [move_grid g_tv g_sv g_sf g_isenv]. destruct (g_isenv g); [|reflexivity]. cbn [negb]. destruct (g_sv g); [reflexivity|]. destruct (g_tv g); reflexivity. Qed.
Lemma set_t_mg g x : set_temporal_field (mg g) x = mp (set_temporal_field g x).
Proof. unfold set_temporal_field, mp. cbn [move_grid g_tf g_dtype]. destruct (negb _); [reflexivity|]. destruct (negb _); reflexivity. Qed.
Lemma set_s_mg g x : set_spectral_field (mg g) x = mp (set_spectral_field g x).
Proof. unfold set_spectral_field, mp. cbn [move_grid g_sf]. destruct (negb _); [reflexivity|]. destruct (negb _); reflexivity. Qed.
Lemma tread_mg g : tread (mg g) = tread g.
Proof. unfold tread. rewrite get_t_mg. reflexivity. Qed.
Lemma sread_mg g : sread (mg g) = sread g.
Proof. unfold sread. rewrite get_s_mg. reflexivity. Qed.
Lemma compute_mg g : compute_laser_energy Xyt (mg g) = mp (compute_laser_energy Xyt g).
Proof.
  unfold compute_laser_energy. rewrite get_t_mg. unfold mp. cbn [fst snd]. destruct (snd (get_temporal_field g)); reflexivity.
Qed.
Lemma norm_mg v k g : normalize_grid Xyt v k (mg g) = mp (normalize_grid Xyt v k g).
Proof.
  destruct k; cbn [normalize_grid]; [| | |reflexivity]; (destruct v as [v|]; [|reflexivity]).
  - cbn [normalize_energy]. rewrite compute_mg. unfold mp at 1 2 3 4 5. cbn [fst snd].
    destruct (snd (compute_laser_energy Xyt g)) as [x|e]; [|reflexivity]. destruct (Reqb x 0); [reflexivity|].
    rewrite get_t_mg. unfold mp at 1 2 3. cbn [fst snd]. destruct (snd (get_temporal_field (fst (compute_laser_energy Xyt g)))); [|reflexivity]. apply set_t_mg.
  - cbn [normalize_peak_field_amplitude]. rewrite get_t_mg. unfold mp at 1 2 3 4. cbn [fst snd].
    destruct (snd (get_temporal_field g)); [|reflexivity]. cbn zeta. destruct (Reqb _ 0); [reflexivity|]. apply set_t_mg.
  - cbn [normalize_peak_intensity]. rewrite get_t_mg. unfold mp at 1 2 3 4. cbn [fst snd].
    destruct (snd (get_temporal_field g)); [|reflexivity]. cbn zeta. destruct (Reqb _ 0); [reflexivity|]. apply set_t_mg.
Qed.
Lemma absorb_mg nr g : absorb_boundary Xyt nr (mg g) = mp (absorb_boundary Xyt nr g).
Proof.
  unfold absorb_boundary. destruct nr as [[z|]|]; try reflexivity. destruct (Z.leb z 0); [reflexivity|]. rewrite get_t_mg. unfold mp at 1 2 3 4. cbn [fst snd].
  destruct (snd (get_temporal_field g)); [|reflexivity]. destruct (absorb_field _ _ _); [|reflexivity]. apply set_t_mg.
Qed.

(** ** Lasers (three-dimensional, [three] of TransProofs) *)
Lemma time_axis_mg g : three g -> time_axis (mg g) = map (fun u => u + c) (time_axis g).
Proof. intros H. unfold time_axis. cbn [move_grid g_axes]. destruct (len3 _ (th_axes _ H)) as (x & y & t & ->). reflexivity. Qed.
Lemma shift_mg g d : three g -> shift_domain (mg g) d = mg (shift_domain g d).
Proof.
  intros H. unfold shift_domain. rewrite time_axis_mg by exact H. unfold time_axis, move_grid, with_domain.
  cbn [g_lo g_hi g_npoints g_axes g_dx g_nmodes g_modes g_shape g_isenv g_dtype g_tf g_tv g_sf g_sv].
  destruct (len3 _ (th_axes _ H)) as (x & y & t & ->). destruct (len3 _ (th_lo _ H)) as (l0 & l1 & l2 & ->). destruct (len3 _ (th_hi _ H)) as (h0 & h1 & h2 & ->).
  cbn [move3 move_axes set_last removelast app last lastR]. unfold lastR, set_last. cbn [last removelast app]. rewrite !map_map. 
  replace (map (fun x => x + c + d / c_light) t) with (map (fun x => x + d / c_light + c) t) by (apply map_ext; intros u; ring).
  f_equal; repeat (f_equal; try ring).
Qed.
Definition ml (L : laser) : laser := mkLaser (l_dim L) (mg (l_grid L)) (move_profile a b c (l_prof L)) (l_iter L) (l_omega L) (l_prop L).
Definition mlp (r : laser * res unit) : laser * res unit := (ml (fst r), snd r).
Lemma finish_ml L d x : three (l_grid L) -> finish (ml L) d x = mlp (finish L d x).
Proof.
  intros H. unfold finish. cbn [ml l_grid l_omega l_prof move_profile p_omega0]. rewrite set_s_mg. unfold mp. cbn [fst snd].
  destruct (snd (set_spectral_field (l_grid L) _)); [|reflexivity]. rewrite shift_mg by (apply three_set_s, H). reflexivity.
Qed.
Lemma build_mg g om bk : three g -> build_xyt (mg g) om bk = build_xyt g om bk.
Proof.
  intros H. unfold build_xyt. cbn [move_grid g_lo g_hi g_shape].
  destruct (len3 _ (th_lo _ H)) as (l0 & l1 & l2 & ->). destruct (len3 _ (th_hi _ H)) as (h0 & h1 & h2 & ->).
  unfold vget. cbn [move3 nth]. f_equal; f_equal; ring.
Qed.
Lemma propagate_ml S L d nr ng bk : l_dim L = Xyt -> CohG (l_grid L) -> three (l_grid L) -> propagate S (ml L) d nr ng bk = mlp (propagate S L d nr ng bk).
Proof.
  intros Hd HG H3. unfold propagate. cbn [ml l_grid l_dim l_prop l_omega]. change (g_isenv (mg (l_grid L))) with (g_isenv (l_grid L)).
  destruct (negb (g_isenv (l_grid L))); [reflexivity|]. rewrite Hd, absorb_mg. unfold mp. cbn [fst snd].
  destruct (snd (absorb_boundary Xyt nr (l_grid L))) as [u|e]; [|reflexivity].
  pose proof (three_s _ (absorb_three nr _ HG H3)) as H3'.
  rewrite !get_s_mg. unfold mp. cbn [fst snd].
  destruct (snd (get_spectral_field (fst (absorb_boundary Xyt nr (l_grid L))))) as [x|e]; [|reflexivity].
  set (g1 := fst (get_spectral_field (fst (absorb_boundary Xyt nr (l_grid L))))) in *.
  cbn [set_grid l_grid l_prop l_omega]. rewrite build_mg by exact H3'.
  apply (finish_ml (set_prop (set_grid L g1) (Some (PropXyt match l_prop L with Some (PropXyt p) => p | _ => build_xyt g1 (l_omega L) bk end))) d _ H3').
Qed.
Lemma write_ml L w : write_to_file (ml L) (fun n g f => w n (um g) f) = mlp (write_to_file L w).
Proof.
  unfold write_to_file. cbn [ml l_grid]. rewrite get_t_mg. unfold mp. cbn [fst snd]. destruct (snd (get_temporal_field (l_grid L))) as [x|e]; [|reflexivity].
  rewrite um_mg. cbn [l_iter]. destruct (w _ _ _); reflexivity.
Qed.
Lemma lstep_ml S L n0 n1 nt o : Inv L n0 n1 nt -> l_dim L = Xyt -> (forall e, o <> OpOptics e) -> lstep S (ml L) (move_op a b c o) = mlp (lstep S L o).
Proof.
  intros HI Hd Ho. pose proof (three_of L n0 n1 nt HI Hd) as H3. destruct o as [d nr ng bk|e|v k|w]; cbn [lstep move_op].
  - apply propagate_ml; [exact Hd | apply (i_coh _ _ _ _ HI) | exact H3].
  - destruct (Ho e eq_refl).
  - unfold normalize. cbn [ml l_dim l_grid]. rewrite Hd, norm_mg. reflexivity.
  - apply write_ml.
Qed.
Lemma meta_mg g g' : same_meta g g' -> same_meta (mg g) (mg g').
Proof.
  intros (H1 & H2 & H3 & H4 & H5 & H6 & H7 & H8 & H9 & H10). unfold same_meta, move_grid. cbn. rewrite H1, H2, H3, H4, H5, H6, H7, H8, H9, H10. conj; reflexivity.
Qed.
Lemma CohG_mg g : CohG g -> CohG (mg g).
Proof. intros H. exact H. Qed.
Lemma Inv_ml L n0 n1 nt : Inv L n0 n1 nt -> l_dim L = Xyt -> Inv (ml L) n0 n1 nt.
Proof.
  intros HI Hd. pose proof (three_of L n0 n1 nt HI Hd) as H3. pose proof HI as [I1 I2 I3 I4 I5 I6]. rewrite Hd in I1. pose proof I1 as [S1 S2 S3 S4 S5 S6 S7 S8 S9].
  constructor; cbn [ml l_dim l_grid l_omega l_prop].
  - rewrite Hd. constructor; cbn [move_grid g_shape g_lo g_hi g_axes g_dx g_modes g_npoints]; try assumption.
    + destruct (len3 _ (th_lo _ H3)) as (x & y & t & ->). reflexivity.
    + destruct (len3 _ (th_hi _ H3)) as (x & y & t & ->). reflexivity.
    + destruct (len3 _ (th_axes _ H3)) as (x & y & t & ->). reflexivity.
    + change (mkGrid _ _ _ _ _ _ _ _ _ _ _ _ _ _) with (mg (l_grid L)). rewrite time_axis_mg by exact H3. rewrite map_length. exact S7.
    + discriminate.
    + intros _. specialize (S9 ltac:(discriminate)). destruct (len3 _ (th_axes _ H3)) as (x & y & t & E). rewrite E in *. cbn [move_axes nth] in *. rewrite !map_length. exact S9.
  - exact (CohG_mg _ I2).
  - right. exact Hd.
  - exact I4.
  - rewrite tread_mg. exact I5.
  - destruct I6 as [I6|(bk & I6)]; [left; exact I6|right]. exists bk. rewrite I6. unfold fresh_prop. cbn [ml l_dim l_grid l_omega]. rewrite Hd, build_mg by exact H3. reflexivity.
Qed.
End Move.

(** ** The relation between the two lasers *)
Section Run.
Variables a b c : R.
Notation mg := (move_grid a b c).
Notation um := (move_grid (- a) (- b) (- c)).
Lemma mg_um g : mg (um g) = g.
Proof. pose proof (um_mg (- a) (- b) (- c) g) as H. rewrite !Ropp_involutive in H. exact H. Qed.
Lemma mprof p : move_profile a b c (move_profile (- a) (- b) (- c) p) = p.
Proof.
  destruct p as [w0 l0 pol en dt ev]. unfold move_profile. cbn. f_equal.
  apply functional_extensionality; intros x. apply functional_extensionality; intros y. apply functional_extensionality; intros t. f_equal; ring.
Qed.
Definition moved (L L' : laser) (n0 n1 nt : nat) : Prop :=
  exists K, Par 0 L K n0 n1 nt /\ mrel false false L K n0 n1 nt /\ L' = ml a b c K.
Lemma axis_mg g n0 n1 nt i : GShape Xyt g n0 n1 nt ->
  ((i < n0)%nat -> axis_at (mg g) 0 i = axis_at g 0 i + a) /\ ((i < n1)%nat -> axis_at (mg g) 1 i = axis_at g 1 i + b) /\
  ((i < nt)%nat -> vget (time_axis (mg g)) i = vget (time_axis g) i + c).
Proof.
  intros HG. pose proof (gs_axes _ _ _ _ _ HG) as E. change (ndims_of Xyt) with 3%nat in E. pose proof (gs_tax _ _ _ _ _ HG) as T.
  destruct (gs_xyt _ _ _ _ _ HG ltac:(discriminate)) as (X & Y).
  unfold axis_at, time_axis in *. cbn [move_grid g_axes]. destruct (len3 _ E) as (x & y & t & Ex). rewrite Ex in *. cbn [move_axes nth last] in *.
  assert (V : forall (l : list R) z n, (n < length l)%nat -> vget (map (fun u => u + z) l) n = vget l n + z).
  { intros l z n Hn. unfold vget. rewrite (nth_indep _ 0 (0 + z)) by (rewrite map_length; exact Hn). apply (map_nth (fun u => u + z)). }
  conj; intros Hi; apply V; lia.
Qed.
Lemma classic_optic o : (exists e, o = OpOptics e) \/ (forall e, o <> OpOptics e).
Proof. destruct o; [right; discriminate | left; eauto | right; discriminate | right; discriminate]. Qed.
Lemma moved_step S L L' n0 n1 nt o : local_solver S -> l_dim L = Xyt -> moved L L' n0 n1 nt ->
  moved (fst (lstep S L o)) (fst (lstep S L' (move_op a b c o))) n0 n1 nt /\
  (~ is_write o -> snd (lstep S L' (move_op a b c o)) = snd (lstep S L o)).
Proof.
  intros HS Hd (K & HP & HR & ->). pose proof (pa_inv _ _ _ _ _ _ HP) as P1. pose proof (pa_inv' _ _ _ _ _ _ HP) as P2.
  assert (Hd' : l_dim K = Xyt) by (rewrite (pa_dim _ _ _ _ _ _ HP); exact Hd).
  destruct (classic_optic o) as [(e & ->)|Ho].
  - pose proof (i_coh _ _ _ _ P1) as HG. destruct (Inv_reads _ _ _ _ P1) as (t0 & s & Ht & _ & Hs & Ss).
    pose proof (Inv_ml a b c K n0 n1 nt P2 Hd') as P3. pose proof (i_coh _ _ _ _ P3) as HG'. destruct (Inv_reads _ _ _ _ P3) as (t1 & s' & Ht' & _ & Hs' & Ss').
    cbn [move_op lstep].
    destruct (apply_optics_spec L e t0 s HG Ht Hs) as (g1 & s1 & E1 & E2 & E3 & E4 & E5 & _ & _ & E8).
    destruct (apply_optics_spec (ml a b c K) (fun x y w w0 => e (x - a) (y - b) w w0) t1 s' HG' Ht' Hs') as (g1' & s1' & E1' & E2' & E3' & E4' & E5' & _ & _ & E8').
    rewrite E1, E1'. cbn [fst snd]. split; [|reflexivity].
    exists (set_grid K (um g1')). split; [|split].
    + apply Par_set; [exact HP | exact E2 | exact E3 | eauto | exact (CohG_mg _ _ _ _ E2') | | ].
      * pose proof (meta_mg (- a) (- b) (- c) _ _ E3') as M. cbn [ml l_grid] in M. rewrite um_mg in M. exact M.
      * exists (np_fft_last s1'). rewrite tread_mg. exact E5'.
    + intros u u' Hu Hu' i j k Hi Hj Hk. cbn [l_grid set_grid] in Hu, Hu'. rewrite sread_mg in Hu'. rewrite E4 in Hu. rewrite E4' in Hu'. injection Hu as <-. injection Hu' as <-.
      unfold flip. rewrite E8, E8'. f_equal.
      * cbn [ml l_grid] in Hs'. rewrite sread_mg in Hs'. apply (HR s s' Hs Hs'); assumption.
      * unfold optic_factor. cbn [ml l_dim l_grid l_omega l_prof move_profile p_omega0]. rewrite Hd, Hd', (pa_om _ _ _ _ _ _ HP), (pa_w0 _ _ _ _ _ _ HP).
        pose proof (i_shape _ _ _ _ P2) as GS. rewrite Hd' in GS. destruct (axis_mg _ _ _ _ i GS) as (A0 & _). destruct (axis_mg _ _ _ _ j GS) as (_ & A1 & _).
        rewrite A0, A1 by assumption. unfold axis_at. rewrite (Par_axis _ L K n0 n1 nt 0 HP), (Par_axis _ L K n0 n1 nt 1 HP) by (rewrite Hd; simpl; lia).
        f_equal; ring.
    + unfold ml, set_grid. cbn [l_dim l_grid l_prof l_iter l_omega l_prop]. rewrite mg_um. reflexivity.
  - rewrite (lstep_ml a b c S K n0 n1 nt o P2 Hd' Ho). cbn [mlp fst snd].
    destruct (mirror_step false false S L K n0 n1 nt o HS Hd HP ltac:(split; intros; reflexivity) HR) as (Z1 & Z2 & Z3).
    assert (E : mirror_op false false o = o) by (destruct o; try reflexivity). rewrite E in Z1, Z2, Z3.
    split; [exists (fst (lstep S K o)); auto | exact Z3].
Qed.
Lemma moved_run S h : local_solver S -> forall L L' n0 n1 nt, l_dim L = Xyt -> moved L L' n0 n1 nt ->
  moved (lrun S L h) (lrun S L' (map (move_op a b c) h)) n0 n1 nt /\ outcomes S L' (map (move_op a b c) h) = outcomes S L h /\ l_dim (lrun S L h) = Xyt.
Proof.
  intros HS. induction h as [|o h IH]; intros L L' n0 n1 nt Hd HM; [cbn; auto|].
  destruct (moved_step S L L' n0 n1 nt o HS Hd HM) as (Z1 & Z2).
  assert (HI : Inv L n0 n1 nt) by (destruct HM as (K & HP & _); apply (pa_inv _ _ _ _ _ _ HP)).
  destruct (step_plain S L n0 n1 nt o HI (or_introl Hd)) as (_ & _ & Hd1 & _).
  cbn [lrun outcomes map]. destruct (IH (fst (lstep S L o)) (fst (lstep S L' (move_op a b c o))) n0 n1 nt ltac:(congruence) Z1) as (Y1 & Y2 & Y3).
  split; [exact Y1|]. split; [|exact Y3]. rewrite Y2. destruct o; cbn [move_op] in *; try reflexivity; rewrite Z2 by (intros X; exact X); reflexivity.
Qed.

(** ** From construction *)
Lemma linspace_move lo hi z n : linspace (lo + z) (hi + z) n = map (fun u => u + z) (linspace lo hi n).
Proof.
  destruct n as [|[|n]]; [reflexivity|reflexivity|]. unfold linspace. rewrite map_map. apply map_ext. intros i. unfold Rdiv. ring.
Qed.
Lemma build_axes_move lo hi np r : length lo = 3%nat -> length hi = 3%nat -> length np = 3%nat -> build_axes 3 0 lo hi np = Ok r ->
  build_axes 3 0 (move3 a b c lo) (move3 a b c hi) np = Ok (move_axes a b c (fst r), snd r).
Proof.
  intros H1 H2 H4. destruct (len3 lo H1) as (l0 & l1 & l2 & ->). destruct (len3 hi H2) as (h0 & h1 & h2 & ->). destruct (len3 np H4) as (m0 & m1 & m2 & ->).
  unfold build_axes, vget. cbn [nth move3].
  change (nth_error [m0; m1; m2] 0) with (Some m0). change (nth_error [m0; m1; m2] 1) with (Some m1). change (nth_error [m0; m1; m2] 2) with (Some m2).
  cbv beta iota zeta. rewrite !linspace_move. set (A0 := linspace l0 h0 m0). set (A1 := linspace l1 h1 m1). set (A2 := linspace l2 h2 m2). rewrite !nth_error_map.
  assert (N : forall (l : list R) x z, nth_error l 1 = Some x -> nth 1 (map (fun u => u + z) l) 0 = nth 1 l 0 + z /\ nth 0 (map (fun u => u + z) l) 0 = nth 0 l 0 + z).
  { intros [|u [|v l]] x z Hx; try discriminate. split; reflexivity. }
  destruct (nth_error A0 1) eqn:E0; [|discriminate]. destruct (nth_error A1 1) eqn:E1; [|cbn [bind]; discriminate].
  destruct (nth_error A2 1) eqn:E2; [|cbn [bind]; discriminate]. cbn [bind option_map fst snd]. intros E. injection E as <-. cbn [fst snd move_axes].
  destruct (N _ _ a E0) as (_ & F0). destruct (N _ _ b E1) as (_ & F1). destruct (N _ _ c E2) as (_ & F2).
  rewrite ?F0, ?F1, ?F2. f_equal. f_equal. repeat (f_equal; try ring).
Qed.
Lemma grid_init_move lo hi np nm bb g : length np = 3%nat -> grid_init Xyt lo hi np nm bb = Ok g ->
  grid_init Xyt (move3 a b c lo) (move3 a b c hi) np nm bb = Ok (mg g).
Proof.
  intros Hnp. unfold grid_init. cbn [pyassert bind]. destruct (Nat.eqb_spec (length lo) 3) as [E1|]; [|discriminate]. destruct (Nat.eqb_spec (length hi) 3) as [E2|]; [|discriminate].
  cbn [pyassert bind]. destruct (build_axes 3 0 lo hi np) as [r|e] eqn:E; [|discriminate].
  assert (X : length (move3 a b c lo) = 3%nat /\ length (move3 a b c hi) = 3%nat).
  { destruct (len3 lo E1) as (l0 & l1 & l2 & ->). destruct (len3 hi E2) as (h0 & h1 & h2 & ->). split; reflexivity. }
  destruct X as (-> & ->). cbn [Nat.eqb pyassert bind]. rewrite (build_axes_move lo hi np r E1 E2 Hnp E). cbn [bind fst snd]. intros G. injection G as <-. reflexivity.
Qed.

Lemma laser_init_move lo hi np p nm nte L : laser_init Xyt lo hi np p nm nte = Ok L ->
  exists L' n0 n1 nt, laser_init Xyt (move3 a b c lo) (move3 a b c hi) np (move_profile a b c p) nm nte = Ok L' /\ moved L L' n0 n1 nt /\ l_dim L = Xyt.
Proof.
  intros H. destruct (laser_init_Inv _ _ _ _ _ _ _ _ H) as (g & n0 & n1 & nt & Hg & A2 & A3 & A4 & A5 & A6 & A7 & _ & A9 & HI).
  assert (Hnp : length np = 3%nat).
  { pose proof (gs_shape _ _ _ _ _ A9) as Hs. pose proof Hg as Hg1.
    unfold grid_init in Hg1. cbn [pyassert bind] in Hg1. destruct (Nat.eqb (length lo) 3); [|discriminate]. destruct (Nat.eqb (length hi) 3); [|discriminate]. cbn [pyassert bind] in Hg1.
    destruct (build_axes 3 0 lo hi np); [|discriminate]. cbn [bind] in Hg1. injection Hg1 as <-. cbn [g_shape] in Hs. rewrite Hs. reflexivity. }
  pose proof (grid_init_CohG _ _ _ _ _ _ Hg) as HC.
  set (x := sample_xyt g p). set (y := sample_xyt (mg g) (move_profile a b c p)).
  pose proof H as H0. unfold laser_init in H0. rewrite Hg in H0. cbn [bind] in H0. fold x in H0.
  assert (Sx : shp x = [n0; n1; nt]).
  { pose proof (gs_xyt _ _ _ _ _ A9 ltac:(discriminate)) as (X & Y). unfold x, sample_xyt. cbn [shp]. rewrite X, Y. pose proof (gs_tax _ _ _ _ _ A9) as T. unfold time_axis in T.
    pose proof (gs_axes _ _ _ _ _ A9) as E. destruct (len3 _ E) as (u & v & t & Ex). rewrite Ex in *. cbn [nth last] in *. rewrite T. reflexivity. }
  assert (Sy : shp y = [n0; n1; nt]).
  { rewrite <- Sx. unfold x, y, sample_xyt. cbn [shp move_grid g_axes].
    pose proof (gs_axes _ _ _ _ _ A9) as E. destruct (len3 _ E) as (u & v & t & Ex). rewrite Ex in *. cbn [nth move_axes]. rewrite !map_length. reflexivity. }
  assert (Dx : dty x = Complex128).
  { destruct (snd (set_temporal_field g x)) eqn:E; [|discriminate]. unfold set_temporal_field in E. destruct (negb (shape_eqb _ _)); [discriminate|].
    destruct (dtype_eqb (dty x) (g_dtype g)) eqn:E2; cbn [negb] in E; [|discriminate]. apply dtype_eqb_true in E2. rewrite E2. apply HC. }
  assert (Dy : dty y = Complex128) by exact Dx.
  assert (Hxy : mirrored false false n0 n1 nt x y).
  { intros i j k Hi Hj Hk. unfold flip, x, y, sample_xyt. cbn [at3 move_profile p_eval].
    destruct (axis_mg g n0 n1 nt i A9) as (X0 & _). destruct (axis_mg g n0 n1 nt j A9) as (_ & X1 & _). destruct (axis_mg g n0 n1 nt k A9) as (_ & _ & X2).
    assert (T : forall h, length (g_axes h) = 3%nat -> axis_at h 2 k = vget (time_axis h) k).
    { intros h Hh. unfold axis_at, time_axis. destruct (len3 _ Hh) as (u & v & t & ->). reflexivity. }
    pose proof (gs_axes _ _ _ _ _ A9) as E.
    rewrite (T g E). rewrite (T (mg g)). 2: { cbn [move_grid g_axes]. destruct (len3 _ E) as (u & v & t & ->). reflexivity. }
    rewrite X0, X1, X2 by assumption. f_equal; ring. }
  pose proof (gs_shape _ _ _ _ _ A9) as Hs.
  destruct (set_t_ok g x (proj1 HC) ltac:(congruence) Dx) as (Bx1 & Bx2 & _). destruct (set_t_ok g y (proj1 HC) ltac:(congruence) Dy) as (By1 & By2 & _).
  set (gx := fst (set_temporal_field g x)) in *. set (gy := fst (set_temporal_field g y)) in *.
  pose proof (set_t_Coh g x HC) as Cx. pose proof (set_t_Coh g y HC) as Cy. fold gx in Cx. fold gy in Cy.
  pose proof (set_t_meta g x) as Mx. pose proof (set_t_meta g y) as My. fold gx in Mx. fold gy in My.
  rewrite Bx1 in H0.
  assert (Om : forall h, same_meta g h -> omega_axis h (p_omega0 p) = l_omega L).
  { intros h (_ & _ & _ & _ & E5 & _ & _ & E8 & _). rewrite A5. unfold omega_axis. rewrite E5, E8. reflexivity. }
  assert (Fin : forall h z z', tread (l_grid L) = Ok z -> tread h = Ok z' -> CohG h -> same_meta g h -> mirrored false false n0 n1 nt z z' ->
    moved L (ml a b c (set_grid L h)) n0 n1 nt).
  { intros h z z' Hz Hz' Ch Mh HM. exists (set_grid L h).
    assert (HP : Par 0 (set_grid L (l_grid L)) (set_grid L h) n0 n1 nt).
    { apply Par_set; [apply Par_refl, HI | apply (i_coh _ _ _ _ HI) | apply same_meta_refl | eauto | exact Ch | | eauto].
      eapply same_meta_trans; [apply same_meta_sym; exact A2 | exact Mh]. }
    assert (EL : set_grid L (l_grid L) = L) by (destruct L; reflexivity). rewrite EL in HP.
    split; [exact HP|]. split; [|reflexivity].
    apply (mrel_of_t _ _ _ _ _ _ _ z z' HI (pa_inv' _ _ _ _ _ _ HP)); assumption. }
  unfold laser_init. rewrite (grid_init_move _ _ _ _ _ _ Hnp Hg). cbn [bind]. fold y. rewrite set_t_mg. fold gy. unfold mp. cbn [fst snd]. fold gy. rewrite By1.
  unfold init_normalize in *. cbn [l_prof p_energy move_profile l_dim l_grid] in *. destruct (p_energy p) as [v|] eqn:Ep.
  - destruct (snd (normalize_energy Xyt v gx)) as [[]|e] eqn:En; [|discriminate]. injection H0 as E0.
    assert (HM : same_meta gx gy) by (eapply same_meta_trans; [apply same_meta_sym; exact Mx | exact My]).
    destruct (norm_mirror false false v KEnergy gx gy x y n0 n1 nt Cx Cy HM ltac:(destruct Mx as (_ & _ & _ & _ & _ & _ & _ & Z & _); congruence) Bx2 By2 Hxy) as (E1 & z & z' & Z1 & Z2 & Z3).
    cbn [normalize_grid] in *. rewrite En in E1.
    change (normalize_energy Xyt v (mg gy)) with (normalize_grid Xyt v KEnergy (mg gy)). rewrite norm_mg. unfold mp. cbn [fst snd normalize_grid]. rewrite E1.
    destruct (normalize_grid_steps Xyt v KEnergy gy Cy) as (N1 & N2 & _). cbn [normalize_grid] in N1, N2.
    eexists. exists n0, n1, nt. split; [reflexivity|]. split; [|exact A3].
    assert (EK : set_grid (mkLaser Xyt (mg gy) (move_profile a b c p) 0 (omega_axis (mg gy) (p_omega0 p)) None) (mg (fst (normalize_energy Xyt v gy))) = ml a b c (set_grid L (fst (normalize_energy Xyt v gy)))).
    { unfold ml, set_grid. cbn [l_dim l_grid l_prof l_iter l_omega l_prop]. rewrite A3, A4, A6, A7. rewrite <- (Om gy My). reflexivity. }
    cbn [move_profile p_omega0] in *. rewrite EK. apply (Fin _ z z'); try assumption.
    + rewrite <- E0. exact Z1.
    + eapply same_meta_trans; [exact My | exact N2].
  - injection H0 as E0. eexists. exists n0, n1, nt. split; [reflexivity|]. split; [|exact A3].
    assert (EK : mkLaser Xyt (mg gy) (move_profile a b c p) 0 (omega_axis (mg gy) (p_omega0 p)) None = ml a b c (set_grid L gy)).
    { unfold ml, set_grid. cbn [l_dim l_grid l_prof l_iter l_omega l_prop]. rewrite A3, A4, A6, A7. rewrite <- (Om gy My). reflexivity. }
    cbn [move_profile p_omega0] in *. rewrite EK. apply (Fin _ x y); try assumption. rewrite <- E0. exact Bx2.
Qed.
End Run.
