(** C15-C18: optical elements. *)
From Verif Require Import PyBase CSum NpFFT FFTProofs NumPy GridModel GridSpec GridProofs LaserSpec GridObs
  EnergyModel EnergyProofs AngularProofs LaserModel OpticsModel LaserOps LaserInv LaserInitProofs LaserStepProofs
  PropagateProofs HistoryProofs OpticsProofs.
Open Scope R_scope.

Lemma omega_value d lo hi np nm b g nt w k : grid_init d lo hi np nm b = Ok g -> d = Rt \/ d = Xyt ->
  nth_error np (ndims_of d - 1) = Some nt -> lastN (g_shape g) = nt -> (k < nt)%nat ->
  vget (omega_axis g w) k =
  w + dft_omega nt (spacing (nth (ndims_of d - 1) lo 0) (nth (ndims_of d - 1) hi 0) nt) k.
Proof.
  intros H Hd Hn Hl Hk. unfold omega_axis, vget. rewrite Hl.
  rewrite (nth_indep _ _ (2 * PI * fftfreq nt (lastR (g_dx g)) 0 + w)) by (rewrite map_length, seq_length; exact Hk).
  rewrite (map_nth (fun k => 2 * PI * fftfreq nt (lastR (g_dx g)) k + w)).
  rewrite seq_nth by exact Hk. rewrite Nat.add_0_l.
  assert (Ed : lastR (g_dx g) = spacing (nth (ndims_of d - 1) lo 0) (nth (ndims_of d - 1) hi 0) nt).
  { destruct (grid_init_axes _ _ _ _ _ _ _ H) as (_ & _ & _ & Ld & _).
    unfold lastR. rewrite last_nth, Ld. apply (dx_spacing _ _ _ _ _ _ _ _ _ H); [destruct Hd as [-> | ->]; simpl; lia|exact Hn]. }
  rewrite Ed. unfold fftfreq, fftfreq_int, dft_omega.
  replace (Nat.div (nt - 1) 2 + 1)%nat with (S (Nat.div (nt - 1) 2)) by lia.
  destruct (Nat.ltb k (S (Nat.div (nt - 1) 2))).
  - rewrite <- INR_IZR_INZ. unfold Rdiv. ring.
  - rewrite minus_IZR, <- !INR_IZR_INZ. unfold Rdiv. ring.
Qed.

Lemma same_except_set L g : same_meta (l_grid L) g -> same_except_field L (set_grid L g).
Proof. intros (H1 & H2 & H3 & H4 & H5 & H6 & H7 & H8 & H9 & H10). unfold same_except_field; cbn; conj; auto. Qed.

Lemma optics_inv L o n0 n1 nt s : Inv L n0 n1 nt -> sread (l_grid L) = Ok s ->
  exists L' s', apply_optics L o = (L', Ok tt) /\ Inv L' n0 n1 nt /\ same_except_field L L' /\
    sread (l_grid L') = Ok s' /\ shp s' = shp s /\ shp s = [n0;n1;nt] /\
    (forall i j k, at3 s' i j k = Cmult (at3 s i j k) (optic_factor L o i j k)).
Proof.
  intros HI Hs. pose proof (i_coh _ _ _ _ HI) as HG. destruct (i_read _ _ _ _ HI) as (a & Ha).
  destruct (apply_optics_spec L o a s HG Ha Hs) as (g' & s' & H1 & H2 & H3 & H4 & H5 & H6 & H7 & H8).
  exists (set_grid L g'), s'. conj; try assumption.
  - pose proof (step_plain id_solvers L n0 n1 nt (OpOptics o) HI) as HX. cbn [lstep] in HX. rewrite H1 in HX.
    apply HX. right. exact I.
  - apply same_except_set, H3.
  - destruct (sread_shape _ _ (proj1 HG) Hs) as (-> & _). apply (gs_shape _ _ _ _ _ (i_shape _ _ _ _ HI)).
Qed.

(** The frequency axis never changes. *)
Lemma run_omega S d lo hi np p nm nte L0 h :
  laser_init d lo hi np p nm nte = Ok L0 -> Forall user_op h -> clean S L0 h ->
  forall nt k, nth_error np (ndims_of d - 1) = Some nt -> (k < nt)%nat ->
  vget (l_omega (lrun S L0 h)) k =
  p_omega0 p + dft_omega nt (spacing (nth (ndims_of d - 1) lo 0) (nth (ndims_of d - 1) hi 0) nt) k.
Proof.
  intros Hi Hu Hc nt k Hn Hk.
  destruct (laser_init_Inv _ _ _ _ _ _ _ _ Hi) as (g & n0 & n1 & nt' & Hg & _ & D1 & D2 & D3 & _ & _ & Hn' & GS & HI).
  destruct (run_clean_inv S L0 n0 n1 nt' h HI Hu Hc) as (m0 & m1 & _ & E1 & _). rewrite E1, D3.
  rewrite Hn in Hn'; injection Hn' as <-.
  apply (omega_value d lo hi np (Some nm) true g nt); try assumption.
  - rewrite <- D1. apply (i_dim _ _ _ _ HI).
  - rewrite (gs_shape _ _ _ _ _ GS). reflexivity.
Qed.
Lemma clean_xyt_run S L n0 n1 nt h : Inv L n0 n1 nt -> l_dim L = Xyt ->
  Inv (lrun S L h) n0 n1 nt /\ l_omega (lrun S L h) = l_omega L /\ l_dim (lrun S L h) = Xyt /\ l_prof (lrun S L h) = l_prof L.
Proof.
  intros HI Hd. destruct (history_plain S L n0 n1 nt h HI) as (H1 & _ & H2 & H3 & H4); [auto|].
  conj; try assumption. congruence.
Qed.

(** C15, xyt: explicit coordinates and frequencies, after any history. *)
Lemma c15_xyt S lo hi n0 n1 nt p nm nte L0 h o s :
  laser_init Xyt lo hi [n0;n1;nt] p nm nte = Ok L0 ->
  snd (get_spectral_field (l_grid (lrun S L0 h))) = Ok s ->
  exists L' s', apply_optics (lrun S L0 h) o = (L', Ok tt) /\
    snd (get_spectral_field (l_grid L')) = Ok s' /\ shp s' = [n0;n1;nt] /\
    same_except_field (lrun S L0 h) L' /\
    forall i j k, (i < n0)%nat -> (j < n1)%nat -> (k < nt)%nat ->
      at3 s' i j k = Cmult (at3 s i j k)
        (o (coord (nth 0 lo 0) (nth 0 hi 0) n0 i) (coord (nth 1 lo 0) (nth 1 hi 0) n1 j)
           (p_omega0 p + dft_omega nt (spacing (nth 2 lo 0) (nth 2 hi 0) nt) k) (p_omega0 p)).
Proof.
  intros Hi Hs.
  destruct (laser_init_Inv _ _ _ _ _ _ _ _ Hi) as (g & m0 & m1 & mt & Hg & Hm & D1 & D2 & D3 & _ & _ & Hn' & GS & HI).
  assert (Esh : g_shape g = [n0;n1;nt]).
  { apply (grid_init_xyt_np _ _ _ _ _ _ Hg). }
  assert (E3 : [m0;m1;mt] = [n0;n1;nt]) by (rewrite <- (gs_shape _ _ _ _ _ GS); exact Esh).
  injection E3 as -> -> ->.
  destruct (history_plain S L0 n0 n1 nt h HI (or_introl D1)) as (HR & HMt & R1 & R2 & R3).
  destruct (optics_inv (lrun S L0 h) o n0 n1 nt s HR Hs) as (L' & s' & A1 & A2 & A3 & A4 & A5 & A6 & A7).
  exists L', s'. conj; try assumption; [congruence|].
  intros i j k Hi' Hj Hk. rewrite A7. f_equal. unfold optic_factor. rewrite R1, D1, R3, D2, R2, D3.
  rewrite (omega_value Xyt lo hi [n0;n1;nt] (Some nm) true g nt); try assumption; auto;
    [|rewrite Esh; reflexivity].
  assert (Hax : forall q i, (q < 2)%nat -> axis_at (l_grid (lrun S L0 h)) q i = axis_at g q i).
  { intros q i' Hq. destruct HMt as (_ & _ & _ & H4 & _). destruct Hm as (_ & _ & _ & H4' & _).
    unfold axis_at. rewrite H4. cbn [shift_domain with_domain g_axes]. rewrite set_last_nth, H4'; [reflexivity|].
    rewrite H4', (gs_axes _ _ _ _ _ GS). simpl; lia. }
  rewrite !Hax by lia.
  rewrite (axis_coord _ _ _ _ _ _ _ 0 n0 i Hg), (axis_coord _ _ _ _ _ _ _ 1 n1 j Hg) by (simpl; (lia || reflexivity)).
  reflexivity.
Qed.

(** C15, rt: after any history with successful resamplings; the radial axis is the current one. *)
Lemma c15_rt S lo hi np p nm nte L0 h o s :
  laser_init Rt lo hi np p nm nte = Ok L0 -> Forall user_op h -> clean S L0 h ->
  snd (get_spectral_field (l_grid (lrun S L0 h))) = Ok s ->
  exists L' s' nt, apply_optics (lrun S L0 h) o = (L', Ok tt) /\
    snd (get_spectral_field (l_grid L')) = Ok s' /\ shp s' = shp s /\ nth_error np 1 = Some nt /\ dim2 s = nt /\
    same_except_field (lrun S L0 h) L' /\
    forall i j k, inb s i j k ->
      at3 s' i j k = Cmult (at3 s i j k)
        (o (nth j (nth 0 (g_axes (l_grid (lrun S L0 h))) []) 0) 0
           (p_omega0 p + dft_omega nt (spacing (nth 1 lo 0) (nth 1 hi 0) nt) k) (p_omega0 p)).
Proof.
  intros Hi Hu Hc Hs.
  destruct (laser_init_Inv _ _ _ _ _ _ _ _ Hi) as (g & m0 & m1 & nt & Hg & Hm & D1 & D2 & D3 & _ & _ & Hn' & GS & HI).
  destruct (run_clean_inv S L0 _ _ nt h HI Hu Hc) as (k0 & k1 & HR & R2 & R1 & R3).
  destruct (optics_inv (lrun S L0 h) o k0 k1 nt s HR Hs) as (L' & s' & A1 & A2 & A3 & A4 & A5 & A6 & A7).
  exists L', s', nt. conj; try assumption.
  - unfold dim2; rewrite A6; reflexivity.
  - intros i j k (Hi' & Hj & Hk). unfold dim2 in Hk; rewrite A6 in Hk. rewrite A7. f_equal.
    unfold optic_factor. rewrite R1, D1, R3, D2.
    rewrite (run_omega S Rt lo hi np p nm nte L0 h Hi Hu Hc nt k Hn' Hk). reflexivity.
Qed.

Lemma optic_factor_same L L' o i j k : same_except_field L L' -> optic_factor L' o i j k = optic_factor L o i j k.
Proof.
  intros (H1 & H2 & H3 & H4 & H5 & H6 & H7 & H8 & _). unfold optic_factor, axis_at. rewrite H2, H3, H5, H8. reflexivity.
Qed.

Lemma fft1_ext N f f' k : (forall q, (q < N)%nat -> f q = f' q) -> fft1 N f k = fft1 N f' k.
Proof. intros H. unfold fft1. apply csum_ext. intros q Hq. rewrite H by exact Hq. reflexivity. Qed.
Lemma np_fft_last_ext a b : arr_eq a b -> arr_eq (np_fft_last a) (np_fft_last b).
Proof.
  intros (H1 & H2 & H3). split; [exact H1|split; [reflexivity|]].
  intros i j k (Hi & Hj & Hk). cbn [np_fft_last at3]. unfold dim2 at 2. rewrite <- H1. apply fft1_ext.
  intros q Hq. apply H3. split; [exact Hi|split; [exact Hj|exact Hq]].
Qed.

(** Both elements applied, in either order: same field, equal to the product element. *)
Lemma c15_commute S L o1 o2 : reachable S L ->
  exists L12 L21 s12 s21 t12 t21,
    apply_optics (fst (apply_optics L o1)) o2 = (L12, Ok tt) /\
    apply_optics (fst (apply_optics L o2)) o1 = (L21, Ok tt) /\
    snd (get_spectral_field (l_grid L12)) = Ok s12 /\ snd (get_spectral_field (l_grid L21)) = Ok s21 /\
    snd (get_temporal_field (l_grid L12)) = Ok t12 /\ snd (get_temporal_field (l_grid L21)) = Ok t21 /\
    arr_eq s12 s21 /\ arr_eq t12 t21.
Proof.
  intros HR. destruct (reachable_Inv S L HR) as (n0 & n1 & nt & HI).
  destruct (reachable_read S L HR) as (a & s & Ha & Hs & _).
  destruct (optics_inv L o1 _ _ _ s HI Hs) as (L1 & s1 & A1 & A2 & A3 & A4 & A5 & A6 & A7).
  destruct (optics_inv L o2 _ _ _ s HI Hs) as (L2 & s2 & B1 & B2 & B3 & B4 & B5 & B6 & B7).
  rewrite A1, B1; cbn [fst].
  destruct (optics_inv L1 o2 _ _ _ s1 A2 A4) as (L12 & s12 & C1 & C2 & C3 & C4 & C5 & C6 & C7).
  destruct (optics_inv L2 o1 _ _ _ s2 B2 B4) as (L21 & s21 & E1 & E2 & E3 & E4 & E5 & E6 & E7).
  destruct (i_read _ _ _ _ C2) as (t12 & T12). destruct (i_read _ _ _ _ E2) as (t21 & T21).
  exists L12, L21, s12, s21, t12, t21.
  assert (HE : arr_eq s12 s21).
  { split; [congruence|split].
    - destruct (sread_shape _ _ (proj1 (i_coh _ _ _ _ C2)) C4) as (_ & ->).
      destruct (sread_shape _ _ (proj1 (i_coh _ _ _ _ E2)) E4) as (_ & ->). reflexivity.
    - intros i j k _. rewrite C7, E7, A7, B7, (optic_factor_same L L1), (optic_factor_same L L2) by assumption. ring. }
  conj; try assumption.
  eapply arr_eq_trans; [apply (reads_dft _ _ _ (i_coh _ _ _ _ C2) T12 C4)|].
  eapply arr_eq_trans; [|apply arr_eq_sym, (reads_dft _ _ _ (i_coh _ _ _ _ E2) T21 E4)].
  apply np_fft_last_ext. exact HE.
Qed.

Lemma c15_unit S L o a s : reachable S L ->
  (forall x y w w0, o x y w w0 = RtoC 1) ->
  snd (get_temporal_field (l_grid L)) = Ok a -> snd (get_spectral_field (l_grid L)) = Ok s ->
  exists L' a' s', apply_optics L o = (L', Ok tt) /\
    snd (get_temporal_field (l_grid L')) = Ok a' /\ snd (get_spectral_field (l_grid L')) = Ok s' /\
    arr_eq a' a /\ arr_eq s' s.
Proof.
  intros HR Ho Ha Hs. destruct (reachable_Inv S L HR) as (n0 & n1 & nt & HI).
  destruct (optics_inv L o _ _ _ s HI Hs) as (L1 & s1 & A1 & A2 & A3 & A4 & A5 & A6 & A7).
  destruct (i_read _ _ _ _ A2) as (a1 & T1).
  exists L1, a1, s1.
  assert (HE : arr_eq s1 s).
  { split; [assumption|split].
    - destruct (sread_shape _ _ (proj1 (i_coh _ _ _ _ A2)) A4) as (_ & ->).
      destruct (sread_shape _ _ (proj1 (i_coh _ _ _ _ HI)) Hs) as (_ & ->). reflexivity.
    - intros i j k _. rewrite A7. unfold optic_factor. destruct (l_dim L); rewrite Ho; ring. }
  conj; try assumption.
  eapply arr_eq_trans; [apply (reads_dft _ _ _ (i_coh _ _ _ _ A2) T1 A4)|].
  eapply arr_eq_trans; [apply np_fft_last_ext, HE|].
  apply arr_eq_sym, (reads_dft _ _ _ (i_coh _ _ _ _ HI) Ha Hs).
Qed.

(** ** C16 *)
Lemma energy_of_spectral d g a s : CohG g -> tread g = Ok a -> sread g = Ok s -> (0 < dim2 s)%nat ->
  energy_of d g a = env_factor g * eps0 * INR (dim2 s) *
    rsum3 (dim0 s) (dim1 s) (dim2 s) (fun i j k => cell_volume d g j * Cnorm2 (at3 s i j k)).
Proof.
  intros HG Ha Hs H2. rewrite (energy_of_arr_eq d g _ _ (reads_dft g a s HG Ha Hs)).
  apply energy_spectral, H2.
Qed.
Lemma cell_volume_same d L L' j : same_except_field L L' -> cell_volume d (l_grid L') j = cell_volume d (l_grid L) j.
Proof.
  intros (_ & _ & _ & _ & _ & _ & _ & H8 & H9 & _). unfold cell_volume, cell_volume_xyt, cell_volume_rt.
  rewrite H8, H9. reflexivity.
Qed.
Lemma env_factor_true g : g_isenv g = true -> env_factor g = / 2.
Proof. unfold env_factor. intros ->. lra. Qed.

(** Energies before and after an element, in the spectral representation. *)
Lemma optics_energies L o n0 n1 nt : Inv L n0 n1 nt ->
  exists L' s, apply_optics L o = (L', Ok tt) /\ sread (l_grid L) = Ok s /\ shp s = [n0;n1;nt] /\
    let K := / 2 * eps0 * INR nt in 0 < K /\
    snd (compute_laser_energy (l_dim L) (l_grid L)) =
      Ok (K * rsum3 n0 n1 nt (fun i j k => cell_volume (l_dim L) (l_grid L) j * Cnorm2 (at3 s i j k))) /\
    snd (compute_laser_energy (l_dim L') (l_grid L')) =
      Ok (K * rsum3 n0 n1 nt (fun i j k => cell_volume (l_dim L) (l_grid L) j *
             (Cnorm2 (optic_factor L o i j k) * Cnorm2 (at3 s i j k)))).
Proof.
  intros HI. pose proof (i_coh _ _ _ _ HI) as HG. destruct (i_read _ _ _ _ HI) as (a & Ha).
  destruct (tread_sread_ok _ _ (proj1 HG) Ha) as (s & Hs).
  destruct (optics_inv L o _ _ _ s HI Hs) as (L' & s' & A1 & A2 & A3 & A4 & A5 & A6 & A7).
  destruct (i_read _ _ _ _ A2) as (a' & Ha'). pose proof (i_coh _ _ _ _ A2) as HG'.
  pose proof (gs_pos _ _ _ _ _ (i_shape _ _ _ _ HI)) as (P0 & P1 & P2).
  exists L', s. cbn zeta. conj; try assumption.
  - pose proof eps0_pos. apply Rmult_lt_0_compat; [lra|apply lt_0_INR; lia].
  - destruct (compute_energy_eq (l_dim L) _ _ Ha) as (E & _). rewrite E. f_equal.
    rewrite (energy_of_spectral _ _ _ _ HG Ha Hs) by (unfold dim2; rewrite A6; simpl; lia).
    rewrite (env_factor_true _ (proj1 (proj1 HG))). unfold dim0, dim1, dim2. rewrite A6. reflexivity.
  - replace (l_dim L') with (l_dim L) by (symmetry; apply A3).
    destruct (compute_energy_eq (l_dim L) _ _ Ha') as (E & _). rewrite E. f_equal.
    rewrite (energy_of_spectral _ _ _ _ HG' Ha' A4) by (unfold dim2; rewrite A5, A6; simpl; lia).
    rewrite (env_factor_true _ (proj1 (proj1 HG'))). unfold dim0, dim1, dim2. rewrite A5, A6. f_equal.
    apply rsum3_ext; intros. rewrite (cell_volume_same _ L L' _ A3), A7, Cnorm2_mult. ring.
Qed.

Lemma c16_eq S L o : reachable S L -> (forall x y w w0, Cmod (o x y w w0) = 1) ->
  exists L', apply_optics L o = (L', Ok tt) /\
    exists e, snd (compute_laser_energy (l_dim L) (l_grid L)) = Ok e /\
              snd (compute_laser_energy (l_dim L') (l_grid L')) = Ok e.
Proof.
  intros HR Ho. destruct (reachable_Inv S L HR) as (n0 & n1 & nt & HI).
  destruct (optics_energies L o _ _ _ HI) as (L' & s & A1 & A2 & A3 & _ & E1 & E2).
  exists L'. split; [exact A1|]. eexists. split; [exact E1|]. rewrite E2. do 2 f_equal.
  apply rsum3_ext; intros. replace (Cnorm2 (optic_factor L o i j k)) with 1; [ring|].
  unfold optic_factor. rewrite Cnorm2_Cmod. destruct (l_dim L); rewrite Ho; ring.
Qed.

Lemma rsum3_le n0 n1 n2 f g : (forall i j k, (i < n0)%nat -> (j < n1)%nat -> (k < n2)%nat -> f i j k <= g i j k) ->
  rsum3 n0 n1 n2 f <= rsum3 n0 n1 n2 g.
Proof. intros H. unfold rsum3. apply rsum_le; intros. apply rsum_le; intros. apply rsum_le; intros. auto. Qed.

Lemma c16_le S L o : reachable S L -> (forall x y w w0, Cmod (o x y w w0) <= 1) ->
  (forall j, 0 <= cell_volume (l_dim L) (l_grid L) j) ->
  exists L', apply_optics L o = (L', Ok tt) /\
    exists e e', snd (compute_laser_energy (l_dim L) (l_grid L)) = Ok e /\
              snd (compute_laser_energy (l_dim L') (l_grid L')) = Ok e' /\ e' <= e.
Proof.
  intros HR Ho Hv. destruct (reachable_Inv S L HR) as (n0 & n1 & nt & HI).
  destruct (optics_energies L o _ _ _ HI) as (L' & s & A1 & A2 & A3 & HK & E1 & E2).
  exists L'. split; [exact A1|]. eexists. eexists. split; [exact E1|]. split; [exact E2|].
  apply Rmult_le_compat_l; [apply Rlt_le; exact HK|]. apply rsum3_le; intros i j k _ _ _.
  apply Rmult_le_compat_l; [apply Hv|].
  assert (H1 : Cnorm2 (optic_factor L o i j k) <= 1).
  { unfold optic_factor. rewrite Cnorm2_Cmod.
    assert (HH : forall x y w w0, Cmod (o x y w w0) * Cmod (o x y w w0) <= 1).
    { intros x y w w0. pose proof (Ho x y w w0). pose proof (Cmod_ge_0 (o x y w w0)). nra. }
    destruct (l_dim L); apply HH. }
  pose proof (Cnorm2_nonneg (at3 s i j k)). nra.
Qed.

(** Shipped elements. *)
Lemma mirror_unit f x y w w0 : Cmod (parabolic_mirror f x y w w0) = 1.
Proof. apply Cmod_cis. Qed.
Lemma axicon_unit ga x y w w0 : Cmod (axicon ga x y w w0) = 1.
Proof. apply Cmod_cis. Qed.
Lemma poly_unit g t f x y w w0 : Cmod (polynomial_spectral_phase g t f x y w w0) = 1.
Proof. apply Cmod_cis. Qed.
Lemma axiparabola_le f0 de Rad x y w w0 : Cmod (axiparabola f0 de Rad x y w w0) <= 1.
Proof. unfold axiparabola. destruct (Rltb _ _); [rewrite Cmod_0; lra|rewrite Cmod_cis; lra]. Qed.

(** ** C17 *)
Lemma sym_mirror f : rotationally_symmetric (parabolic_mirror f).
Proof. intros x y x' y' w w0 H. unfold parabolic_mirror. rewrite H. reflexivity. Qed.
Lemma sym_axicon f : rotationally_symmetric (axicon f).
Proof. intros x y x' y' w w0 H. unfold axicon. rewrite H. reflexivity. Qed.
Lemma sym_axiparabola f0 de Rad : rotationally_symmetric (axiparabola f0 de Rad).
Proof. intros x y x' y' w w0 H. unfold axiparabola. rewrite H. reflexivity. Qed.
Lemma sym_poly g t f : rotationally_symmetric (polynomial_spectral_phase g t f).
Proof. intros x y x' y' w w0 H. reflexivity. Qed.

Lemma recon_scale M E z theta : recon M (fun m => Cmult (E m) z) theta = Cmult (recon M E theta) z.
Proof. unfold recon. rewrite <- csum_scal_r. apply csum_ext; intros. ring. Qed.
Lemma recon_ext M E E' theta : (forall m, (- Z.of_nat M < m < Z.of_nat M)%Z -> E m = E' m) ->
  recon M E theta = recon M E' theta.
Proof. intros H. unfold recon. apply csum_ext; intros q Hq. rewrite H by lia. reflexivity. Qed.

Lemma c17 S lo hi np p nm nte L0 h o s M :
  laser_init Rt lo hi np p nm nte = Ok L0 -> Forall user_op h -> clean S L0 h ->
  rotationally_symmetric o ->
  snd (get_spectral_field (l_grid (lrun S L0 h))) = Ok s -> dim0 s = (2 * M - 1)%nat ->
  exists L' s' nt, apply_optics (lrun S L0 h) o = (L', Ok tt) /\
    snd (get_spectral_field (l_grid L')) = Ok s' /\ shp s' = shp s /\ nth_error np 1 = Some nt /\
    forall j k theta, (j < dim1 s)%nat -> (k < dim2 s)%nat ->
      let r := nth j (nth 0 (g_axes (l_grid (lrun S L0 h))) []) 0 in
      recon M (comp M s' j k) theta =
      Cmult (recon M (comp M s j k) theta)
        (o (r * cos theta) (r * sin theta)
           (p_omega0 p + dft_omega nt (spacing (nth 1 lo 0) (nth 1 hi 0) nt) k) (p_omega0 p)).
Proof.
  intros Hi Hu Hc Ho Hs HM.
  destruct (c15_rt S lo hi np p nm nte L0 h o s Hi Hu Hc Hs) as (L' & s' & nt & A1 & A2 & A3 & A4 & A5 & A6 & A7).
  exists L', s', nt. conj; try assumption. intros j k theta Hj Hk r.
  rewrite (Ho (r * cos theta) (r * sin theta) r 0).
  - rewrite <- recon_scale. apply recon_ext. intros m Hm. unfold comp. apply A7.
    unfold inb. conj; try assumption. rewrite HM. unfold mode_slot. destruct (Z.leb_spec 0 m); lia.
  - pose proof (sin2_cos2 theta) as H. unfold Rsqr in H.
    replace ((r * cos theta) ^ 2 + (r * sin theta) ^ 2) with (r * r * (sin theta * sin theta + cos theta * cos theta)) by ring.
    rewrite H. ring.
Qed.

(** ** C18 *)
Lemma mirrors_compose f1 f2 f x y w w0 : f1 <> 0 -> f2 <> 0 -> f <> 0 -> / f = / f1 + / f2 ->
  Cmult (parabolic_mirror f1 x y w w0) (parabolic_mirror f2 x y w w0) = parabolic_mirror f x y w w0.
Proof.
  intros H1 H2 H3 H. unfold parabolic_mirror. rewrite <- cis_plus. f_equal.
  pose proof c_light_pos. unfold Rdiv.
  rewrite !Rinv_mult, H. ring.
Qed.
Lemma mirrors_cancel f x y w w0 : f <> 0 ->
  Cmult (parabolic_mirror f x y w w0) (parabolic_mirror (- f) x y w w0) = RtoC 1.
Proof.
  intros H. unfold parabolic_mirror. rewrite <- cis_plus, <- cis_0. f_equal. pose proof c_light_pos. field. lra.
Qed.
Lemma phases_add g1 t1 f1 g2 t2 f2 x y w w0 :
  Cmult (polynomial_spectral_phase g1 t1 f1 x y w w0) (polynomial_spectral_phase g2 t2 f2 x y w w0) =
  polynomial_spectral_phase (g1 + g2) (t1 + t2) (f1 + f2) x y w w0.
Proof. unfold polynomial_spectral_phase. rewrite <- cis_plus. f_equal. field. Qed.
Lemma phase_at_carrier g t f x y w0 : polynomial_spectral_phase g t f x y w0 w0 = RtoC 1.
Proof. unfold polynomial_spectral_phase. rewrite <- cis_0. f_equal. ring. Qed.
Lemma axiparabola_outside f0 de Rad x y w w0 : 0 <= Rad -> Rad < sqrt (x ^ 2 + y ^ 2) ->
  axiparabola f0 de Rad x y w w0 = RtoC 0.
Proof.
  intros H0 H. unfold axiparabola.
  assert (HP : 0 <= x ^ 2 + y ^ 2) by nra.
  assert (Rad ^ 2 < x ^ 2 + y ^ 2).
  { rewrite <- (sqrt_sqrt (x ^ 2 + y ^ 2) HP). nra. }
  destruct (Rltb (Rad ^ 2) (x ^ 2 + y ^ 2)) eqn:E; [reflexivity|]. apply Rltb_false in E. contradiction.
Qed.
Lemma axiparabola_inside_mirror f0 Rad x y w w0 : f0 <> 0 -> 0 <= Rad -> sqrt (x ^ 2 + y ^ 2) <= Rad ->
  axiparabola f0 0 Rad x y w w0 = parabolic_mirror f0 x y w w0.
Proof.
  intros Hf H0 H. unfold axiparabola, parabolic_mirror.
  assert (HP : 0 <= x ^ 2 + y ^ 2) by nra.
  assert (x ^ 2 + y ^ 2 <= Rad ^ 2).
  { rewrite <- (sqrt_sqrt (x ^ 2 + y ^ 2) HP). pose proof (sqrt_pos (x ^ 2 + y ^ 2)). nra. }
  destruct (Rltb (Rad ^ 2) (x ^ 2 + y ^ 2)) eqn:E; [apply Rltb_true in E; lra|].
  f_equal. unfold axiparabola_sag. pose proof c_light_pos. unfold Rdiv. rewrite !Rmult_0_l.
  field. lra.
Qed.
Lemma axicon_on_axis ga w w0 : axicon ga 0 0 w w0 = RtoC 1.
Proof.
  unfold axicon. replace (0 ^ 2 + 0 ^ 2) with 0 by ring. rewrite sqrt_0, <- cis_0. f_equal. ring.
Qed.
Lemma axicon_cancel ga x y w w0 : Cmult (axicon ga x y w w0) (axicon (- ga) x y w w0) = RtoC 1.
Proof.
  unfold axicon. rewrite <- cis_plus, <- cis_0. f_equal.
  replace (/ 2 * - ga) with (- (/ 2 * ga)) by ring. rewrite tan_neg. ring.
Qed.
