(** What the Grid methods observe: reads as functions of the state. *)
From Verif Require Import PyBase CSum NpFFT FFTProofs NumPy GridModel GridSpec GridProofs LaserSpec.
Open Scope R_scope.

Definition tread (g : grid) : res ndarray := snd (get_temporal_field g).
Definition sread (g : grid) : res ndarray := snd (get_spectral_field g).

(** Well-formed envelope grid. *)
Definition Wf (g : grid) : Prop :=
  g_isenv g = true /\ g_dtype g = Complex128 /\
  shp (g_tf g) = g_shape g /\ dty (g_tf g) = Complex128 /\
  shp (g_sf g) = g_shape g /\ dty (g_sf g) = Complex128.

(** All the scalar attributes agree. *)
Definition same_meta (g g' : grid) : Prop :=
  g_lo g' = g_lo g /\ g_hi g' = g_hi g /\ g_npoints g' = g_npoints g /\ g_axes g' = g_axes g /\
  g_dx g' = g_dx g /\ g_nmodes g' = g_nmodes g /\ g_modes g' = g_modes g /\ g_shape g' = g_shape g /\
  g_isenv g' = g_isenv g /\ g_dtype g' = g_dtype g.
Lemma same_meta_refl g : same_meta g g.
Proof. repeat split. Qed.
Lemma same_meta_trans a b c : same_meta a b -> same_meta b c -> same_meta a c.
Proof. unfold same_meta; intuition congruence. Qed.

Lemma get_t_meta g : same_meta g (fst (get_temporal_field g)).
Proof.
  unfold get_temporal_field. destruct (g_tv g), (g_sv g); simpl; repeat split.
Qed.
Lemma get_s_meta g : same_meta g (fst (get_spectral_field g)).
Proof.
  unfold get_spectral_field. destruct (g_isenv g) eqn:E; simpl; [|apply same_meta_refl].
  destruct (g_sv g), (g_tv g); simpl; repeat split.
Qed.
Lemma set_t_meta g a : same_meta g (fst (set_temporal_field g a)).
Proof. unfold set_temporal_field. destruct (negb _); [repeat split|]. destruct (negb _); repeat split. Qed.
Lemma set_s_meta g a : same_meta g (fst (set_spectral_field g a)).
Proof. unfold set_spectral_field. destruct (negb _); [repeat split|]. destruct (negb _); repeat split. Qed.

Lemma get_t_Wf g : Wf g -> Wf (fst (get_temporal_field g)).
Proof.
  intros (H1 & H2 & H3 & H4 & H5 & H6). unfold get_temporal_field.
  destruct (g_tv g) eqn:E1, (g_sv g) eqn:E2; simpl; repeat split; simpl; assumption.
Qed.
Lemma get_s_Wf g : Wf g -> Wf (fst (get_spectral_field g)).
Proof.
  intros (H1 & H2 & H3 & H4 & H5 & H6). unfold get_spectral_field. rewrite H1; simpl.
  destruct (g_tv g) eqn:E1, (g_sv g) eqn:E2; simpl; repeat split; simpl; assumption.
Qed.
Lemma set_t_Wf g a : Wf g -> Wf (fst (set_temporal_field g a)).
Proof.
  intros (H1 & H2 & H3 & H4 & H5 & H6). unfold set_temporal_field.
  destruct (negb _); [repeat split; assumption|]. destruct (negb _); repeat split; assumption.
Qed.
Lemma set_s_Wf g a : Wf g -> Wf (fst (set_spectral_field g a)).
Proof.
  intros (H1 & H2 & H3 & H4 & H5 & H6). unfold set_spectral_field.
  destruct (negb _); [repeat split; assumption|]. destruct (negb _); repeat split; assumption.
Qed.

(** Reads do not disturb reads. *)
Lemma tread_get_t g : tread (fst (get_temporal_field g)) = tread g.
Proof. unfold tread, get_temporal_field. destruct (g_tv g) eqn:E1, (g_sv g) eqn:E2; simpl; rewrite ?E1, ?E2; reflexivity. Qed.
Lemma sread_get_t g : sread (fst (get_temporal_field g)) = sread g.
Proof.
  unfold sread, get_temporal_field, get_spectral_field.
  destruct (g_isenv g) eqn:E, (g_tv g) eqn:E1, (g_sv g) eqn:E2; simpl; rewrite ?E, ?E1, ?E2; reflexivity.
Qed.
Lemma sread_get_s g : sread (fst (get_spectral_field g)) = sread g.
Proof.
  unfold sread, get_spectral_field.
  destruct (g_isenv g) eqn:E, (g_tv g) eqn:E1, (g_sv g) eqn:E2; simpl; rewrite ?E, ?E1, ?E2; reflexivity.
Qed.
Lemma tread_get_s g : tread (fst (get_spectral_field g)) = tread g.
Proof.
  unfold tread, get_temporal_field, get_spectral_field.
  destruct (g_isenv g) eqn:E, (g_tv g) eqn:E1, (g_sv g) eqn:E2; simpl; rewrite ?E, ?E1, ?E2; reflexivity.
Qed.
Lemma get_t_eq g : get_temporal_field g = (fst (get_temporal_field g), tread g).
Proof. unfold tread; destruct (get_temporal_field g); reflexivity. Qed.
Lemma get_s_eq g : get_spectral_field g = (fst (get_spectral_field g), sread g).
Proof. unfold sread; destruct (get_spectral_field g); reflexivity. Qed.

(** The array read from a well-formed grid has the grid's shape. *)
Lemma tread_shape g a : Wf g -> tread g = Ok a -> shp a = g_shape g /\ dty a = Complex128.
Proof.
  intros (H1 & H2 & H3 & H4 & H5 & H6). unfold tread, get_temporal_field.
  destruct (g_tv g), (g_sv g); simpl; intros [= <-]; auto.
Qed.
Lemma sread_shape g a : Wf g -> sread g = Ok a -> shp a = g_shape g /\ dty a = Complex128.
Proof.
  intros (H1 & H2 & H3 & H4 & H5 & H6). unfold sread, get_spectral_field. rewrite H1.
  destruct (g_tv g), (g_sv g); simpl; intros [= <-]; auto.
Qed.

(** Reads after a successful set. *)
Lemma set_t_ok g a : Wf g -> shp a = g_shape g -> dty a = Complex128 ->
  snd (set_temporal_field g a) = Ok tt /\ tread (fst (set_temporal_field g a)) = Ok a /\
  sread (fst (set_temporal_field g a)) = Ok (np_ifft_last a).
Proof.
  intros (H1 & H2 & H3 & H4 & H5 & H6) Hs Hd. unfold set_temporal_field.
  rewrite H3, Hs, H2, Hd, shape_eqb_refl; simpl.
  unfold tread, sread, get_temporal_field, get_spectral_field; simpl.
  rewrite H1, H4; simpl.
  pose proof (set_arr_same a (g_shape g) Hs Hd) as E; simpl in E. rewrite E. auto.
Qed.
Lemma set_s_ok g a : Wf g -> shp a = g_shape g -> dty a = Complex128 ->
  snd (set_spectral_field g a) = Ok tt /\ sread (fst (set_spectral_field g a)) = Ok a /\
  tread (fst (set_spectral_field g a)) = Ok (np_fft_last a).
Proof.
  intros (H1 & H2 & H3 & H4 & H5 & H6) Hs Hd. unfold set_spectral_field.
  rewrite H5, Hs, Hd, shape_eqb_refl; simpl.
  unfold tread, sread, get_temporal_field, get_spectral_field; simpl.
  rewrite H1, H6; simpl.
  assert (E : mkArr (g_shape g) Complex128 (at3 a) = a)
    by (destruct a; simpl in *; subst; reflexivity).
  rewrite E. auto.
Qed.

(** Temporal and spectral reads are DFT pairs (in-range) when the grid is coherent. *)
Definition CohG (g : grid) : Prop := Wf g /\ Coh5 g.
Lemma get_t_Coh g : CohG g -> CohG (fst (get_temporal_field g)).
Proof. intros (H1 & H2); split; [apply get_t_Wf, H1 | apply (Coh5_call g GetT H2)]. Qed.
Lemma get_s_Coh g : CohG g -> CohG (fst (get_spectral_field g)).
Proof. intros (H1 & H2); split; [apply get_s_Wf, H1 | apply (Coh5_call g GetS H2)]. Qed.
Lemma set_t_Coh g a : CohG g -> CohG (fst (set_temporal_field g a)).
Proof. intros (H1 & H2); split; [apply set_t_Wf, H1 | apply (Coh5_call g (SetT a) H2)]. Qed.
Lemma set_s_Coh g a : CohG g -> CohG (fst (set_spectral_field g a)).
Proof. intros (H1 & H2); split; [apply set_s_Wf, H1 | apply (Coh5_call g (SetS a) H2)]. Qed.
Lemma grid_init_CohG d lo hi np nm g : grid_init d lo hi np nm true = Ok g -> CohG g.
Proof.
  intros H. split; [|apply (Coh5_init _ _ _ _ _ _ _ H)].
  apply grid_init_fresh in H. destruct H as (H1 & H2 & H3 & H4 & H5 & H6 & _).
  repeat split; assumption.
Qed.

Lemma tread_sread_ok g a : Wf g -> tread g = Ok a -> exists b, sread g = Ok b.
Proof.
  intros (H1 & _). unfold tread, sread, get_temporal_field, get_spectral_field. rewrite H1; simpl.
  destruct (g_tv g), (g_sv g); simpl; intros H; try discriminate; eauto.
Qed.
Lemma sread_tread_ok g a : Wf g -> sread g = Ok a -> exists b, tread g = Ok b.
Proof.
  intros (H1 & _). unfold tread, sread, get_temporal_field, get_spectral_field. rewrite H1; simpl.
  destruct (g_tv g), (g_sv g); simpl; intros H; try discriminate; eauto.
Qed.

(** In-range: spectral read = inverse DFT of temporal read, and conversely. *)
Lemma reads_idft g a b : CohG g -> tread g = Ok a -> sread g = Ok b -> arr_eq b (np_ifft_last a).
Proof.
  intros (HW & HC) Ha Hb.
  destruct (tread_shape g a HW Ha) as (S1 & D1). destruct (sread_shape g b HW Hb) as (S2 & D2).
  destruct (Coh5_reads g a b HC Ha Hb) as (_ & HE).
  split; [simpl; congruence|split; [simpl; congruence|]].
  intros i j k (_ & _ & Hk). rewrite (HE i j k Hk). simpl.
  assert (Hd : dim2 b = dim2 a) by (unfold dim2; congruence). rewrite Hd. reflexivity.
Qed.
Lemma reads_dft g a b : CohG g -> tread g = Ok a -> sread g = Ok b -> arr_eq a (np_fft_last b).
Proof.
  intros HG Ha Hb. pose proof (reads_idft g a b HG Ha Hb) as (HS & HD & HE).
  destruct HG as (HW & HC). destruct (tread_shape g a HW Ha) as (S1 & D1).
  destruct (sread_shape g b HW Hb) as (S2 & D2).
  split; [simpl; congruence|split; [simpl; congruence|]].
  intros i j k (Hi & Hj & Hk). simpl.
  assert (Hd : dim2 b = dim2 a) by (unfold dim2; congruence). rewrite Hd.
  rewrite <- (fft_ifft1 (dim2 a) (fun q => at3 a i j q) k Hk).
  apply fft1_ext. intros n Hn. symmetry. rewrite HE; [reflexivity|].
  unfold inb, dim0, dim1, dim2 in *. rewrite S2, <- S1. auto.
Qed.
