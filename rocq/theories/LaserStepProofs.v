(** Invariants of a laser over histories. *)
From Verif Require Import PyBase CSum NpFFT FFTProofs NumPy GridModel GridSpec GridProofs LaserSpec GridObs
  EnergyModel EnergyProofs AngularProofs LaserModel LaserOps LaserInv LaserInitProofs.
Open Scope R_scope.

(** The propagator that would be built now. *)
Definition fresh_prop (L : laser) (b : backend_t) : prop_attr :=
  match l_dim L with
  | Rt => PropRt (build_rt (nth 0 (g_axes (l_grid L)) []) (l_omega L) None
                    (match g_modes (l_grid L) with Some m => m | None => [] end) b)
  | _ => PropXyt (build_xyt (l_grid L) (l_omega L) b)
  end.

Record Inv (L : laser) (n0 n1 nt : nat) : Prop := mkInv {
  i_shape : GShape (l_dim L) (l_grid L) n0 n1 nt;
  i_coh : CohG (l_grid L);
  i_dim : l_dim L = Rt \/ l_dim L = Xyt;
  i_omega : length (l_omega L) = nt;
  i_read : exists a, tread (l_grid L) = Ok a;
  i_prop : l_prop L = None \/ exists b, l_prop L = Some (fresh_prop L b)
}.

Lemma tread_sread_iff g : Wf g -> (exists a, tread g = Ok a) <-> (exists b, sread g = Ok b).
Proof.
  intros HW. split; intros (a & Ha).
  - apply (tread_sread_ok g a HW Ha).
  - apply (sread_tread_ok g a HW Ha).
Qed.

(** ** Reading the energy, normalizing *)
Lemma normalize_grid_steps d v k g : CohG g ->
  let r := normalize_grid d v k g in
  CohG (fst r) /\ same_meta g (fst r) /\ ((exists a, tread g = Ok a) -> exists a, tread (fst r) = Ok a).
Proof.
  intros HG. cbn zeta.
  assert (Hset : forall g1 a, CohG g1 -> same_meta g g1 ->
     ((exists a, tread g = Ok a) -> exists a, tread g1 = Ok a) ->
     CohG (fst (set_temporal_field g1 a)) /\ same_meta g (fst (set_temporal_field g1 a)) /\
     ((exists a, tread g = Ok a) -> exists b, tread (fst (set_temporal_field g1 a)) = Ok b)).
  { intros g1 a H1 H2 H3. split; [apply set_t_Coh, H1|split; [eapply same_meta_trans; [exact H2|apply set_t_meta]|]].
    intros Hex. unfold set_temporal_field.
    destruct (negb _); [apply H3, Hex|]. destruct (negb _); [apply H3, Hex|].
    eexists. reflexivity. }
  destruct k; cbn [normalize_grid].
  - unfold normalize_energy. destruct v as [en|]; [|conj; [exact HG|apply same_meta_refl|auto]].
    unfold compute_laser_energy. rewrite get_t_eq; cbn [fst snd].
    destruct (tread g) as [a|e] eqn:Ha; cbn [fst snd].
    + destruct (Reqb _ 0); cbn [fst snd].
      * conj; [apply get_t_Coh, HG|apply get_t_meta|]. intros _. exists a. rewrite tread_get_t. exact Ha.
      * rewrite get_t_eq; cbn [fst snd]. rewrite tread_get_t, Ha. rewrite <- Ha in *.
        apply Hset; [apply get_t_Coh, get_t_Coh, HG| |].
        { eapply same_meta_trans; [apply get_t_meta|apply get_t_meta]. }
        intros _. exists a. rewrite !tread_get_t. exact Ha.
    + conj; [apply get_t_Coh, HG|apply get_t_meta|]. intros (b & Hb). discriminate.
  - unfold normalize_peak_field_amplitude. destruct v as [en|]; [|conj; [exact HG|apply same_meta_refl|auto]].
    rewrite get_t_eq; cbn [fst snd].
    destruct (tread g) as [a|e] eqn:Ha; cbn [fst snd].
    + rewrite <- Ha in *. destruct (Reqb _ 0); cbn [fst snd].
      * conj; [apply get_t_Coh, HG|apply get_t_meta|]. intros _. exists a. rewrite tread_get_t. exact Ha.
      * apply Hset; [apply get_t_Coh, HG|apply get_t_meta|].
        intros _. exists a. rewrite !tread_get_t. exact Ha.
    + conj; [apply get_t_Coh, HG|apply get_t_meta|]. intros (b & Hb). discriminate.
  - unfold normalize_peak_intensity. destruct v as [en|]; [|conj; [exact HG|apply same_meta_refl|auto]].
    rewrite get_t_eq; cbn [fst snd].
    destruct (tread g) as [a|e] eqn:Ha; cbn [fst snd].
    + rewrite <- Ha in *. destruct (Reqb _ 0); cbn [fst snd].
      * conj; [apply get_t_Coh, HG|apply get_t_meta|]. intros _. exists a. rewrite tread_get_t. exact Ha.
      * apply Hset; [apply get_t_Coh, HG|apply get_t_meta|].
        intros _. exists a. rewrite !tread_get_t. exact Ha.
    + conj; [apply get_t_Coh, HG|apply get_t_meta|]. intros (b & Hb). discriminate.
  - conj; [exact HG|apply same_meta_refl|auto].
Qed.

(** ** apply_optics *)
Lemma apply_optics_spec L o a s : CohG (l_grid L) -> tread (l_grid L) = Ok a -> sread (l_grid L) = Ok s ->
  exists g' s', apply_optics L o = (set_grid L g', Ok tt) /\ CohG g' /\ same_meta (l_grid L) g' /\
    sread g' = Ok s' /\ tread g' = Ok (np_fft_last s') /\
    shp s' = shp s /\ dty s' = Complex128 /\
    forall i j k, at3 s' i j k = Cmult (at3 s i j k) (optic_factor L o i j k).
Proof.
  intros HG Ha Hs. unfold apply_optics. rewrite get_s_eq; cbn [fst snd]. rewrite Hs.
  destruct (sread_shape _ _ (proj1 HG) Hs) as (Hsh & Hd).
  set (s' := mkArr (shp s) (dty s) (fun i j k => Cmult (at3 s i j k) (optic_factor L o i j k))).
  pose proof (get_s_Coh _ HG) as HG1. pose proof (get_s_meta (l_grid L)) as HM.
  destruct (set_s_ok (fst (get_spectral_field (l_grid L))) s' (proj1 HG1)) as (H1 & H2 & H3).
  - simpl. rewrite Hsh. symmetry. apply HM.
  - exact Hd.
  - exists (fst (set_spectral_field (fst (get_spectral_field (l_grid L))) s')), s'.
    conj; try assumption; try reflexivity.
    + rewrite H1. reflexivity.
    + apply set_s_Coh, HG1.
    + eapply same_meta_trans; [exact HM|apply set_s_meta].
Qed.

(** ** Absorbing boundary *)
Lemma absorb_field_shape d n f f' : absorb_field d n f = Ok f' -> shp f' = shp f /\ dty f' = dty f.
Proof.
  unfold absorb_field. destruct d.
  - destruct (Nat.ltb _ _); [discriminate|]. intros [= <-]; auto.
  - destruct (Nat.ltb _ _); [discriminate|]. destruct (Nat.ltb _ _); [discriminate|]. intros [= <-]; auto.
  - destruct (Nat.ltb _ _); [discriminate|]. destruct (Nat.ltb _ _); [discriminate|]. intros [= <-]; auto.
Qed.

Lemma absorb_boundary_steps d nr g : CohG g ->
  let r := absorb_boundary d nr g in
  CohG (fst r) /\ same_meta g (fst r) /\
  ((exists a, tread g = Ok a) -> exists a, tread (fst r) = Ok a) /\
  (snd r <> Ok tt -> tread (fst r) = tread g /\ sread (fst r) = sread g).
Proof.
  intros HG. cbn zeta. unfold absorb_boundary.
  assert (Hid : forall e, CohG (fst (g, Err e : res unit)) /\ same_meta g (fst (g, Err e : res unit)) /\
     ((exists a, tread g = Ok a) -> exists a, tread (fst (g, Err e : res unit)) = Ok a) /\
     (snd (g, Err e : res unit) <> Ok tt ->
      tread (fst (g, Err e : res unit)) = tread g /\ sread (fst (g, Err e : res unit)) = sread g)).
  { intros e; simpl. conj; try assumption; try apply same_meta_refl; auto. }
  destruct nr as [[z|]|]; [| apply Hid | simpl; conj; try assumption; try apply same_meta_refl; try auto; congruence].
  destruct (Z.leb z 0); [apply Hid|].
  rewrite get_t_eq; cbn [fst snd].
  destruct (tread g) as [a|e] eqn:Ha.
  - destruct (absorb_field d (Z.to_nat z) a) as [f|e] eqn:Ef; cbn [fst snd].
    + pose proof (get_t_Coh _ HG) as HG1. pose proof (get_t_meta g) as HM.
      destruct (absorb_field_shape _ _ _ _ Ef) as (S1 & S2).
      destruct (tread_shape _ _ (proj1 HG) Ha) as (S3 & S4).
      destruct (set_t_ok (fst (get_temporal_field g)) f (proj1 HG1)) as (H1 & H2 & H3).
      * rewrite S1, S3. symmetry. apply HM.
      * congruence.
      * conj; [apply set_t_Coh, HG1|eapply same_meta_trans; [exact HM|apply set_t_meta]| |].
        -- intros _. eauto.
        -- rewrite H1; intros H; congruence.
    + conj; [apply get_t_Coh, HG|apply get_t_meta| |].
      * intros _; exists a. rewrite tread_get_t; exact Ha.
      * intros _. rewrite tread_get_t, sread_get_t. split; congruence.
  - cbn [fst snd]. conj; [apply get_t_Coh, HG|apply get_t_meta| |].
    + intros (b & Hb); discriminate.
    + intros _. rewrite tread_get_t, sread_get_t. split; congruence.
Qed.

(** ** Tail of propagate *)
Lemma shift_meta_Coh g dist : CohG g -> CohG (shift_domain g dist).
Proof. intros ((H1 & H2 & H3 & H4 & H5 & H6) & HC). split; [repeat split; assumption|exact HC]. Qed.
Lemma overwrite_Coh gn g : CohG gn -> CohG (overwrite_time gn g).
Proof. intros ((H1 & H2 & H3 & H4 & H5 & H6) & HC). split; [repeat split; assumption|exact HC]. Qed.
Lemma tread_shift g dist : tread (shift_domain g dist) = tread g.
Proof.
  unfold tread, get_temporal_field. simpl. destruct (g_tv g), (g_sv g); reflexivity.
Qed.
Lemma sread_shift g dist : sread (shift_domain g dist) = sread g.
Proof.
  unfold sread, get_spectral_field. simpl. destruct (g_isenv g), (g_tv g), (g_sv g); reflexivity.
Qed.

Lemma finish_spec L dist s : CohG (l_grid L) -> shp s = g_shape (l_grid L) -> dty s = Complex128 ->
  exists g1, finish L dist s = (set_grid L (shift_domain g1 dist), Ok tt) /\ CohG g1 /\
    same_meta (l_grid L) g1 /\
    sread g1 = Ok (apply_phase (l_omega L) (p_omega0 (l_prof L)) dist s) /\
    tread g1 = Ok (np_fft_last (apply_phase (l_omega L) (p_omega0 (l_prof L)) dist s)).
Proof.
  intros HG Hs Hd. unfold finish.
  destruct (set_s_ok (l_grid L) (apply_phase (l_omega L) (p_omega0 (l_prof L)) dist s) (proj1 HG)) as (H1 & H2 & H3);
    [exact Hs|exact Hd|].
  rewrite H1. eexists. conj; try reflexivity; try assumption.
  - apply set_s_Coh, HG.
  - apply set_s_meta.
Qed.
