(** Property theorems C20-C25 (propagation laws, solver cache, failures, resampling, absorbing layer). *)
From Verif Require Import PyBase CSum NpFFT NumPy GridModel GridSpec GridProofs LaserSpec EnergyModel LaserModel OpticsModel LaserOps
  LaserInv LaserInitProofs HistoryProofs OpticsProofs OpticsProofs2 LaserExamples SolverSpec SolverProofs PropLaws
  CacheProofs CacheBackend ResampleProofs ResampleExamples.
Open Scope R_scope.

(** C20 *)
Theorem C20_compose :
  forall S L d1 d2 b1 b2, reachable S L -> per_frequency S -> additive S ->
  exists L1 L12 L' s12 s' t12 t',
    propagate S L d1 None None b1 = (L1, Ok tt) /\ propagate S L1 d2 None None b2 = (L12, Ok tt) /\
    propagate S L (d1 + d2) None None b1 = (L', Ok tt) /\
    snd (get_spectral_field (l_grid L12)) = Ok s12 /\ snd (get_spectral_field (l_grid L')) = Ok s' /\ arr_eq s12 s' /\
    snd (get_temporal_field (l_grid L12)) = Ok t12 /\ snd (get_temporal_field (l_grid L')) = Ok t' /\ arr_eq t12 t' /\
    same_window (l_grid L') (l_grid L12).
Proof. exact c20_compose. Qed.
Print Assumptions C20_compose.
Theorem C20_reverse :
  forall S L d b1 b2 a s, reachable S L -> per_frequency S -> additive S -> zero_step S ->
  snd (get_temporal_field (l_grid L)) = Ok a -> snd (get_spectral_field (l_grid L)) = Ok s ->
  exists L1 L2 a2 s2,
    propagate S L d None None b1 = (L1, Ok tt) /\ propagate S L1 (- d) None None b2 = (L2, Ok tt) /\
    snd (get_temporal_field (l_grid L2)) = Ok a2 /\ snd (get_spectral_field (l_grid L2)) = Ok s2 /\
    arr_eq a2 a /\ arr_eq s2 s /\ same_window (l_grid L) (l_grid L2).
Proof. exact c20_reverse. Qed.
Print Assumptions C20_reverse.
(** The angular-spectrum solver satisfies every law, and both geometries are reachable. *)
Example C20_nonvacuous :
  per_frequency asm_solvers /\ additive asm_solvers /\ zero_step asm_solvers /\
  (exists L, reachable asm_solvers L /\ l_dim L = Xyt) /\ (exists L, reachable asm_solvers L /\ l_dim L = Rt).
Proof.
  repeat (split; [first [exact asm_per_frequency|exact asm_additive|exact asm_zero]|]).
  split.
  - destruct (ex_xyt None I) as (L & HL). exists L.
    destruct (laser_init_Inv _ _ _ _ _ _ _ _ HL) as (_ & _ & _ & _ & _ & _ & D1 & _).
    split; [apply (reachable_init asm_solvers _ _ _ _ _ _ _ L [] HL); constructor|exact D1].
  - destruct (ex_rt ex_vortex None I) as (L & HL); [lia|]. exists L.
    destruct (laser_init_Inv _ _ _ _ _ _ _ _ HL) as (_ & _ & _ & _ & _ & _ & D1 & _).
    split; [apply (reachable_init asm_solvers _ _ _ _ _ _ _ L [] HL); constructor|exact D1].
Qed.

(** C21: [lrun_rebuild] deletes the attribute [prop] before every call.  [set_prop _ None] discards
    the cache itself, which is the only thing allowed to differ. *)
Theorem C21_cache_never_stale :
  forall S d lo hi np p nm nte L0 h b,
  laser_init d lo hi np p nm nte = Ok L0 -> Forall user_op h -> Forall (uses_backend b) h -> clean S L0 h ->
  set_prop (lrun S L0 h) None = set_prop (lrun_rebuild S L0 h) None /\
  outcomes S L0 h = outcomes_rebuild S L0 h.
Proof. exact c21_rebuild. Qed.
Print Assumptions C21_cache_never_stale.
(** Whatever backends were used: the cached solver was built for the present transverse grid,
    modes and frequency axis (only the backend may be the one of an earlier call). *)
Theorem C21_cache_fresh :
  forall S L, reachable S L ->
  match l_prop L with
  | None => True
  | Some (PropRt ps) => l_dim L = Rt /\ exists b modes, g_modes (l_grid L) = Some modes /\
      ps = map (fun m => mkRtProp (nth 0 (g_axes (l_grid L)) []) (map (fun w => w / c_light) (l_omega L)) None m b) modes
  | Some (PropXyt q) => l_dim L = Xyt /\ exists b,
      q = mkFft2Prop (nth 0 (g_hi (l_grid L)) 0 - nth 0 (g_lo (l_grid L)) 0, length (nth 0 (g_axes (l_grid L)) []))
                     (nth 1 (g_hi (l_grid L)) 0 - nth 1 (g_lo (l_grid L)) 0, length (nth 1 (g_axes (l_grid L)) []))
                     (map (fun w => w / c_light) (l_omega L)) b
  end.
Proof. exact c21_fresh. Qed.
Print Assumptions C21_cache_fresh.
(** Backends mixed freely, when all of them compute the same thing (a cached solver then stands for the one of
    the backend asked for). *)
Theorem C21_any_backends :
  forall S d lo hi np p nm nte L0 h,
  backend_independent S -> laser_init d lo hi np p nm nte = Ok L0 -> Forall user_op h -> clean S L0 h ->
  set_prop (lrun S L0 h) None = set_prop (lrun_rebuild S L0 h) None /\
  outcomes S L0 h = outcomes_rebuild S L0 h.
Proof. exact c21_backends. Qed.
Print Assumptions C21_any_backends.
Example C21_any_backends_nonvacuous : backend_independent asm_solvers.
Proof. split; intros; reflexivity. Qed.
(** plain, resampling, plain again: the case in which a cache could become stale. *)
Example C21_nonvacuous : exists L0 gn L1, laser_init Rt [0;-3] [2;4] [4;5]%nat ex_vortex 2 None = Ok L0 /\
  propagate id_solvers L0 1 None (Some gn) 0%nat = (L1, Ok tt) /\
  let h := [OpPropagate 1 None (Some gn) 0%nat; OpPropagate 2 None None 0%nat] in
  Forall user_op h /\ Forall (uses_backend 0%nat) h /\ clean id_solvers L0 h.
Proof.
  destruct (ex_resample ex_vortex [0;0] [1;1] 1 0%nat) as (L & gn & L' & H1 & H2 & H3 & _); try reflexivity.
  exists L, gn, L'. split; [exact H1|]. split; [exact H3|]. cbn zeta. split; [|split].
  - constructor; [exact (user_grid_init _ _ _ _ _ H2)|]. constructor; [exact I|constructor].
  - repeat constructor.
  - cbn [clean lstep]. rewrite H3. cbn [fst snd]. split; [right; reflexivity|]. split; [left; exact I|exact I].
Qed.

(** C22 *)
Theorem C22_energy_conserved :
  forall S L d b, reachable S L -> unitary S ->
  exists L' e, propagate S L d None None b = (L', Ok tt) /\
    snd (compute_laser_energy (l_dim L) (l_grid L)) = Ok e /\
    snd (compute_laser_energy (l_dim L') (l_grid L')) = Ok e.
Proof. exact c22. Qed.
Print Assumptions C22_energy_conserved.
Example C22_nonvacuous : unitary asm_solvers /\
  exists L e, reachable asm_solvers L /\ snd (compute_laser_energy (l_dim L) (l_grid L)) = Ok e /\ 0 < e.
Proof.
  split; [exact asm_unitary|]. destruct ex_xyt_energy as (L & e & a & H1 & H2 & H3 & _). exists L, e.
  split; [apply (reachable_init asm_solvers _ _ _ _ _ _ _ L [] H1); constructor|]. auto.
Qed.

(** C23 is false of the code: a propagate onto a (fresh) grid with another number of time points
    raises AFTER self.grid was replaced; the pulse is gone, every read and every later propagate
    raises. *)
Theorem C23_failed_resampling_loses_pulse_refuted :
  forall S L d b lo hi np M gn, reachable S L -> l_dim L = Rt ->
  grid_init Rt lo hi np (Some M) true = Ok gn ->
  last (g_shape gn) 0%nat <> last (g_shape (l_grid L)) 0%nat ->
  let r := propagate S L d None (Some gn) b in
  snd r = Err ValueError /\
  (exists a, snd (get_temporal_field (l_grid L)) = Ok a) /\
  snd (get_temporal_field (l_grid (fst r))) = Err ValueError /\
  snd (get_spectral_field (l_grid (fst r))) = Err ValueError /\
  (forall d' nr' b', nr' = None -> snd (propagate S (fst r) d' nr' None b') = Err ValueError).
Proof. exact c23_loses. Qed.
Print Assumptions C23_failed_resampling_loses_pulse_refuted.
Example C23_refuted_nonvacuous : exists L gn, reachable id_solvers L /\ l_dim L = Rt /\
  grid_init Rt [0;0] [1;1] [3;6]%nat (Some 2%Z) true = Ok gn /\
  last (g_shape gn) 0%nat <> last (g_shape (l_grid L)) 0%nat.
Proof.
  destruct (ex_resample_bad_nt ex_vortex [0;0] [1;1]) as (L & gn & H1 & H2 & H3 & H4); try reflexivity.
  exists L, gn. split; [apply (reachable_init id_solvers _ _ _ _ _ _ _ L [] H1); constructor|]. auto.
Qed.
(** What holds: without a resampling grid (or in xyt, where it is ignored) a failing propagate
    changes nothing that can be observed. *)
Theorem C23_plain_failure_harmless_partial :
  forall S L d nr ng b e, reachable S L -> (l_dim L = Xyt \/ ng = None) ->
  snd (propagate S L d nr ng b) = Err e ->
  let L' := fst (propagate S L d nr ng b) in
  same_except_field L L' /\
  snd (get_temporal_field (l_grid L')) = snd (get_temporal_field (l_grid L)) /\
  snd (get_spectral_field (l_grid L')) = snd (get_spectral_field (l_grid L)).
Proof. exact c23_plain. Qed.
Print Assumptions C23_plain_failure_harmless_partial.
(** ... and neither does a failure caused by nr_boundary, even when resampling. *)
Theorem C23_boundary_failure_harmless_partial :
  forall S L d nr ng b, reachable S L ->
  snd (absorb_boundary (l_dim L) nr (l_grid L)) <> Ok tt ->
  let L' := fst (propagate S L d nr ng b) in
  same_except_field L L' /\
  snd (get_temporal_field (l_grid L')) = snd (get_temporal_field (l_grid L)) /\
  snd (get_spectral_field (l_grid L')) = snd (get_spectral_field (l_grid L)).
Proof. exact c23_boundary. Qed.
Print Assumptions C23_boundary_failure_harmless_partial.
Example C23_partial_nonvacuous : exists L, reachable id_solvers L /\ l_dim L = Xyt /\
  snd (propagate id_solvers L 1 (Some (PyInt 9)) None 0%nat) = Err ValueError.
Proof.
  destruct (ex_xyt None I) as (L & HL). exists L.
  destruct (laser_init_Inv _ _ _ _ _ _ _ _ HL) as (_ & _ & _ & _ & _ & _ & D1 & _).
  assert (HR : reachable id_solvers L) by (apply (reachable_init id_solvers _ _ _ _ _ _ _ L [] HL); constructor).
  destruct (xyt_samples _ _ _ _ _ _ _ _ _ HL) as (a & s & H1 & H2 & _); simpl nth; try lra; [exact I|].
  split; [exact HR|]. split; [exact D1|].
  apply (proj2 (c25_reject id_solvers L 1 (PyInt 9) None 0%nat a HR H1) 9%Z); try reflexivity; try lia.
  left. unfold dim1. rewrite H2. simpl. lia.
Qed.

(** C24: what a successful resampling does ... *)
Theorem C24_resample_partial :
  forall S L d gn b L', reachable S L -> l_dim L = Rt -> user_grid gn ->
  propagate S L d None (Some gn) b = (L', Ok tt) ->
  nth 0 (g_lo (l_grid L')) 0 = nth 0 (g_lo gn) 0 /\ nth 0 (g_hi (l_grid L')) 0 = nth 0 (g_hi gn) 0 /\
  nth 0 (g_axes (l_grid L')) [] = nth 0 (g_axes gn) [] /\ nth 0 (g_dx (l_grid L')) 0 = nth 0 (g_dx gn) 0 /\
  nth 1 (g_lo (l_grid L')) 0 = nth 1 (g_lo (l_grid L)) 0 + d / c_light /\
  nth 1 (g_hi (l_grid L')) 0 = nth 1 (g_hi (l_grid L)) 0 + d / c_light /\
  nth 1 (g_axes (l_grid L')) [] = map (fun t => t + d / c_light) (nth 1 (g_axes (l_grid L)) []) /\
  nth 1 (g_dx (l_grid L')) 0 = nth 1 (g_dx gn) 0 /\ g_modes (l_grid L') = g_modes gn /\ l_prop L' = None /\
  exists s s' modes modes', snd (get_spectral_field (l_grid L)) = Ok s /\ snd (get_spectral_field (l_grid L')) = Ok s' /\
    g_modes (l_grid L) = Some modes /\ g_modes gn = Some modes' /\ (length modes' <= length modes)%nat /\
    shp s' = [length modes'; length (nth 0 (g_axes gn) []); dim2 s] /\ dim2 s = length (l_omega L) /\
    forall i m j k, nth_error modes' i = Some m ->
      at3 s' i j k = Cmult (step_rt S (mkRtProp (nth 0 (g_axes (l_grid L)) []) (map (fun w => w / c_light) (l_omega L))
                                 (Some (nth 0 (g_axes gn) [])) m b) (fun kk jj => at3 s i jj kk) d k j)
                           (cis (- ((nth k (l_omega L) 0 - p_omega0 (l_prof L)) * (d / c_light)))).
Proof. exact c24. Qed.
Print Assumptions C24_resample_partial.
(** ... the metadata stays self-consistent exactly when gn has the laser's time step ... *)
Theorem C24_same_dt_consistent_partial :
  forall S L d gn b L', reachable S L -> l_dim L = Rt -> user_grid gn ->
  propagate S L d None (Some gn) b = (L', Ok tt) ->
  consistent (l_grid L) -> nth 1 (g_dx gn) 0 = nth 1 (g_dx (l_grid L)) 0 ->
  consistent (l_grid L').
Proof. exact c24_good. Qed.
Print Assumptions C24_same_dt_consistent_partial.
Theorem C24_stale_time_step_refuted :
  forall S L d gn b L', reachable S L -> l_dim L = Rt -> user_grid gn ->
  propagate S L d None (Some gn) b = (L', Ok tt) ->
  consistent (l_grid L) -> nth 1 (g_dx gn) 0 <> nth 1 (g_dx (l_grid L)) 0 ->
  ~ consistent (l_grid L').
Proof. exact c24_bad. Qed.
Print Assumptions C24_stale_time_step_refuted.
Lemma C24_witness (lo hi : list R) : length lo = 2%nat -> length hi = 2%nat ->
  exists L gn L', reachable id_solvers L /\ l_dim L = Rt /\ user_grid gn /\
    propagate id_solvers L 1 None (Some gn) 0%nat = (L', Ok tt) /\ consistent (l_grid L) /\
    nth 1 (g_dx (l_grid L)) 0 = 7 / 4 /\ nth 1 (g_dx gn) 0 = (nth 1 hi 0 - nth 1 lo 0) / 4.
Proof.
  intros H1 H2. destruct (ex_resample ex_vortex lo hi 1 0%nat eq_refl H1 H2) as (L & gn & L' & A & B & C & D & E & F).
  destruct (laser_init_Inv _ _ _ _ _ _ _ _ A) as (_ & _ & _ & _ & _ & _ & D1 & _).
  exists L, gn, L'. split; [apply (reachable_init id_solvers _ _ _ _ _ _ _ L [] A); constructor|].
  split; [exact D1|]. split; [exact (user_grid_init _ _ _ _ _ B)|]. auto.
Qed.
Example C24_nonvacuous : exists L gn L', reachable id_solvers L /\ l_dim L = Rt /\ user_grid gn /\
    propagate id_solvers L 1 None (Some gn) 0%nat = (L', Ok tt) /\ consistent (l_grid L) /\
    nth 1 (g_dx gn) 0 = nth 1 (g_dx (l_grid L)) 0.
Proof.
  destruct (C24_witness [0;0] [1;7]) as (L & gn & L' & A & B & C & D & E & F & G); try reflexivity.
  exists L, gn, L'. repeat (split; [assumption|]). rewrite F, G. simpl. lra.
Qed.
Example C24_refuted_nonvacuous : exists L gn L', reachable id_solvers L /\ l_dim L = Rt /\ user_grid gn /\
    propagate id_solvers L 1 None (Some gn) 0%nat = (L', Ok tt) /\ consistent (l_grid L) /\
    nth 1 (g_dx gn) 0 <> nth 1 (g_dx (l_grid L)) 0.
Proof.
  destruct (C24_witness [0;0] [1;1]) as (L & gn & L' & A & B & C & D & E & F & G); try reflexivity.
  exists L, gn, L'. repeat (split; [assumption|]). rewrite F, G. simpl. lra.
Qed.
(** ... and azimuthal components are taken by position, not by label: resampling a pure m = +2 pulse
    (3 modes) onto a 2-mode grid turns it into a pulse labelled m = -1. *)
Theorem C24_mode_labels_refuted : exists L gn L' a a',
  laser_init Rt [0;-3] [2;4] [4;5]%nat ex_vortex2 3 None = Ok L /\
  grid_init Rt [0;-3] [2;4] [4;5]%nat (Some 2%Z) true = Ok gn /\
  propagate id_solvers L 0 None (Some gn) 0%nat = (L', Ok tt) /\
  g_modes (l_grid L) = Some [0;1;2;-2;-1]%Z /\ g_modes (l_grid L') = Some [0;1;-1]%Z /\
  snd (get_temporal_field (l_grid L)) = Ok a /\ snd (get_temporal_field (l_grid L')) = Ok a' /\
  (forall j k, (j < 4)%nat -> (k < 5)%nat -> at3 a 4 j k = RtoC 0) /\
  (forall j k, (j < 4)%nat -> (k < 5)%nat -> at3 a' 2 j k = at3 a 2 j k) /\
  (forall k, (k < 5)%nat -> at3 a' 2 1 k <> RtoC 0).
Proof. exact ex_mislabel. Qed.
Print Assumptions C24_mode_labels_refuted.

(** C25: [layer_factor] bounds the attenuation, [damp F a] multiplies a by it; then propagate goes
    on exactly as without nr_boundary. *)
Theorem C25_absorbing_layer :
  forall S L d z ng b a, reachable S L -> snd (get_temporal_field (l_grid L)) = Ok a ->
  (0 < z)%Z -> (Z.to_nat z <= dim1 a)%nat -> (l_dim L = Xyt -> (Z.to_nat z <= dim0 a)%nat) ->
  exists F g1, layer_factor (l_dim L) (Z.to_nat z) (dim0 a) (dim1 a) F /\
    snd (get_temporal_field g1) = Ok (damp F a) /\ same_window (l_grid L) g1 /\
    propagate S L d (Some (PyInt z)) ng b = propagate S (set_grid L g1) d None ng b.
Proof.
  intros S L d z ng b a H1 H2 H3 H4 H5.
  destruct (c25 S L d z ng b a H1 H2 H3 H4 H5) as (F & g1 & A & B & C & _ & D).
  exists F, g1. auto.
Qed.
Print Assumptions C25_absorbing_layer.
Theorem C25_rejected :
  forall S L d nr ng b a, reachable S L -> snd (get_temporal_field (l_grid L)) = Ok a ->
  (nr = PyOther \/ (exists z, nr = PyInt z /\ (z <= 0)%Z) ->
     snd (propagate S L d (Some nr) ng b) = Err AssertionError) /\
  (forall z, nr = PyInt z -> (0 < z)%Z -> (dim1 a < Z.to_nat z)%nat \/ (l_dim L = Xyt /\ (dim0 a < Z.to_nat z)%nat) ->
     snd (propagate S L d (Some nr) ng b) = Err ValueError).
Proof. exact c25_reject. Qed.
Print Assumptions C25_rejected.
Example C25_nonvacuous : exists L a, reachable id_solvers L /\ l_dim L = Xyt /\
  snd (get_temporal_field (l_grid L)) = Ok a /\ (Z.to_nat 2 <= dim1 a)%nat /\ (Z.to_nat 2 <= dim0 a)%nat.
Proof.
  destruct (ex_xyt None I) as (L & HL). exists L.
  destruct (laser_init_Inv _ _ _ _ _ _ _ _ HL) as (_ & _ & _ & _ & _ & _ & D1 & _).
  destruct (xyt_samples _ _ _ _ _ _ _ _ _ HL) as (a & s & H1 & H2 & _); simpl nth; try lra; [exact I|].
  exists a. split; [apply (reachable_init id_solvers _ _ _ _ _ _ _ L [] HL); constructor|].
  unfold dim1, dim0. rewrite H2. repeat (split; [assumption|]). simpl. lia.
Qed.
