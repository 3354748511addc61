(** Property theorems C78: export_to_z and import_from_z.  [A] are the axiprop functions they use, under the contracts of ZSpec.v. *)
From Verif Require Import PyBase CSum NpFFT NumPy NpMath GridModel GridSpec GridProofs GridObs LaserSpec EnergyModel LaserModel AnalysisModel AnalysisSpec ZModel ZSpec ZProofs ZShift.
Open Scope R_scope.

(** C78: export_to_z reads the grid only. *)
Theorem C78_export_read_only : forall A d g w z z0 t0, same_contents g (fst (export_to_z A d g w z z0 t0)).
Proof. exact export_reads. Qed.
Print Assumptions C78_export_read_only.
(** C78: without z_axis, the axis is c times the time axis. *)
Theorem C78_default_axis : forall A d g w z0 t0,
  export_to_z A d g w None z0 t0 = export_to_z A d g w (Some (map (fun t => t * c_light) (time_axis g))) z0 t0.
Proof. exact export_default. Qed.
Print Assumptions C78_default_axis.
(** C78: the exported field is linear in the field of the grid, whatever calls led to the three fields, for any z axis, z0, t0. *)
Theorem C78_export_linear :
  forall A d lo hi np nm g0 h1 h2 h3 f1 f2 f3 w z z0 t0 a b,
  z_local A -> z_linear A -> grid_init d lo hi np (Some nm) true = Ok g0 -> length np = ndims_of d ->
  snd (get_temporal_field (grun g0 h1)) = Ok f1 -> snd (get_temporal_field (grun g0 h2)) = Ok f2 -> snd (get_temporal_field (grun g0 h3)) = Ok f3 ->
  (forall i j n, inb f1 i j n -> at3 f3 i j n = lin a b (at3 f1 i j n) (at3 f2 i j n)) ->
  exists e1 e2 e3, snd (export_to_z A d (grun g0 h1) w (Some z) z0 t0) = Ok e1 /\ snd (export_to_z A d (grun g0 h2) w (Some z) z0 t0) = Ok e2 /\
    snd (export_to_z A d (grun g0 h3) w (Some z) z0 t0) = Ok e3 /\ shp e3 = [dim0 f1; dim1 f1; length z] /\
    forall i j q, inb e3 i j q -> at3 e3 i j q = lin a b (at3 e1 i j q) (at3 e2 i j q).
Proof. exact c78_linear. Qed.
Print Assumptions C78_export_linear.
(** C78: in rt the exported mode i depends on mode i of the field only. *)
Theorem C78_modes :
  forall A lo hi np nm g0 h h' f f' w z z0 t0 i,
  z_local A -> grid_init Rt lo hi np (Some nm) true = Ok g0 -> length np = 2%nat ->
  snd (get_temporal_field (grun g0 h)) = Ok f -> snd (get_temporal_field (grun g0 h')) = Ok f' ->
  (forall j n, (j < dim1 f)%nat -> (n < dim2 f)%nat -> at3 f' i j n = at3 f i j n) ->
  exists e e', snd (export_to_z A Rt (grun g0 h) w (Some z) z0 t0) = Ok e /\ snd (export_to_z A Rt (grun g0 h') w (Some z) z0 t0) = Ok e' /\
    forall j q, at3 e' i j q = at3 e i j q.
Proof. exact c78_modes. Qed.
Print Assumptions C78_modes.
(** C78: a pulse that does not depend on x and y moves without distortion: at time 0, the envelope at z is the envelope that passes
    the plane z = 0 at the time t = -z/c (modulo the length of the time window, as for every discrete Fourier transform). *)
Theorem C78_delay :
  forall A lo hi np nm g0 h f e w z,
  z_local A -> z_spectrum A -> z_plane A -> grid_init Xyt lo hi np (Some nm) true = Ok g0 -> length np = 3%nat -> vget lo 2 < vget hi 2 ->
  snd (get_temporal_field (grun g0 h)) = Ok f -> (forall i j n, inb f i j n -> at3 f i j n = e n) ->
  exists fz, snd (export_to_z A Xyt (grun g0 h) w (Some z) 0 0) = Ok fz /\ shp fz = [dim0 f; dim1 f; length z] /\
    forall i j q n (p : Z), (i < dim0 f)%nat -> (j < dim1 f)%nat -> (q < length z)%nat -> (n < dim2 f)%nat ->
      vget z q = - (c_light * vget (time_axis g0) n) + IZR p * (c_light * (INR (dim2 f) * spacing (vget lo 2) (vget hi 2) (nth 2 np 0%nat))) -> at3 fz i j q = e n.
Proof. exact c78_delay. Qed.
Print Assumptions C78_delay.
(** C78: importing what was exported gives back the field, for any z axis with the step c dt and as many points as times,
    whatever the importing grid held before. *)
Theorem C78_roundtrip :
  forall A lo hi np nm g0 h h' f e w z,
  z_local A -> z_spectrum A -> z_plane A -> grid_init Xyt lo hi np (Some nm) true = Ok g0 -> length np = 3%nat -> vget lo 2 < vget hi 2 ->
  snd (get_temporal_field (grun g0 h)) = Ok f -> (forall i j n, inb f i j n -> at3 f i j n = e n) ->
  steps z (c_light * spacing (vget lo 2) (vget hi 2) (nth 2 np 0%nat)) -> length z = length (time_axis g0) ->
  exists fz b, snd (export_to_z A Xyt (grun g0 h) w (Some z) 0 0) = Ok fz /\ snd (import_from_z A Xyt (grun g0 h') w fz z 0 0) = Ok tt /\
    snd (get_temporal_field (fst (import_from_z A Xyt (grun g0 h') w fz z 0 0))) = Ok b /\ arr_eq f b.
Proof. exact c78_roundtrip. Qed.
Print Assumptions C78_roundtrip.
(** C78: import_from_z is linear in the imported field. *)
Theorem C78_import_linear :
  forall A d lo hi np nm g f1 f2 f3 w z z0 t0 a b,
  z_local A -> z_linear A -> grid_init d lo hi np (Some nm) true = Ok g -> (d = Xyt -> length np = 3%nat) ->
  (2 <= length z)%nat -> shp f1 = firstn 2 (g_shape g) ++ [length z] -> shp f2 = shp f1 -> shp f3 = shp f1 ->
  (forall i j q, inb f1 i j q -> at3 f3 i j q = lin a b (at3 f1 i j q) (at3 f2 i j q)) ->
  exists b1 b2 b3, snd (get_temporal_field (fst (import_from_z A d g w f1 z z0 t0))) = Ok b1 /\ snd (get_temporal_field (fst (import_from_z A d g w f2 z z0 t0))) = Ok b2 /\
    snd (get_temporal_field (fst (import_from_z A d g w f3 z z0 t0))) = Ok b3 /\
    snd (import_from_z A d g w f3 z z0 t0) = Ok tt /\ shp b3 = g_shape g /\
    forall i j n, inb b3 i j n -> at3 b3 i j n = lin a b (at3 b1 i j n) (at3 b2 i j n).
Proof. exact import_linear. Qed.
Print Assumptions C78_import_linear.
(** C78: an import that raises leaves the grid as it was; an import never changes the axes or the box. *)
Theorem C78_import_failure :
  forall A d g w fz z z0 t0,
  (forall e, snd (import_from_z A d g w fz z z0 t0) = Err e -> fst (import_from_z A d g w fz z z0 t0) = g) /\
  let g' := fst (import_from_z A d g w fz z z0 t0) in g_axes g' = g_axes g /\ g_lo g' = g_lo g /\ g_hi g' = g_hi g /\ g_shape g' = g_shape g.
Proof.
  intros A d g w fz z z0 t0. split; [intros e; apply import_error|]. cbn zeta. destruct (import_meta A d g w fz z z0 t0) as (E1&E2&_&E4&_&_&_&E8&_). auto.
Qed.
Print Assumptions C78_import_failure.
(** C78 for any z0, t0: if axiprop treats plane waves with a shift s of the origin, the exported envelope is delayed by s and carries
    the constant phase omega0 (s/c - t0): the phase -omega0 z0/c alone when s = c t0 - z0 (field leaving z0 with the delay t0). *)
Theorem C78_delay_shifted :
  forall A lo hi np nm g0 h f e w z z0 t0 s,
  z_local A -> z_spectrum A -> z_emit A z0 t0 s -> grid_init Xyt lo hi np (Some nm) true = Ok g0 -> length np = 3%nat -> vget lo 2 < vget hi 2 ->
  snd (get_temporal_field (grun g0 h)) = Ok f -> (forall i j n, inb f i j n -> at3 f i j n = e n) ->
  exists fz, snd (export_to_z A Xyt (grun g0 h) w (Some z) z0 t0) = Ok fz /\ shp fz = [dim0 f; dim1 f; length z] /\
    forall i j q n (p : Z), (i < dim0 f)%nat -> (j < dim1 f)%nat -> (q < length z)%nat -> (n < dim2 f)%nat ->
      vget z q + s = - (c_light * vget (time_axis g0) n) + IZR p * (c_light * (INR (dim2 f) * spacing (vget lo 2) (vget hi 2) (nth 2 np 0%nat))) ->
      at3 fz i j q = Cmult (cis (w / c_light * s - w * t0)) (e n).
Proof. exact c78_delay_at. Qed.
Print Assumptions C78_delay_shifted.
(** C78: export with (z0, t0) followed by import with (z1, t1): the pulse comes back delayed by (s - s1)/c, with a constant phase. *)
Theorem C78_roundtrip_shifted :
  forall A lo hi np nm g0 h h' f e w z z0 t0 s z1 t1 s1,
  z_local A -> z_spectrum A -> z_emit A z0 t0 s -> z_record A z1 t1 s1 ->
  grid_init Xyt lo hi np (Some nm) true = Ok g0 -> length np = 3%nat -> vget lo 2 < vget hi 2 ->
  snd (get_temporal_field (grun g0 h)) = Ok f -> (forall i j n, inb f i j n -> at3 f i j n = e n) ->
  steps z (c_light * spacing (vget lo 2) (vget hi 2) (nth 2 np 0%nat)) -> length z = length (time_axis g0) ->
  exists fz b, snd (export_to_z A Xyt (grun g0 h) w (Some z) z0 t0) = Ok fz /\ snd (import_from_z A Xyt (grun g0 h') w fz z z1 t1) = Ok tt /\
    snd (get_temporal_field (fst (import_from_z A Xyt (grun g0 h') w fz z z1 t1))) = Ok b /\ shp b = shp f /\
    forall i j n m (p : Z), inb f i j n -> (m < dim2 f)%nat ->
      c_light * vget (time_axis g0) n + s1 = c_light * vget (time_axis g0) m + s + IZR p * (c_light * (INR (dim2 f) * spacing (vget lo 2) (vget hi 2) (nth 2 np 0%nat))) ->
      at3 b i j n = Cmult (cis (w / c_light * (s - s1) + w * (z1 / c_light - t0))) (e m).
Proof. exact c78_roundtrip_at. Qed.
Print Assumptions C78_roundtrip_shifted.
(** C78: a z axis with fewer than two points or of another length than the field is rejected, and the grid kept. *)
Theorem C78_import_checks :
  forall A d g w fz z z0 t0,
  ((length z < 2)%nat -> import_from_z A d g w fz z z0 t0 = (g, Err IndexError)) /\
  ((2 <= length z)%nat -> dim2 fz <> length z -> import_from_z A d g w fz z z0 t0 = (g, Err ValueError)).
Proof. exact import_checks. Qed.
Print Assumptions C78_import_checks.
Example C78_shifts : forall z0 t0, z_emit flat_axiprop z0 t0 (c_light * t0 - z0) /\ z_record flat_axiprop z0 t0 (- (z0 + c_light * t0)).
Proof. intros z0 t0. split; [apply flat_emit|apply flat_record]. Qed.
(** The contracts are met by axiprop without diffraction; the hypotheses hold for a chirp on a 2 x 2 x 3 grid. *)
Example C78_contracts : z_local flat_axiprop /\ z_linear flat_axiprop /\ z_spectrum flat_axiprop /\ z_plane flat_axiprop.
Proof. split; [exact flat_local|]. split; [exact flat_linear|]. split; [exact flat_spectrum|exact flat_plane]. Qed.
Example C78_nonvacuous :
  let a := mkArr [2;2;3]%nat Complex128 (fun _ _ n => cis (INR n ^ 2)) in
  exists g0 f, grid_init Xyt [0;0;0] [1;1;2] [2;2;3]%nat (Some 1%Z) true = Ok g0 /\ vget [0;0;0] 2 < vget [1;1;2] 2 /\
    snd (get_temporal_field (grun g0 [SetT a])) = Ok f /\ (forall i j n, inb f i j n -> at3 f i j n = cis (INR n ^ 2)) /\
    steps (map (fun t => t * c_light) (time_axis g0)) (c_light * spacing 0 2 3) /\ length (map (fun t => t * c_light) (time_axis g0)) = length (time_axis g0).
Proof.
  cbn zeta. set (a := mkArr [2;2;3]%nat Complex128 (fun _ _ n => cis (INR n ^ 2))).
  assert (Hex : exists g, grid_init Xyt [0;0;0] [1;1;2] [2;2;3]%nat (Some 1%Z) true = Ok g).
  { apply grid_init_ok_iff. split; [discriminate|]. split; [reflexivity|]. split; [reflexivity|]. split; [|discriminate].
    cbn [ndims_of]. intros q Hq. destruct q as [|[|[|q]]]; [| | |lia]; eexists; (split; [reflexivity|lia]). }
  destruct Hex as (g0 & Hg). exists g0, a. split; [exact Hg|]. split; [unfold vget; simpl; lra|].
  pose proof (grid_init_CohG _ _ _ _ _ _ Hg) as Hc.
  destruct (set_t_ok g0 a (proj1 Hc)) as (R1 & R2 & _); [|reflexivity|].
  { unfold a; cbn [shp]. symmetry. apply (FullSpectrumProofs.grid_init_shape _ _ _ _ _ _ _ Hg). reflexivity. }
  split; [exact R2|]. split; [intros; reflexivity|]. split; [|rewrite map_length; reflexivity].
  assert (Hlt : nth 2 [0;0;0] 0 < nth 2 [1;1;2] 0) by (simpl; lra). pose proof (grid_steps _ _ _ _ _ _ _ Hg Hlt) as (S1 & S2 & S3). cbn [nth ndims_of Nat.sub] in *. pose proof c_light_pos as Pc.
  split; [rewrite map_length; exact S1|]. split; [apply Rmult_lt_0_compat; assumption|]. intros i Hi. rewrite map_length in Hi. unfold vget.
  rewrite !(nth_indep (map _ _) 0 (0 * c_light)) by (rewrite map_length; lia). rewrite !(map_nth (fun t => t * c_light)). specialize (S3 i Hi). unfold vget in S3. rewrite <- S3. ring.
Qed.
