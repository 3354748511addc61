(** Property theorems C30-C37 and C56 (analysis and plotting functions). *)
From Coq Require Import Sorting.Sorted.
From Verif Require Import PyBase CSum NpFFT NumPy NpMath NpMathProofs GridModel GridSpec LaserSpec GridObs EnergyModel LaserModel OpticsModel LaserOps
  LaserInv LaserInitProofs HistoryProofs LaserExamples AnalysisModel AnalysisSpec AnalysisExamples
  PlotProofs SpectrumProofs DurationProofs FrequencyProofs FrequencyMean CreateGridProofs FrequencyExamples ReadOnlyProofs.
Open Scope R_scope.

(** C30, what holds: rows above the axis show the field at angle theta; rows below show it at -theta. *)
Theorem C30_planes_partial :
  forall S L theta s sa,
  reachable S L -> l_dim L = Rt ->
  exists M a n1 nt im,
    (1 <= M)%nat /\ (2 <= n1)%nat /\ snd (get_temporal_field (l_grid L)) = Ok a /\ shp a = [(2 * M - 1)%nat; n1; nt] /\
    snd (get_full_field L theta s sa) =
      Ok (Some (im, [lastR (g_lo (l_grid L)); lastR (g_hi (l_grid L)); - vget (g_hi (l_grid L)) 0; vget (g_hi (l_grid L)) 0])) /\
    shp im = [(2 * n1 - 1)%nat; nt] /\
    let carrier k z := RtoC (Re (Cmult z (cis (- (p_omega0 (l_prof L) * vget (time_axis (l_grid L)) k))))) in
    (forall j k, (j < n1)%nat -> at3 im (n1 - 1 + j) k 0 = carrier k (recon M (comp M a j k) theta)) /\
    (forall j k, (1 <= j < n1)%nat -> at3 im (n1 - 1 - j) k 0 = carrier k (recon M (comp M a j k) (- theta))).
Proof. exact full_rt. Qed.
Print Assumptions C30_planes_partial.
(** -theta is the right plane (theta + pi) when cos theta = 0 or for a single mode. *)
Theorem C30_below_partial :
  forall M E theta,
  cos theta = 0 \/ M = 1%nat -> recon M E (- theta) = recon M E (theta + PI).
Proof. exact full_rt_below. Qed.
Print Assumptions C30_below_partial.
(** REFUTED otherwise: at theta = 0 the lower half of a vortex beam is not the field at angle pi. *)
Theorem C30_refuted :
  exists L a im ext,
  laser_init Rt [0;0] [2;1] [4;5]%nat ex_vortex 2 None = Ok L /\ snd (get_temporal_field (l_grid L)) = Ok a /\
  snd (get_full_field L 0 0 SliceX) = Ok (Some (im, ext)) /\ shp im = [7;5]%nat /\
  at3 im 0 0 0 <> RtoC (Re (Cmult (recon 2 (comp 2 a 3 0) (0 + PI))
                     (cis (- (p_omega0 (l_prof L) * vget (time_axis (l_grid L)) 0))))).
Proof. exact full_rt_refuted. Qed.
Print Assumptions C30_refuted.
(** C31 *)
Theorem C31_show :
  forall S L,
  reachable S L -> l_dim L = Rt ->
  exists M a n1 nt im,
    (1 <= M)%nat /\ snd (get_temporal_field (l_grid L)) = Ok a /\ shp a = [(2 * M - 1)%nat; n1; nt] /\
    snd (show_image L) =
      Ok (im, [lastR (g_lo (l_grid L)); lastR (g_hi (l_grid L)); - vget (g_hi (l_grid L)) 0; vget (g_hi (l_grid L)) 0]) /\
    shp im = [(2 * n1)%nat; nt] /\
    forall j k, (j < n1)%nat ->
      at3 im (n1 + j) k 0 = RtoC (Cmod (recon M (comp M a j k) 0)) /\
      at3 im (n1 - 1 - j) k 0 = RtoC (Cmod (recon M (comp M a j k) PI)).
Proof. exact show_rt. Qed.
Print Assumptions C31_show.
Example C30_C31_nonvacuous : exists L a, laser_init Rt [0;-3] [2;4] [4;5]%nat ex_vortex 2 None = Ok L /\ reachable id_solvers L /\
  l_dim L = Rt /\ snd (get_temporal_field (l_grid L)) = Ok a /\ at3 a 1 3 0 = RtoC 2.
Proof.
  destruct vortex_field as (L & a & HL & Ha & _ & HD & _ & _ & _ & Hv). exists L, a. split; [exact HL|].
  split; [apply (reachable_init id_solvers _ _ _ _ _ _ _ L [] HL); constructor|]. split; [exact HD|]. split; [exact Ha|].
  destruct (Hv 3%nat 0%nat ltac:(lia) ltac:(lia)) as (_ & -> & _). f_equal. unfold coord. simpl. field.
Qed.
(** C32, what holds: the slice is taken at index floor((1+s)(N/2-1)), the middle one for s = 0; slice_axis="y" has the right extent. *)
Theorem C32_slices_partial :
  forall S L theta s,
  reachable S L -> l_dim L = Xyt -> -1/2 <= s <= 1/2 ->
  exists a n0 n1 nt,
    snd (get_temporal_field (l_grid L)) = Ok a /\ shp a = [n0; n1; nt] /\
    let carrier k z := RtoC (Re (Cmult z (cis (- (p_omega0 (l_prof L) * vget (time_axis (l_grid L)) k))))) in
    let ext := [lastR (g_lo (l_grid L)); lastR (g_hi (l_grid L)); vget (g_lo (l_grid L)) 0; vget (g_hi (l_grid L)) 0] in
    (exists q im, (q < n1)%nat /\ INR q <= (1 + s) * IZR (Z.of_nat n1 / 2 - 1) < INR q + 1 /\
       (s = 0 -> q = (n1 / 2 - 1)%nat) /\
       snd (get_full_field L theta s SliceY) = Ok (Some (im, ext)) /\ shp im = [n0; nt] /\
       forall i k, at3 im i k 0 = carrier k (at3 a i q k)) /\
    ((2 <= n0)%nat -> exists q im, (q < n0)%nat /\ INR q <= (1 + s) * IZR (Z.of_nat n0 / 2 - 1) < INR q + 1 /\
       (s = 0 -> q = (n0 / 2 - 1)%nat) /\
       snd (get_full_field L theta s SliceX) = Ok (Some (im, ext)) /\ shp im = [n1; nt] /\
       forall j k, at3 im j k 0 = carrier k (at3 a q j k)) /\
    snd (get_full_field L theta s SliceOther) = Ok None.
Proof. exact full_xyt. Qed.
Print Assumptions C32_slices_partial.
(** REFUTED: s = +-1/2 are not the edges. *)
Theorem C32_edges_refuted :
  forall N q,
  (6 <= N)%nat ->
  (py_index N (slice_index N (1/2)) = Some q -> (q < N - 1)%nat) /\
  (py_index N (slice_index N (-1/2)) = Some q -> (0 < q)%nat).
Proof. exact slice_index_edges. Qed.
Print Assumptions C32_edges_refuted.
(** REFUTED: with slice_axis="x" the extent is that of x although the data runs along y. *)
Theorem C32_extent_refuted :
  exists L im ext,
  laser_init Xyt [-1;-2;-3] [1;2;4] [4;3;5]%nat (ex_prof None) 1 None = Ok L /\
  snd (get_full_field L 0 0 SliceX) = Ok (Some (im, ext)) /\ shp im = [3; 5]%nat /\
  vget ext 2 <> vget (nth 1 (g_axes (l_grid L)) []) 0 /\ vget ext 3 <> last (nth 1 (g_axes (l_grid L)) []) 0.
Proof. exact full_xyt_extent_refuted. Qed.
Print Assumptions C32_extent_refuted.
Example C32_nonvacuous : exists L, laser_init Xyt [-1;-2;-3] [1;2;4] [4;3;5]%nat (ex_prof None) 1 None = Ok L /\ reachable id_solvers L.
Proof. destruct (ex_xyt None I) as (L & HL). exists L. split; [exact HL|]. apply (reachable_init id_solvers _ _ _ _ _ _ _ L [] HL); constructor. Qed.
(** C33, xyt: after any history. *)
Theorem C33_xyt :
  forall S lo hi n0 n1 nt p nm nte L0 h w0,
  laser_init Xyt lo hi [n0;n1;nt] p nm nte = Ok L0 ->
  nth 0 lo 0 < nth 0 hi 0 -> nth 1 lo 0 < nth 1 hi 0 -> nth 2 lo 0 < nth 2 hi 0 ->
  let L := lrun S L0 h in
  let dw := 2 * PI / (INR nt * spacing (nth 2 lo 0) (nth 2 hi 0) nt) in
  let om i := w0 + dw * (INR i - INR ((nt - 1) / 2)) in
  exists l e, snd (get_spectrum_sum Xyt (l_grid L) (Some w0)) = Ok l /\
    snd (compute_laser_energy Xyt (l_grid L)) = Ok e /\
    StronglySorted om_lt l /\ (forall x, In x l -> 0 <= fst x /\ 0 <= snd x) /\ lsum l * dw <= e /\
    ((forall i, (i < nt)%nat -> 0 <= om i) ->
       length l = nt /\ (forall i, (i < nt)%nat -> fst (nth i l (0, 0)) = om i) /\ lsum l * dw = e).
Proof. exact c33_xyt. Qed.
Print Assumptions C33_xyt.
(** C33, rt: the spectrum only accounts for the energy of mode 0 (all of it when there is one mode). *)
Theorem C33_rt_partial :
  forall S lo hi n1 nt p (M : nat) nte L0 h w0,
  laser_init Rt lo hi [n1;nt] p (Z.of_nat M) nte = Ok L0 -> Forall no_resample h ->
  0 <= nth 0 lo 0 -> nth 0 lo 0 < nth 0 hi 0 -> nth 1 lo 0 < nth 1 hi 0 ->
  let L := lrun S L0 h in
  let dw := 2 * PI / (INR nt * spacing (nth 1 lo 0) (nth 1 hi 0) nt) in
  let om i := w0 + dw * (INR i - INR ((nt - 1) / 2)) in
  exists l e a, snd (get_spectrum_sum Rt (l_grid L) (Some w0)) = Ok l /\
    snd (compute_laser_energy Rt (l_grid L)) = Ok e /\ snd (get_temporal_field (l_grid L)) = Ok a /\
    StronglySorted om_lt l /\ (forall x, In x l -> 0 <= fst x /\ 0 <= snd x) /\
    lsum l * dw <= E_rt lo hi 1 n1 nt (at3 a) /\
    ((forall i, (i < nt)%nat -> 0 <= om i) ->
       length l = nt /\ (forall i, (i < nt)%nat -> fst (nth i l (0, 0)) = om i) /\
       lsum l * dw = E_rt lo hi 1 n1 nt (at3 a) /\ (M = 1%nat -> lsum l * dw = e)).
Proof. exact c33_rt. Qed.
Print Assumptions C33_rt_partial.
Theorem C33_omega0_required :
  forall d g a,
  snd (get_temporal_field g) = Ok a -> snd (get_spectrum_sum d g None) = Err AssertionError.
Proof. exact c33_no_omega0. Qed.
Print Assumptions C33_omega0_required.
(** REFUTED with several modes: a vortex has a zero spectrum and a positive energy. *)
Theorem C33_rt_refuted :
  exists L e,
  laser_init Rt [0;-3] [2;4] [4;5]%nat ex_vortex 2 None = Ok L /\
  snd (compute_laser_energy Rt (l_grid L)) = Ok e /\ 0 < e /\
  forall w0 l, snd (get_spectrum_sum Rt (l_grid L) (Some w0)) = Ok l -> forall x, In x l -> snd x = 0.
Proof. exact c33_rt_refuted. Qed.
Print Assumptions C33_rt_refuted.
Example C33_nonvacuous : exists L w0, laser_init Xyt [-1;-2;-3] [1;2;4] [4;3;5]%nat (ex_prof None) 1 None = Ok L /\
  forall i, (i < 5)%nat -> 0 <= w0 + 2 * PI / (INR 5 * spacing (-3) 4 5) * (INR i - INR ((5 - 1) / 2)).
Proof.
  destruct (ex_xyt None I) as (L & HL). exists L, (2 * (2 * PI / (INR 5 * spacing (-3) 4 5))). split; [exact HL|].
  intros i _. change ((5 - 1) / 2)%nat with 2%nat.
  assert (H : 0 < 2 * PI / (INR 5 * spacing (-3) 4 5)).
  { pose proof PI_RGT_0. apply Rdiv_lt_0_compat; [lra|]. unfold spacing. simpl. lra. }
  pose proof (pos_INR i). generalize dependent (2 * PI / (INR 5 * spacing (-3) 4 5)). intros q Hq. simpl (INR 2). nra.
Qed.
(** C34: value, range, and zero iff a single time carries energy. *)
Theorem C34_values :
  forall d g a,
  tread g = Ok a -> (forall j, (j < dim1 a)%nat -> 0 <= cell_volume d g j) ->
  (forall i j, (i < j < dim2 a)%nat -> vget (time_axis g) i < vget (time_axis g) j) ->
  let w k := rsum (dim0 a) (fun i => rsum (dim1 a) (fun j => Cnorm2 (at3 a i j k) * cell_volume d g j)) in
  (rsum (dim2 a) w = 0 -> snd (get_duration d g) = Err OtherException) /\
  (rsum (dim2 a) w <> 0 -> exists s, snd (get_duration d g) = Ok s /\ 0 <= s /\
     s <= vget (time_axis g) (dim2 a - 1) - vget (time_axis g) 0 /\
     (let m := rsum (dim2 a) (fun k => vget (time_axis g) k * w k) / rsum (dim2 a) w in
      s ^ 2 = rsum (dim2 a) (fun k => (vget (time_axis g) k - m) ^ 2 * w k) / rsum (dim2 a) w) /\
     (s = 0 <-> exists k0, (k0 < dim2 a)%nat /\ 0 < w k0 /\ forall k, (k < dim2 a)%nat -> k <> k0 -> w k = 0)).
Proof. exact duration_values. Qed.
Print Assumptions C34_values.
(** C34: rescaled field (any c <> 0), time axis t -> s t + tau. *)
Theorem C34_affine :
  forall d g g' a b c u s tau,
  tread g = Ok a -> tread g' = Ok b -> is_scaled c a b -> c <> RtoC 0 ->
  0 <= s -> u <> 0 -> (forall k, (k < dim2 a)%nat -> vget (time_axis g') k = s * vget (time_axis g) k + tau) ->
  (forall j, (j < dim1 a)%nat -> cell_volume d g' j = u * cell_volume d g j) ->
  snd (get_duration d g') = do x <- snd (get_duration d g); Ok (s * x).
Proof. exact c34_affine. Qed.
Print Assumptions C34_affine.
Theorem C34_scale :
  forall d g g' a b c,
  same_meta g g' -> tread g = Ok a -> tread g' = Ok b -> is_scaled c a b -> c <> RtoC 0 ->
  snd (get_duration d g') = snd (get_duration d g).
Proof. exact c34_scale. Qed.
Print Assumptions C34_scale.
(** A grid with constant field: the hypotheses of C34 hold and the duration is sqrt(2/3) (times 0, 1, 2). *)
Example C34_nonvacuous : exists g a, tread g = Ok a /\ (forall j, (j < dim1 a)%nat -> 0 <= cell_volume Xyt g j) /\
  (forall i j, (i < j < dim2 a)%nat -> vget (time_axis g) i < vget (time_axis g) j) /\ snd (get_duration Xyt g) = Ok (sqrt (2 / 3)).
Proof. exact c34_example. Qed.
(** C35: bounds. *)
Theorem C35_bounds :
  forall g d hb w0 lb ub om c f,
  tread g = Ok f ->
  snd (get_frequency g d hb w0 lb ub) = Ok (om, c) -> 0 < c -> lb <= ub ->
  shp om = (if g_isenv g then shp f else filter (fun n => negb (Nat.eqb n 1)) (shp f)) /\
  forall i j k, exists w, at3 om i j k = RtoC w /\ lb * c <= w <= ub * c.
Proof. exact c35_bounds. Qed.
Print Assumptions C35_bounds.
(** C35: exactness on monochromatic envelopes. *)
Theorem C35_monochromatic :
  forall g d hb f w0 lb ub delta dt A,
  tread g = Ok f -> g_isenv g = true -> (3 <= dim2 f)%nat ->
  (forall q, (S q < dim2 f)%nat -> vget (time_axis g) (S q) - vget (time_axis g) q = dt) -> 0 < dt ->
  Rabs delta * dt < PI ->
  (forall i j k, inb f i j k -> at3 f i j k = Cmult (A i j) (cis (- (delta * vget (time_axis g) k)))) ->
  (exists i j, (i < dim0 f)%nat /\ (j < dim1 f)%nat /\ A i j <> RtoC 0) ->
  exists om, snd (get_frequency g d hb (Some w0) lb ub) = Ok (om, w0 + delta) /\ shp om = shp f /\
    (0 <= w0 + delta -> lb <= 1 <= ub -> forall i j k, inb f i j k -> A i j <> RtoC 0 -> at3 om i j k = RtoC (w0 + delta)).
Proof. exact c35_mono. Qed.
Print Assumptions C35_monochromatic.
(** C35: a linearly chirped envelope: the local frequency is carrier + delta + beta t at every sample, edges
    included, on any increasing time axis; the central frequency is its amplitude-weighted mean; values
    beyond the bounds are replaced by the bound. *)
Theorem C35_chirp :
  forall g d hb f w0 lb ub a p0 delta beta,
  tread g = Ok f -> g_isenv g = true -> (3 <= dim2 f)%nat ->
  (forall q, (S q < dim2 f)%nat -> vget (time_axis g) q < vget (time_axis g) (S q)) ->
  chirped f (vget (time_axis g)) a p0 delta beta -> some_nonzero f ->
  let om0 i j k := w0 + delta i j + beta i j * vget (time_axis g) k in
  exists om c, snd (get_frequency g d hb (Some w0) lb ub) = Ok (om, c) /\ shp om = shp f /\
    c * rsum3 (dim0 f) (dim1 f) (dim2 f) a = rsum3 (dim0 f) (dim1 f) (dim2 f) (fun i j k => om0 i j k * a i j k) /\
    (lb * c <= ub * c -> forall i j k, inb f i j k -> a i j k <> 0 -> exists w, at3 om i j k = RtoC w /\
       (lb * c <= om0 i j k <= ub * c -> w = om0 i j k) /\ (om0 i j k <= lb * c -> w = lb * c) /\ (ub * c <= om0 i j k -> w = ub * c)).
Proof. exact c35_chirp. Qed.
Print Assumptions C35_chirp.
Example C35_chirp_nonvacuous : exists g f, tread g = Ok f /\ g_isenv g = true /\ (3 <= dim2 f)%nat /\
  (forall q, (S q < dim2 f)%nat -> vget (time_axis g) q < vget (time_axis g) (S q)) /\
  chirped f (vget (time_axis g)) (fun _ _ k => 1 + INR k) (fun _ _ => 1) (fun _ _ => / 2) (fun _ _ => / 2) /\ some_nonzero f.
Proof. exact chirp_example. Qed.
(** C35: wherever no value is clipped, the central frequency is the mean of the returned local frequencies,
    weighted by the amplitude (for a non-envelope rt field: by r times the amplitude). *)
Theorem C35_mean :
  forall g d hb w0 lb ub om c f,
  tread g = Ok f -> snd (get_frequency g d hb w0 lb ub) = Ok (om, c) ->
  let entry := if g_isenv g then at3 om else squeezed_entry f om in
  let W i j k := (if g_isenv g then 1 else match d with Rt => vget (nth 0 (g_axes g) []) j | _ => 1 end) * Cmod (at3 f i j k) in
  (forall i j k, inb f i j k -> exists w, entry i j k = RtoC w /\ lb * c < w < ub * c) ->
  rsum3 (dim0 f) (dim1 f) (dim2 f) W <> 0 /\
  c * rsum3 (dim0 f) (dim1 f) (dim2 f) W = rsum3 (dim0 f) (dim1 f) (dim2 f) (fun i j k => Re (entry i j k) * W i j k).
Proof. exact c35_mean. Qed.
Print Assumptions C35_mean.
Example C35_mean_nonvacuous : exists g f om, tread g = Ok f /\ g_isenv g = false /\ shp f = [1;2;3]%nat /\
  snd (get_frequency g Rt true None (-2) 4) = Ok (om, PI / 2) /\
  (forall i j k, inb f i j k -> exists w, squeezed_entry f om i j k = RtoC w /\ -2 * (PI / 2) < w < 4 * (PI / 2)).
Proof. exact real_rt_example. Qed.
Example C35_nonvacuous : exists g f, tread g = Ok f /\ g_isenv g = true /\ (3 <= dim2 f)%nat /\
  (forall q, (S q < dim2 f)%nat -> vget (time_axis g) (S q) - vget (time_axis g) q = 1) /\
  (forall i j k, inb f i j k -> at3 f i j k = Cmult (RtoC 2) (cis (- (/ 2 * vget (time_axis g) k)))) /\
  (0 < dim0 f)%nat /\ (0 < dim1 f)%nat /\ Rabs (/ 2) * 1 < PI.
Proof. exact c35_example. Qed.
(** C36. The hypotheses: increasing times; every transverse point dark throughout or with a well-defined unwrapped phase; no returned frequency at a bound; all of them within a factor 5 (so that none is clipped on the way back either). *)
Theorem C36_roundtrip :
  forall g g' f w0 W om c,
  tread g = Ok f -> g_isenv g = true -> same_meta g g' ->
  (forall q, (S q < dim2 f)%nat -> vget (time_axis g) q < vget (time_axis g) (S q)) ->
  phase_ok f -> 0 < W ->
  snd (get_frequency g OtherDim false (Some w0) (/ 5) 5) = Ok (om, c) ->
  (forall i j k, inb f i j k -> exists w, at3 om i j k = RtoC w /\ / 5 * c < w < 5 * c /\ W <= w <= 5 * W) ->
  exists a, snd (field_to_vector_potential g w0) = Ok a /\ shp a = shp f /\
    (forall a', arr_eq a a' -> tread g' = Ok a' ->
     exists f', snd (vector_potential_to_field g' w0 false) = Ok f' /\ arr_eq f' (mkArr (shp f) Complex128 (at3 f))).
Proof. exact c36_api. Qed.
Print Assumptions C36_roundtrip.
Example C36_nonvacuous : exists g f om c W, tread g = Ok f /\ g_isenv g = true /\
  (forall q, (S q < dim2 f)%nat -> vget (time_axis g) q < vget (time_axis g) (S q)) /\ phase_ok f /\ some_nonzero f /\ 0 < W /\
  snd (get_frequency g OtherDim false (Some 3) (/ 5) 5) = Ok (om, c) /\
  (forall i j k, inb f i j k -> exists w, at3 om i j k = RtoC w /\ / 5 * c < w < 5 * c /\ W <= w <= 5 * W).
Proof. exact c36_example. Qed.
(** C37, what holds: Cartesian data on uniform axes is accepted and kept. *)
Theorem C37_create_xyt_partial :
  forall a ax ay at_ isenv,
  uniform ax -> uniform ay -> uniform at_ ->
  shp a = [length ax; length ay; length at_] -> dty a = dtype_of_env isenv ->
  (isenv = false -> forall i j k, Im (at3 a i j k) = 0) ->
  exists g b, create_grid Xyt a [ax; ay; at_] isenv = Ok g /\ g_axes g = [ax; ay; at_] /\ g_isenv g = isenv /\
    g_dx g = [vget ax 1 - vget ax 0; vget ay 1 - vget ay 0; vget at_ 1 - vget at_ 0] /\
    g_shape g = shp a /\ g_dtype g = dtype_of_env isenv /\ shp (g_tf g) = shp a /\
    tread g = Ok b /\ arr_eq a b.
Proof. exact c37_create_xyt. Qed.
Print Assumptions C37_create_xyt_partial.
(** REFUTED: the 2-D arrays reorder_array returns for cylindrical data are never accepted. *)
Theorem C37_create_rt_refuted :
  forall a ax h nl isenv,
  shp a = [h; nl] -> exists e, create_grid Rt a ax isenv = Err e.
Proof. exact c37_create_rt. Qed.
Print Assumptions C37_create_rt_refuted.
(** REFUTED: for A(x,y) cos(w (t - t_mid)), whatever w, field_to_envelope reports the central frequency 0 (for every Hilbert transform). *)
Theorem C37_frequency_refuted :
  forall hilb ax ay at_ A w a,
  uniform ax -> uniform ay -> uniform at_ -> (3 <= length at_)%nat -> vget at_ 0 <> last at_ 0 ->
  shp a = [length ax; length ay; length at_] -> dty a = Float64 ->
  (forall i j k, at3 a i j k = RtoC (A i j * cos (w * (vget at_ k - (vget at_ 0 + last at_ 0) / 2)))) -> some_nonzero a ->
  exists g, create_grid Xyt a [ax; ay; at_] false = Ok g /\ snd (field_to_envelope hilb Xyt g) = Ok 0.
Proof. exact c37_frequency_zero. Qed.
Print Assumptions C37_frequency_refuted.
Example C37_nonvacuous : exists a, uniform [0;1] /\ uniform [0;1;2] /\ vget [0;1;2] 0 <> last [0;1;2] 0 /\ shp a = [2;2;3]%nat /\ dty a = Float64 /\
  (forall i j k, at3 a i j k = RtoC (1 * cos (1 * (vget [0;1;2] k - (vget [0;1;2] 0 + last [0;1;2] 0) / 2)))) /\ some_nonzero a.
Proof. exact c37_example. Qed.

(** C56: the analysis functions leave the grid as it was, for every query. *)
Theorem C56_grid :
  forall g,
  (forall d, same_contents g (fst (compute_laser_energy d g))) /\
  (forall d w, same_contents g (fst (get_spectrum_sum d g w))) /\
  (forall d h w lb ub, same_contents g (fst (get_frequency g d h w lb ub))) /\
  (forall d, same_contents g (fst (get_duration d g))) /\
  (forall w, same_contents g (fst (field_to_vector_potential g w))) /\
  (forall w b, same_contents g (fst (vector_potential_to_field g w b))).
Proof. exact c56_grid. Qed.
Print Assumptions C56_grid.
(** C56: so do get_full_field and show. *)
Theorem C56_laser :
  forall L,
  (forall theta s sa, let L' := fst (get_full_field L theta s sa) in
     l_prof L' = l_prof L /\ l_dim L' = l_dim L /\ same_contents (l_grid L) (l_grid L')) /\
  (let L' := fst (show_image L) in l_prof L' = l_prof L /\ l_dim L' = l_dim L /\ same_contents (l_grid L) (l_grid L')).
Proof. exact c56_laser. Qed.
Print Assumptions C56_laser.
Example C56_nonvacuous : exists g f om c, tread g = Ok f /\ some_nonzero f /\ snd (get_frequency g OtherDim false (Some 3) (/ 5) 5) = Ok (om, c) /\
  tread (fst (get_frequency g OtherDim false (Some 3) (/ 5) 5)) = Ok f.
Proof.
  destruct c36_example as (g & f & om & c & W & Hf & _ & _ & _ & Hz & _ & Hfr & _). exists g, f, om, c. split; [exact Hf|]. split; [exact Hz|].
  split; [exact Hfr|]. destruct (c56_grid g) as (_ & _ & H & _). destruct (H OtherDim false (Some 3) (/ 5) 5) as (_ & -> & _). exact Hf.
Qed.
