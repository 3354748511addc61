(** Property theorems C46-C49, C59, C60 (profiles made from arrays and measured data). *)
From Verif Require Import PyBase CSum NumPy NpFFT NpMath NpMathProofs GridModel GridSpec AnalysisModel LaserSpec LaserModel ProfileModel FromArrayModel FromArrayProofs FromArraySpec FromArrayProps
  DataModel DataProofs MomentProofs TransDataProofs SpectralSpec SpectralDataProofs SpectralProps.
Open Scope R_scope.

(** C46, axes_order ['x','y','t']: exact at the nodes. *)
Theorem C46_nodes_partial :
  forall wl pol a xs ys ts p,
  from_array_xyt wl pol a xs ys ts SpaceTime = Ok p ->
  (2 <= length xs)%nat -> (2 <= length ys)%nat -> (2 <= length ts)%nat ->
  forall i j k, (i < length xs)%nat -> (j < length ys)%nat -> (k < length ts)%nat ->
    p_eval p (vget xs i) (vget ys j) (vget ts k) = at3 a i j k.
Proof. exact c46_nodes. Qed.
Print Assumptions C46_nodes_partial.
(** C46: zero outside the data. *)
Theorem C46_outside_partial :
  forall wl pol a xs ys ts p o,
  from_array_xyt wl pol a xs ys ts o = Ok p ->
  forall x y t, beyond xs x \/ beyond ys y \/ beyond ts t -> p_eval p x y t = RtoC 0.
Proof. exact c46_outside. Qed.
Print Assumptions C46_outside_partial.
(** C46: between the nodes the modulus stays between those of the corners of the cell. *)
Theorem C46_between_partial :
  forall wl pol a xs ys ts p o,
  from_array_xyt wl pol a xs ys ts o = Ok p ->
  forall i j k x y t lo hi, between_nodes xs i x -> between_nodes ys j y -> between_nodes ts k t -> 0 <= lo ->
    (forall di dj dk, (di < 2)%nat -> (dj < 2)%nat -> (dk < 2)%nat -> lo <= Cmod (at3 a (i + di) (j + dj) (k + dk)) <= hi) ->
    lo <= Cmod (p_eval p x y t) <= hi.
Proof. exact c46_between. Qed.
Print Assumptions C46_between_partial.
(** C46: between two time samples at a transverse node, modulus and phase are interpolated linearly, the phase along the shorter way round. *)
Theorem C46_time_partial :
  forall wl pol a xs ys ts p,
  from_array_xyt wl pol a xs ys ts SpaceTime = Ok p ->
  (2 <= length xs)%nat -> (2 <= length ys)%nat ->
  forall i j k t r0 r1 th s, (i < length xs)%nat -> (j < length ys)%nat -> between_nodes ts k t ->
    0 < r0 -> 0 < r1 -> - PI < s < PI -> at3 a i j k = Cmult (RtoC r0) (cis th) -> at3 a i j (S k) = Cmult (RtoC r1) (cis (th + s)) ->
    let lam := (t - vget ts k) / (vget ts (S k) - vget ts k) in
    p_eval p (vget xs i) (vget ys j) t = Cmult (RtoC ((1 - lam) * r0 + lam * r1)) (cis (th + lam * s)).
Proof. exact c46_time. Qed.
Print Assumptions C46_time_partial.
Theorem C46_rt_time_partial :
  forall wl pol a rs ts p,
  from_array_rt wl pol a rs ts SpaceTime = Ok p ->
  (2 <= length rs)%nat ->
  forall i k x y t r0 r1 th s, (i < length rs)%nat -> sqrt (x ^ 2 + y ^ 2) = vget rs i -> between_nodes ts k t ->
    0 < r0 -> 0 < r1 -> - PI < s < PI -> at3 a i k 0%nat = Cmult (RtoC r0) (cis th) -> at3 a i (S k) 0%nat = Cmult (RtoC r1) (cis (th + s)) ->
    let lam := (t - vget ts k) / (vget ts (S k) - vget ts k) in
    p_eval p x y t = Cmult (RtoC ((1 - lam) * r0 + lam * r1)) (cis (th + lam * s)).
Proof. exact c46_rt_time. Qed.
Print Assumptions C46_rt_time_partial.
(** C46, dim 'rt'. *)
Theorem C46_rt_nodes_partial :
  forall wl pol a rs ts p,
  from_array_rt wl pol a rs ts SpaceTime = Ok p ->
  (2 <= length rs)%nat -> (2 <= length ts)%nat ->
  forall i k x y, (i < length rs)%nat -> (k < length ts)%nat -> sqrt (x ^ 2 + y ^ 2) = vget rs i ->
    p_eval p x y (vget ts k) = at3 a i k 0%nat.
Proof. exact c46_rt_nodes. Qed.
Print Assumptions C46_rt_nodes_partial.
Theorem C46_rt_outside_partial :
  forall wl pol a rs ts p,
  from_array_rt wl pol a rs ts SpaceTime = Ok p -> (2 <= length rs)%nat -> 0 <= vget rs 0 ->
  forall x y t, (forall i, (i < length rs)%nat -> vget rs i < sqrt (x ^ 2 + y ^ 2)) \/ beyond ts t -> p_eval p x y t = RtoC 0.
Proof. exact c46_rt_outside. Qed.
Print Assumptions C46_rt_outside_partial.
Theorem C46_rt_between_partial :
  forall wl pol a rs ts p,
  from_array_rt wl pol a rs ts SpaceTime = Ok p ->
  forall i k x y t lo hi, between_nodes rs i (sqrt (x ^ 2 + y ^ 2)) -> between_nodes ts k t -> 0 <= lo ->
    (forall di dk, (di < 2)%nat -> (dk < 2)%nat -> lo <= Cmod (at3 a (i + di) (k + dk) 0%nat) <= hi) ->
    lo <= Cmod (p_eval p x y t) <= hi.
Proof. exact c46_rt_between. Qed.
Print Assumptions C46_rt_between_partial.
(** C46: closer to the axis than the first radius, the data of the first radius. *)
Theorem C46_rt_axis_partial :
  forall wl pol a rs ts p,
  from_array_rt wl pol a rs ts SpaceTime = Ok p -> (2 <= length rs)%nat ->
  forall x y t, sqrt (x ^ 2 + y ^ 2) <= vget rs 0 -> p_eval p x y t = p_eval p (vget rs 0) 0 t.
Proof. exact c46_rt_axis. Qed.
Print Assumptions C46_rt_axis_partial.
(** REFUTED for axes_order ['t','y','x']: the array is read as if it were in the order x, y, t ... *)
Theorem C46_time_first_refuted :
  forall wl pol a xs ys ts p,
  from_array_xyt wl pol a xs ys ts TimeSpace = Ok p ->
  (2 <= length xs)%nat -> (2 <= length ys)%nat -> (2 <= length ts)%nat ->
  shp a = [length xs; length ys; length ts] /\
  forall i j k, (i < length xs)%nat -> (j < length ys)%nat -> (k < length ts)%nat ->
    p_eval p (vget xs i) (vget ys j) (vget ts k) = at3 a i j k.
Proof. exact c46_time_first. Qed.
Print Assumptions C46_time_first_refuted.
(** ... so that data of the documented shape are refused unless nt = nx ... *)
Theorem C46_time_first_raises_refuted :
  forall wl pol a xs ys ts,
  shp a = [length ts; length ys; length xs] -> length xs <> length ts ->
  from_array_xyt wl pol a xs ys ts TimeSpace = Err ValueError.
Proof. exact c46_time_first_raises. Qed.
Print Assumptions C46_time_first_raises_refuted.
(** ... and axes_order ['t','r'] always raises. *)
Theorem C46_rt_time_first_raises_refuted :
  forall wl pol a rs ts,
  exists e, from_array_rt wl pol a rs ts TimeSpace = Err e.
Proof. exact c46_rt_time_first_raises. Qed.
Print Assumptions C46_rt_time_first_raises_refuted.
(** A concrete array, in the order t, y, x, whose value at a node is not returned there. *)
Theorem C46_refuted :
  exists a p, shp a = [2;2;2]%nat /\ from_array_xyt 1 (RtoC 1, RtoC 0) a [0;1] [0;1] [0;1] TimeSpace = Ok p /\
  at3 a 1 0 0 = RtoC 1 /\ p_eval p 0 0 1 = RtoC 0.
Proof. exact c46_refuted. Qed.
Print Assumptions C46_refuted.
(** C46, accepted data: every axis strictly increasing or strictly decreasing, the shape of the array that of the axes. *)
Theorem C46_accepts_partial :
  forall wl pol a xs ys ts,
  (exists p, from_array_xyt wl pol a xs ys ts SpaceTime = Ok p) <->
  strictly_monotone xs /\ strictly_monotone ys /\ strictly_monotone ts /\ shp a = [length xs; length ys; length ts].
Proof. exact c46_accepts. Qed.
Print Assumptions C46_accepts_partial.
Example C46_nonvacuous : (exists a p, from_array_xyt 1 (RtoC 1, RtoC 0) a [0;1] [0;1;2] [0;1] SpaceTime = Ok p /\ at3 a 1 2 1 = Ci) /\
  (exists a p, from_array_rt 1 (RtoC 1, RtoC 0) a [1;2] [0;1] SpaceTime = Ok p /\ at3 a 1 1 0 = Ci) /\ between_nodes [0;1;2] 1 (3 / 2) /\
  (exists a p, from_array_xyt 1 (RtoC 1, RtoC 0) a [1;0] [0;1;2] [0;1] SpaceTime = Ok p /\ between_nodes [1;0] 0 (1 / 2) /\ beyond [1;0] 2).
Proof.
  assert (A1 : monotone [0;1] = true) by (apply asc_mono; cbn; rewrite (proj2 (Rltb_true 0 1)) by lra; reflexivity).
  assert (A2 : monotone [0;1;2] = true) by (apply asc_mono; cbn; rewrite (proj2 (Rltb_true 0 1)), (proj2 (Rltb_true 1 2)) by lra; reflexivity).
  assert (A3 : monotone [1;2] = true) by (apply asc_mono; cbn; rewrite (proj2 (Rltb_true 1 2)) by lra; reflexivity).
  split; [|split; [|split]].
  - exists (mkArr [2;3;2]%nat Complex128 (fun _ _ _ => Ci)). unfold from_array_xyt. rewrite A1, A2. eexists. split; reflexivity.
  - exists (mkArr [2;2]%nat Complex128 (fun _ _ _ => Ci)). unfold from_array_rt, mirror_arr, mirror_axis. cbn zeta. unfold vget. cbn [nth].
    rewrite (proj2 (Reqb_false 1 0)) by lra.
    assert (A4 : monotone [- (1);1;2] = true) by (apply asc_mono; cbn; rewrite (proj2 (Rltb_true (- (1)) 1)), (proj2 (Rltb_true 1 2)) by lra; reflexivity).
    rewrite A4, A1. cbn. eexists. split; reflexivity.
  - split; [cbn; lia|]. unfold vget. cbn. lra.
  - exists (mkArr [2;3;2]%nat Complex128 (fun _ _ _ => Ci)).
    destruct (proj2 (C46_accepts_partial 1 (RtoC 1, RtoC 0) (mkArr [2;3;2]%nat Complex128 (fun _ _ _ => Ci)) [1;0] [0;1;2] [0;1])) as (p & Hp).
    + rewrite <- (monotone_iff [0;1;2]), <- (monotone_iff [0;1]). split; [right; intros [|i] Hi; cbn in Hi; [unfold vget; cbn; lra|lia]|auto].
    + exists p. split; [exact Hp|]. split; [split; [cbn; lia|unfold vget; cbn; lra]|]. split; [cbn; lia|]. right. intros [|[|i]] Hi; unfold vget; cbn in *; lra || lia.
Qed.
(** C47: at the retained samples, increasing times. *)
Theorem C47_nodes_partial :
  forall time int ph wl lo hi d a b,
  long_temporal time int ph wl lo hi = Ok d -> nearest time lo a -> nearest time hi b ->
  ascending time = true -> length int = length time -> (forall p, ph = Some p -> length p = length time) ->
  forall i, (a <= i < b)%nat -> 0 <= vget int i -> long_evaluate d (vget time i) = Ok (Cmult (RtoC (sqrt (vget int i))) (cis (- phase_at ph i))).
Proof. exact c47_nodes. Qed.
Print Assumptions C47_nodes_partial.
(** C47: between two retained samples the intensity stays between theirs. *)
Theorem C47_between_partial :
  forall time int ph wl lo hi d a b,
  long_temporal time int ph wl lo hi = Ok d -> nearest time lo a -> nearest time hi b ->
  ascending time = true -> length int = length time -> (forall p, ph = Some p -> length p = length time) ->
  forall i t l h, (a <= i)%nat -> (S i < b)%nat -> vget time i <= t <= vget time (S i) -> 0 <= l ->
  l <= vget int i <= h -> l <= vget int (S i) <= h -> exists e, long_evaluate d t = Ok e /\ l <= Cmod e ^ 2 <= h.
Proof. exact c47_between. Qed.
Print Assumptions C47_between_partial.
(** C47: between two retained samples intensity and phase are interpolated linearly. *)
Theorem C47_linear_partial :
  forall time int ph wl lo hi d a b,
  long_temporal time int ph wl lo hi = Ok d -> nearest time lo a -> nearest time hi b ->
  ascending time = true -> length int = length time -> (forall p, ph = Some p -> length p = length time) ->
  forall i t, (a <= i)%nat -> (S i < b)%nat -> vget time i <= t <= vget time (S i) ->
  let lam := (t - vget time i) / (vget time (S i) - vget time i) in
  long_evaluate d t = Ok (Cmult (RtoC (sqrt ((1 - lam) * vget int i + lam * vget int (S i)))) (cis (- ((1 - lam) * phase_at ph i + lam * phase_at ph (S i))))).
Proof. exact c47_linear. Qed.
Print Assumptions C47_linear_partial.
(** C47: construction never fails; the retained samples are those from the one nearest lo to before the one nearest hi. *)
Theorem C47_window_partial :
  forall time int ph wl lo hi,
  time <> [] -> exists d a b, long_temporal time int ph wl lo hi = Ok d /\ nearest time lo a /\ nearest time hi b.
Proof. exact c47_window. Qed.
Print Assumptions C47_window_partial.
(** REFUTED: outside the retained samples the profile does not vanish, the edge values are continued. *)
Theorem C47_outside_refuted :
  forall time int ph wl lo hi d a b,
  long_temporal time int ph wl lo hi = Ok d -> nearest time lo a -> nearest time hi b ->
  ascending time = true -> length int = length time -> (forall p, ph = Some p -> length p = length time) -> (a < b)%nat ->
  (forall t, t <= vget time a -> long_evaluate d t = long_evaluate d (vget time a)) /\
  (forall t, vget time (b - 1) <= t -> long_evaluate d t = long_evaluate d (vget time (b - 1))).
Proof. exact c47_outside. Qed.
Print Assumptions C47_outside_refuted.
(** REFUTED for decreasing times: the profile cannot be evaluated at all. *)
Theorem C47_decreasing_refuted :
  forall time int ph wl lo hi d,
  long_temporal time int ph wl lo hi = Ok d -> descending time = true -> lo <= hi ->
  forall t, long_evaluate d t = Err ValueError.
Proof. exact c47_decreasing. Qed.
Print Assumptions C47_decreasing_refuted.
(** Concrete witnesses of both. *)
Theorem C47_refuted :
  (exists d, long_temporal [0;1;2;3] [1;2;3;4] None 1 0 2 = Ok d /\ long_evaluate d (-5) = Ok (RtoC 1)) /\
  (exists d, long_temporal [2;1;0] [3;2;1] None 1 0 2 = Ok d /\ forall t, long_evaluate d t = Err ValueError).
Proof. exact c47_refuted. Qed.
Print Assumptions C47_refuted.
Example C47_nonvacuous : exists d, long_temporal [0;1;2;3] [1;2;3;4] (Some [0;1;0;1]) 1 0 2 = Ok d /\ nearest [0;1;2;3] 0 0 /\ nearest [0;1;2;3] 2 2 /\ ascending [0;1;2;3] = true.
Proof.
  assert (A : ascending [0;1;2;3] = true) by (apply ascending_iff; cbn [length]; intros i Hi; destruct i as [|[|[|i]]]; unfold vget; cbn [nth]; lra || lia).
  pose proof (nearest_node [0;1;2;3] 0 A ltac:(cbn; lia)) as N0. pose proof (nearest_node [0;1;2;3] 2 A ltac:(cbn; lia)) as N2.
  eexists. split; [reflexivity|]. split; [exact N0|]. split; [exact N2|exact A].
Qed.
(** C48: at the pixels. *)
Theorem C48_nodes_partial :
  forall f x0 y0 x1 y1 c ev,
  transverse_from_data f (x0, y0) (x1, y1) c = Ok ev ->
  (2 <= im_rows f)%nat -> (2 <= im_cols f)%nat -> x0 < x1 -> y0 < y1 -> nonneg_image f -> 0 < im_sum f ->
  forall i j, (i < im_rows f)%nat -> (j < im_cols f)%nat ->
    ev (data_pos c x0 x1 (im_cols f) j) (data_pos c y0 y1 (im_rows f) i) =
    RtoC (sqrt (im_at f (fst (source_pixel c f i j)) (snd (source_pixel c f i j)) /
                (im_sum f * ((x1 - x0) / INR (im_cols f)) * ((y1 - y0) / INR (im_rows f))))).
Proof. exact c48_nodes. Qed.
Print Assumptions C48_nodes_partial.
(** C48: normalisation. *)
Theorem C48_norm_partial :
  forall f x0 y0 x1 y1 c ev,
  transverse_from_data f (x0, y0) (x1, y1) c = Ok ev ->
  (2 <= im_rows f)%nat -> (2 <= im_cols f)%nat -> x0 < x1 -> y0 < y1 -> nonneg_image f -> 0 < im_sum f ->
  pixel_sum (im_rows f) (im_cols f) (fun i j =>
    Cmod (ev (data_pos c x0 x1 (im_cols f) j) (data_pos c y0 y1 (im_rows f) i)) ^ 2 * ((x1 - x0) / INR (im_cols f)) * ((y1 - y0) / INR (im_rows f))) = 1.
Proof. exact c48_norm. Qed.
Print Assumptions C48_norm_partial.
(** C48: zero outside. *)
Theorem C48_outside_partial :
  forall f x0 y0 x1 y1 c ev,
  transverse_from_data f (x0, y0) (x1, y1) c = Ok ev ->
  (2 <= im_rows f)%nat -> (2 <= im_cols f)%nat -> x0 < x1 -> y0 < y1 ->
  forall x y, x < data_pos c x0 x1 (im_cols f) 0 \/ data_pos c x0 x1 (im_cols f) (im_cols f - 1) < x \/
   y < data_pos c y0 y1 (im_rows f) 0 \/ data_pos c y0 y1 (im_rows f) (im_rows f - 1) < y -> ev x y = RtoC 0.
Proof. exact c48_outside. Qed.
Print Assumptions C48_outside_partial.
Theorem C48_constructs_partial :
  forall f x0 y0 x1 y1 c,
  (2 <= im_rows f)%nat -> (2 <= im_cols f)%nat -> x0 < x1 -> y0 < y1 ->
  exists ev, transverse_from_data f (x0, y0) (x1, y1) c = Ok ev.
Proof. exact c48_constructs. Qed.
Print Assumptions C48_constructs_partial.
(** C48: centring is a permutation of the pixels. *)
Theorem C48_bijection_partial :
  forall c f,
  forall i j, (i < im_rows f)%nat -> (j < im_cols f)%nat ->
  (fst (source_pixel c f i j) < im_rows f)%nat /\ (snd (source_pixel c f i j) < im_cols f)%nat /\
  forall i' j', (i' < im_rows f)%nat -> (j' < im_cols f)%nat -> source_pixel c f i' j' = source_pixel c f i j -> i' = i /\ j' = j.
Proof. exact c48_bijection. Qed.
Print Assumptions C48_bijection_partial.
(** C48: the image is moved by the distance of the centre of mass from the middle, rounded to whole pixels towards zero. *)
Theorem C48_shift_partial :
  forall f,
  Rabs (fst (find_center_of_mass f) - INR (im_cols f) / 2 - IZR (fst (pixel_shift true f))) < 1 /\
  Rabs (snd (find_center_of_mass f) - INR (im_rows f) / 2 - IZR (snd (pixel_shift true f))) < 1.
Proof. exact c48_shift. Qed.
Print Assumptions C48_shift_partial.
(** C48: if nothing is wrapped around, the centre of mass ends up less than 1.5 pixels off the axis. *)
Theorem C48_mean_partial :
  forall f x0 y0 x1 y1 ev,
  transverse_from_data f (x0, y0) (x1, y1) true = Ok ev ->
  (2 <= im_rows f)%nat -> (2 <= im_cols f)%nat -> x0 < x1 -> y0 < y1 -> nonneg_image f -> 0 < im_sum f ->
  (forall i j, (i < im_rows f)%nat -> (j < im_cols f)%nat -> im_at f i j <> 0 ->
     (0 <= Z.of_nat i - snd (pixel_shift true f) < Z.of_nat (im_rows f))%Z /\ (0 <= Z.of_nat j - fst (pixel_shift true f) < Z.of_nat (im_cols f))%Z) ->
  let W := fun i j => Cmod (ev (data_pos true x0 x1 (im_cols f) j) (data_pos true y0 y1 (im_rows f) i)) ^ 2 in
  let T := pixel_sum (im_rows f) (im_cols f) W in
  - / 2 * spacing x0 x1 (im_cols f) < pixel_sum (im_rows f) (im_cols f) (fun i j => W i j * data_pos true x0 x1 (im_cols f) j) / T < 3 / 2 * spacing x0 x1 (im_cols f) /\
  - / 2 * spacing y0 y1 (im_rows f) < pixel_sum (im_rows f) (im_cols f) (fun i j => W i j * data_pos true y0 y1 (im_rows f) i) / T < 3 / 2 * spacing y0 y1 (im_rows f).
Proof. exact c48_mean. Qed.
Print Assumptions C48_mean_partial.
(** REFUTED: the pixel nearest the centre of mass need not end up in the central pixel. *)
Theorem C48_refuted :
  exists f ev, nonneg_image f /\ find_center_of_mass f = (3, 2) /\ (im_rows f, im_cols f) = (5, 5)%nat /\
  (forall i j, im_at f i j <> 0 -> i = 2%nat /\ j = 3%nat) /\
  transverse_from_data f (0, 0) (4, 4) true = Ok ev /\ ev 0 0 = RtoC 0 /\ ev 1 0 <> RtoC 0.
Proof. exact c48_refuted. Qed.
Print Assumptions C48_refuted.
Example C48_nonvacuous : exists f ev, im_rows f = 3%nat /\ im_cols f = 2%nat /\ nonneg_image f /\ 0 < im_sum f /\ transverse_from_data f (0, 0) (1, 2) true = Ok ev.
Proof.
  destruct (c48_constructs (mkImg 3 2 (fun i j => INR (i + j))) 0 0 1 2 true) as (ev & E); cbn; try lia; try lra.
  exists (mkImg 3 2 (fun i j => INR (i + j))), ev. split; [reflexivity|]. split; [reflexivity|]. split; [intros i j _ _; apply pos_INR|]. split; [unfold im_sum; cbn; lra|exact E].
Qed.
(** C49. *)
Theorem C49_translate :
  forall f g a b x0 y0,
  moved f g a b -> im_sum f <> 0 -> find_center_of_mass f = (x0, y0) ->
  find_center_of_mass g = (x0 + INR a, y0 + INR b) /\ find_d4sigma g = find_d4sigma f.
Proof. exact c49_translate. Qed.
Print Assumptions C49_translate.
Theorem C49_scale :
  forall f g s,
  scaled_image f g s -> s <> 0 -> im_sum f <> 0 -> find_center_of_mass g = find_center_of_mass f /\ find_d4sigma g = find_d4sigma f.
Proof. exact c49_scale. Qed.
Print Assumptions C49_scale.
Theorem C49_transpose :
  forall f g,
  transposed f g ->
  find_center_of_mass g = (snd (find_center_of_mass f), fst (find_center_of_mass f)) /\ find_d4sigma g = (snd (find_d4sigma f), fst (find_d4sigma f)).
Proof. exact c49_transpose. Qed.
Print Assumptions C49_transpose.
Theorem C49_range :
  forall f x0 y0,
  nonneg_image f -> 0 < im_sum f -> find_center_of_mass f = (x0, y0) ->
  0 <= x0 <= INR (im_cols f) - 1 /\ 0 <= y0 <= INR (im_rows f) - 1.
Proof. exact c49_range. Qed.
Print Assumptions C49_range.
Theorem C49_d4_zero :
  forall f,
  nonneg_image f -> 0 < im_sum f ->
  0 <= fst (find_d4sigma f) /\ 0 <= snd (find_d4sigma f) /\
  (fst (find_d4sigma f) = 0 -> forall i j, (i < im_rows f)%nat -> (j < im_cols f)%nat -> im_at f i j <> 0 -> INR j = fst (find_center_of_mass f)).
Proof. exact c49_d4_zero. Qed.
Print Assumptions C49_d4_zero.
Example C49_nonvacuous : exists f g, nonneg_image f /\ 0 < im_sum f /\ moved f g 2 1 /\ im_rows g = 5%nat /\ im_cols g = 6%nat.
Proof.
  exists (mkImg 3 2 (fun i j => INR (i + j))), (mkImg 5 6 (fun i j => if ((1 <=? i) && (i <? 4) && (2 <=? j) && (j <? 4))%nat%bool then INR (i - 1 + (j - 2)) else 0)).
  split; [intros i j _ _; apply pos_INR|]. split; [unfold im_sum; cbn; lra|]. split; [|split; reflexivity]. cbn [im_rows im_cols im_at]. split; [|split]; cbn [im_rows im_cols im_at].
  - intros; lia.
  - intros i j _ _ Hi Hj. destruct i as [|[|[|i]]]; [| | |lia]; (destruct j as [|[|j]]; [reflexivity|reflexivity|lia]).
  - intros i j Hi Hj Hn. destruct ((1 <=? i) && (i <? 4) && (2 <=? j) && (j <? 4))%nat%bool eqn:E; [|reflexivity]. exfalso. apply Hn.
    apply andb_prop in E as [E E4]. apply andb_prop in E as [E E3]. apply andb_prop in E as [E1 E2].
    apply Nat.leb_le in E1, E3. apply Nat.ltb_lt in E2, E4. exists (i - 1)%nat, (j - 2)%nat. lia.
Qed.
(** C59: the order of the data does not matter. *)
Theorem C59_order :
  forall axis int ph w dt lo hi,
  length int = length axis -> (forall p, ph = Some p -> length p = length axis) ->
  long_spectral (rev axis) (rev int) (option_map (@rev R) ph) w dt lo hi = long_spectral axis int ph w dt lo hi.
Proof. exact c59_order. Qed.
Print Assumptions C59_order.
(** C59: the central wavelength. *)
Theorem C59_central :
  forall wl int ph dt lo hi d,
  spectrum_ok wl int ph dt -> long_spectral wl int ph true dt lo hi = Ok d ->
  (forall i, (i < length wl)%nat -> 0 <= vget int i) -> (exists i, (i < length wl)%nat /\ 0 < vget int i) ->
  ld_wavelength d = weighted_mean wl int /\ vget wl 0 <= ld_wavelength d <= last wl 0.
Proof. exact c59_central. Qed.
Print Assumptions C59_central.
(** C59: the modulus never exceeds 1, at any time. *)
Theorem C59_bound :
  forall wl int ph dt lo hi d,
  spectrum_ok wl int ph dt -> long_spectral wl int ph true dt lo hi = Ok d ->
  forall t e, long_evaluate d t = Ok e -> Cmod e <= 1.
Proof. exact c59_bound. Qed.
Print Assumptions C59_bound.
(** C59: the retained times. *)
Theorem C59_times :
  forall wl int ph dt lo hi d N,
  spectrum_ok wl int ph dt -> long_spectral wl int ph true dt lo hi = Ok d ->
  sample_count wl dt (ld_wavelength d) N -> (2 <= N)%nat ->
  exists a b, let ts := map (sample_time dt N) (seq 0 N) in nearest ts lo a /\ nearest ts hi b /\ ld_time d = slice ts a b.
Proof. exact c59_times. Qed.
Print Assumptions C59_times.
(** C59: without spectral phase, the peak value 1 is at the centre. *)
Theorem C59_centre :
  forall wl int dt lo hi d N,
  spectrum_ok wl int None dt -> long_spectral wl int None true dt lo hi = Ok d ->
  sample_count wl dt (ld_wavelength d) N -> (2 <= N)%nat ->
  (exists q v, (q < N)%nat /\ spectrum_value wl int (sample_freqs (c_light / ld_wavelength d) dt N q) v /\ 0 < v) ->
  In (sample_time dt N (N / 2)) (ld_time d) -> long_evaluate d (sample_time dt N (N / 2)) = Ok (RtoC 1).
Proof. exact c59_centre. Qed.
Print Assumptions C59_centre.
(** C59: construction succeeds. *)
Theorem C59_constructs :
  forall wl int ph dt lo hi N,
  spectrum_ok wl int ph dt -> sample_count wl dt (weighted_mean wl int) N -> (0 < N)%nat ->
  exists d, long_spectral wl int ph true dt lo hi = Ok d.
Proof. exact c59_constructs. Qed.
Print Assumptions C59_constructs.
Example C59_nonvacuous : exists d, spectrum_ok ex_wl ex_int None (/ 4) /\ long_spectral ex_wl ex_int None true (/ 4) (- / 2) (/ 4) = Ok d /\
  sample_count ex_wl (/ 4) (ld_wavelength d) 4 /\ In (sample_time (/ 4) 4 (4 / 2)) (ld_time d) /\
  (exists q v, (q < 4)%nat /\ spectrum_value ex_wl ex_int (sample_freqs (c_light / ld_wavelength d) (/ 4) 4 q) v /\ 0 < v).
Proof.
  destruct ex_profile as (d & H & Ec & I0 & _). exists d. split; [exact ex_ok|]. split; [exact H|]. rewrite Ec. split; [exact ex_count|]. split.
  - replace (sample_time (/ 4) 4 (4 / 2)) with 0; [exact I0|]. unfold sample_time. simpl. lra.
  - exists 2%nat, 2. split; [lia|]. split; [|lra]. rewrite c_over_2. apply (ex_values 2). lia.
Qed.
(** C60, what holds: at the retained samples the profile is a superposition of the measured waves, but with the frequencies mirrored about the central one, scaled so that the maximum modulus is 1 and real at the centre. *)
Theorem C60_synthesis_partial :
  forall wl int ph dt lo hi d N I P,
  spectrum_ok wl int ph dt -> long_spectral wl int ph true dt lo hi = Ok d ->
  sample_count wl dt (ld_wavelength d) N -> (2 <= N)%nat ->
  (forall q, (q < N)%nat -> spectrum_value wl int (sample_freqs (c_light / ld_wavelength d) dt N q) (I q) /\
     match ph with Some p => spectrum_value wl p (sample_freqs (c_light / ld_wavelength d) dt N q) (P q) | None => P q = 0 end) ->
  (exists q, (q < N)%nat /\ 0 < I q) ->
  let E := fun k => synthesis N I P (mirrored_freqs (c_light / ld_wavelength d) dt N) (c_light / ld_wavelength d) ((INR k - INR (N / 2)) * dt) in
  exists K,
    (forall k, (k < N)%nat -> Cmod (Cmult K (E k)) <= 1) /\ (exists k, (k < N)%nat /\ Cmod (Cmult K (E k)) = 1) /\
    (exists r, 0 <= r /\ Cmult K (E (N / 2)%nat) = RtoC r) /\
    forall k, (k < N)%nat -> In (sample_time dt N k) (ld_time d) -> long_evaluate d (sample_time dt N k) = Ok (Cmult K (E k)).
Proof. exact c60_synthesis. Qed.
Print Assumptions C60_synthesis_partial.
(** REFUTED: a three-line spectrum for which the profile is not the superposition of the measured waves. *)
Theorem C60_refuted :
  exists d, long_spectral ex_wl ex_int None true (/ 4) (- / 2) (/ 4) = Ok d /\
  sample_count ex_wl (/ 4) (ld_wavelength d) 4 /\
  (forall q, (q < 4)%nat -> spectrum_value ex_wl ex_int (sample_freqs (c_light / ld_wavelength d) (/ 4) 4 q) (ex_I q)) /\
  ~ (exists K, forall k, (k < 4)%nat -> In (sample_time (/ 4) 4 k) (ld_time d) -> long_evaluate d (sample_time (/ 4) 4 k) =
       Ok (Cmult K (synthesis 4 ex_I (fun _ => 0) (sample_freqs (c_light / ld_wavelength d) (/ 4) 4) (c_light / ld_wavelength d) (sample_time (/ 4) 4 k)))) /\
  ~ (exists K, forall k, (k < 4)%nat -> In (sample_time (/ 4) 4 k) (ld_time d) -> long_evaluate d (sample_time (/ 4) 4 k) =
       Ok (Cmult K (synthesis 4 ex_I (fun _ => 0) (fun q => c_light / ld_wavelength d + (INR q - 2) / (4 * / 4)) (c_light / ld_wavelength d) (sample_time (/ 4) 4 k)))).
Proof. exact c60_refuted. Qed.
Print Assumptions C60_refuted.
