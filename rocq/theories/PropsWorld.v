(** C84: several Laser and Grid objects in one program. *)
From Verif Require Import PyBase NumPy GridModel GridSpec GridProofs EnergyModel LaserModel LaserOps WorldModel WorldSpec WorldProofs WorldExamples.
Open Scope R_scope.

(** C84: in a program that never resamples a laser onto a Grid object another laser is using, a call on another laser,
    on a Grid the laser is not using, or the creation of objects changes nothing of the laser. *)
Theorem C84_isolated_partial :
  forall S h o l, free_targets S empty_world (h ++ [o]) ->
  let w := wrun S empty_world h in
  (l < w_nl w)%nat -> ~ acts_on w o l ->
  laser_at (fst (wstep S w o)) l = laser_at w l.
Proof. exact c84_isolated_run. Qed.
Print Assumptions C84_isolated_partial.
(** C84: in such a program the state of each laser is that of the program consisting of its own calls only. *)
Theorem C84_programs_partial :
  forall S h1 h2 l, free_targets S empty_world (h1 ++ h2) ->
  let w := wrun S empty_world h1 in
  (l < w_nl w)%nat -> no_grid_calls S w h2 l ->
  laser_at (wrun S empty_world (h1 ++ h2)) l = lrun S (laser_at w l) (calls_on S w h2 l).
Proof. exact c84_programs. Qed.
Print Assumptions C84_programs_partial.
(** C84: the state of a new laser does not depend on what else exists. *)
Theorem C84_new :
  forall S w d lo hi np p nm nte L, laser_init d lo hi np p nm nte = Ok L ->
  w_nl (fst (wstep S w (NewLaser d lo hi np p nm nte))) = Datatypes.S (w_nl w) /\
  laser_at (fst (wstep S w (NewLaser d lo hi np p nm nte))) (w_nl w) = L.
Proof. exact new_value. Qed.
Print Assumptions C84_new.
(** REFUTED without the restriction: two lasers resampled onto the same Grid object end with the same grid, fields and axes. *)
Theorem C84_shared_refuted :
  forall S w l1 l2 d1 d2 nr1 nr2 g b1 b2, l_dim (w_la w l1) = Rt -> l_dim (w_la w l2) = Rt -> l1 <> l2 ->
  (l1 < w_nl w)%nat -> (l2 < w_nl w)%nat -> (g < w_ng w)%nat ->
  snd (wstep S w (CallPropagate l1 d1 nr1 (Some g) b1)) = Ok tt ->
  let w1 := fst (wstep S w (CallPropagate l1 d1 nr1 (Some g) b1)) in
  snd (wstep S w1 (CallPropagate l2 d2 nr2 (Some g) b2)) = Ok tt ->
  let w2 := fst (wstep S w1 (CallPropagate l2 d2 nr2 (Some g) b2)) in
  l_grid (laser_at w2 l1) = l_grid (laser_at w2 l2).
Proof. exact c84_shared. Qed.
Print Assumptions C84_shared_refuted.
(** REFUTED, concretely: lasers 0 and 1 with the envelopes 1 and 0; after laser 0 has been propagated onto a Grid, propagating
    laser 1 onto the same Grid sets the field of laser 0 to 0. *)
Theorem C84_refuted : exists f f',
  let w := wrun id_solvers empty_world (two_lasers ++ [send 0 0]) in
  let w' := fst (wstep id_solvers w (send 1 0)) in
  snd (wstep id_solvers w (send 1 0)) = Ok tt /\ (0 < w_nl w)%nat /\ ~ acts_on w (send 1 0) 0 /\
  snd (get_temporal_field (l_grid (laser_at w 0))) = Ok f /\ at3 f 0 1 1 = RtoC 1 /\
  snd (get_temporal_field (l_grid (laser_at w' 0))) = Ok f' /\ at3 f' 0 1 1 = RtoC 0.
Proof. exact c84_clobber. Qed.
Print Assumptions C84_refuted.
(** REFUTED for Grid objects: the Grid a laser leaves when it is resampled keeps lo and hi, but its time axis is moved by the
    distance travelled: the two attributes no longer agree. *)
Theorem C84_released_refuted :
  forall S w l d nr g b, l_dim (w_la w l) = Rt -> (l < w_nl w)%nat -> (g < w_ng w)%nat -> g <> w_lg w l ->
  g_axes (grid_at w (w_lg w l)) <> [] ->
  snd (wstep S w (CallPropagate l d nr (Some g) b)) = Ok tt ->
  let w' := fst (wstep S w (CallPropagate l d nr (Some g) b)) in
  let g0 := grid_at w (w_lg w l) in let g1 := grid_at w' (w_lg w l) in
  g_lo g1 = g_lo g0 /\ g_hi g1 = g_hi g0 /\ time_axis g1 = map (fun t => t + d / c_light) (time_axis g0).
Proof. exact c84_released. Qed.
Print Assumptions C84_released_refuted.

(** Two lasers and a Grid; laser 0 is propagated by any distance onto the Grid, laser 1 is normalized, laser 0's old Grid read:
    the hypotheses above hold and the calls succeed. *)
Example C84_nonvacuous : forall d,
  let h := two_lasers ++ [send 0 d; CallNormalize 1 (Some 1) KField; CallGrid 0 GetS] in
  let w0 := wrun id_solvers empty_world two_lasers in
  free_targets id_solvers empty_world h /\ w_nl w0 = 2%nat /\ w_ng w0 = 3%nat /\ l_dim (w_la w0 0) = Rt /\ l_dim (w_la w0 1) = Rt /\
  g_axes (grid_at w0 (w_lg w0 0)) <> [] /\ w_lg w0 0 = 0%nat /\
  no_grid_calls id_solvers w0 [send 0 d; CallNormalize 1 (Some 1) KField; CallGrid 0 GetS] 0 /\
  snd (wstep id_solvers w0 (send 0 d)) = Ok tt /\
  calls_on id_solvers w0 [send 0 d; CallNormalize 1 (Some 1) KField; CallGrid 0 GetS] 0 =
    [OpPropagate d None (Some (grid_at w0 2)) 0%nat].
Proof. exact c84_example. Qed.
