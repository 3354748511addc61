(** C91: propagate shows one and the same solution of the wave equation in successive planes. *)
From Coquelicot Require Import Coquelicot.
From Verif Require Import PyBase CSum NumPy GridModel GridSpec LaserSpec LaserModel LaserOps WaveSpec WaveEq WaveProofs WaveSolver WaveDecomp WaveRt BesselODE WaveMain.
Open Scope R_scope.

(** The waves of the specification are solutions of the wave equation. *)
Theorem C91_plane_waves_solve :
  forall ws, Forall (fun v => pw_kx v ^ 2 + pw_ky v ^ 2 <= (pw_w v / c_light) ^ 2) ws -> solves_wave_equation (plane_waves ws).
Proof. exact plane_waves_solve. Qed.
Print Assumptions C91_plane_waves_solve.
Theorem C91_bessel_waves_solve :
  forall ws, Forall (fun v => bw_kr v ^ 2 <= (bw_w v / c_light) ^ 2) ws -> solves_cylindrical_wave_equation (bessel_waves ws).
Proof. exact bessel_waves_solve. Qed.
Print Assumptions C91_bessel_waves_solve.

(** Cartesian grids, any laser whose carrier the grid resolves (all the waves of the grid travel): there is a solution of
    the wave equation that the laser shows now, and that it shows after any sequence of propagate calls, in the plane
    advanced by the distances, at the laser's own (advanced) times. *)
Theorem C91_xyt :
  forall S L z, reachable S L -> l_dim L = Xyt -> exact_xyt S ->
  (forall q, (q < 3)%nat -> nth q (g_lo (l_grid L)) 0 < nth q (g_hi (l_grid L)) 0) ->
  (let w := p_omega0 (l_prof L) - PI / time_step L in
   0 < w /\ (PI / axis_step L 0) ^ 2 + (PI / axis_step L 1) ^ 2 <= (w / c_light) ^ 2) ->
  exists u, solves_wave_equation u /\ shows_xyt L u z /\
    forall h : list (R * backend_t), let ops := map (fun e => OpPropagate (fst e) None None (snd e)) h in
      all_ok S L ops /\ shows_xyt (lrun S L ops) u (z + fold_right Rplus 0 (map fst h)).
Proof. exact c91_every_field. Qed.
Print Assumptions C91_xyt.
(** Without the hypothesis on the carrier: for a laser that shows a superposition of travelling waves of its grid. *)
Theorem C91_xyt_waves :
  forall S ws, exact_xyt S -> forall (h : list (R * backend_t)) L z, reachable S L -> l_dim L = Xyt ->
  (forall q, (q < 3)%nat -> nth q (g_lo (l_grid L)) 0 < nth q (g_hi (l_grid L)) 0) ->
  Forall (fits_xyt L) ws -> shows_xyt L (plane_waves ws) z ->
  let ops := map (fun e => OpPropagate (fst e) None None (snd e)) h in
  all_ok S L ops /\ shows_xyt (lrun S L ops) (plane_waves ws) (z + fold_right Rplus 0 (map fst h)).
Proof. exact c91_run. Qed.
Print Assumptions C91_xyt_waves.

(** Cylindrical grids, at every angle; and onto the radii of a resampling grid with the same modes. *)
Theorem C91_rt :
  forall S supports M ws, exact_rt S supports -> forall (h : list (R * backend_t)) L z, reachable S L -> l_dim L = Rt -> 0 < time_step L ->
  Forall (fits_rt M supports L None) ws -> shows_rt M L (bessel_waves ws) z ->
  let ops := map (fun e => OpPropagate (fst e) None None (snd e)) h in
  all_ok S L ops /\ shows_rt M (lrun S L ops) (bessel_waves ws) (z + fold_right Rplus 0 (map fst h)).
Proof. exact c91_rt_run. Qed.
Print Assumptions C91_rt.
Theorem C91_rt_resample :
  forall S supports L M ws z d gn b, reachable S L -> l_dim L = Rt -> exact_rt S supports -> 0 < time_step L ->
  user_grid gn -> g_modes gn = g_modes (l_grid L) -> length (nth 1 (g_axes gn) []) = axis_points L 1 ->
  Forall (fits_rt M supports L (Some (nth 0 (g_axes gn) []))) ws -> shows_rt M L (bessel_waves ws) z ->
  exists L', propagate S L d None (Some gn) b = (L', Ok tt) /\ shows_rt M L' (bessel_waves ws) (z + d) /\
    l_dim L' = Rt /\ 0 < time_step L' /\ nth 0 (g_axes (l_grid L')) [] = nth 0 (g_axes gn) [].
Proof. exact c91_rt_resample. Qed.
Print Assumptions C91_rt_resample.

(** A solver that meets both contracts exists (angular spectrum / one Bessel beam). *)
Example C91_solver : forall kr0, exact_xyt (wave_solvers kr0) /\ exact_rt (wave_solvers kr0) (one_beam kr0).
Proof. intros kr0. split; [apply wave_solvers_exact|apply wave_solvers_exact_rt]. Qed.
(** A structured, chirped pulse on a 4 x 3 x 5 grid meets the hypotheses of C91_xyt. *)
Example C91_xyt_nonvacuous : forall S, exists L, laser_init Xyt [-1;-2;-3] [1;2;4] [4;3;5]%nat wave_prof 1 None = Ok L /\ reachable S L /\ l_dim L = Xyt /\
  (forall q, (q < 3)%nat -> nth q (g_lo (l_grid L)) 0 < nth q (g_hi (l_grid L)) 0) /\
  (let w := p_omega0 (l_prof L) - PI / time_step L in
   0 < w /\ (PI / axis_step L 0) ^ 2 + (PI / axis_step L 1) ^ 2 <= (w / c_light) ^ 2).
Proof. exact wave_xyt_ex. Qed.
(** A laser built from the Bessel beam J_0(r), with two azimuthal modes, meets those of C91_rt and C91_rt_resample. *)
Example C91_rt_nonvacuous : forall S, exists L, laser_init Rt [0;-3] [2;4] [4;5]%nat bessel_prof 2 None = Ok L /\ reachable S L /\ l_dim L = Rt /\ 0 < time_step L /\
  (forall rnew, Forall (fits_rt 2 (one_beam 1) L rnew) bessel_beam) /\ shows_rt 2 L (bessel_waves bessel_beam) 0 /\
  axis_points L 1 = 5%nat /\ g_modes (l_grid L) = Some [0;1;-1]%Z.
Proof. exact wave_rt_ex. Qed.
Example C91_resampling_grid : exists gn, grid_init Rt [0;-3] [1;4] [6;5]%nat (Some 2%Z) true = Ok gn /\ user_grid gn /\
  g_modes gn = Some [0;1;-1]%Z /\ length (nth 1 (g_axes gn) []) = 5%nat.
Proof.
  destruct (grid_init Rt [0;-3] [1;4] [6;5]%nat (Some 2%Z) true) as [gn|] eqn:E; [|cbv in E; discriminate].
  exists gn. split; [reflexivity|]. split; [exists [0;-3], [1;4], [6;5]%nat, 2%Z, gn, []; split; [exact E|reflexivity]|].
  injection E as <-. split; reflexivity.
Qed.
