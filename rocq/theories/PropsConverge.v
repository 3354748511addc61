(** C86: the energy lasy computes for a sampled laser approaches the energy of the continuous envelope,
    and the normalization chosen at construction approaches the physical one, as the grid is refined. *)
From Coquelicot Require Import Coquelicot.
From Verif Require Import PyBase CSum NpFFT NumPy GridModel GridSpec LaserSpec EnergyModel LaserModel LaserOps
  LaserInitProofs LaserExamples ConvergeSpec ConvergeLaser.
Open Scope R_scope.

(** Cartesian grids: first-order convergence, with a constant independent of the grid. *)
Theorem C86_xyt_energy :
  forall K lo hi p nm nte,
  length lo = 3%nat -> length hi = 3%nat ->
  nth 0 lo 0 < nth 0 hi 0 -> nth 1 lo 0 < nth 1 hi 0 -> nth 2 lo 0 < nth 2 hi 0 ->
  p_energy p = None -> p_dtype p = Complex128 -> 0 <= K ->
  lip_intensity K (nth 0 lo 0) (nth 0 hi 0) (nth 1 lo 0) (nth 1 hi 0) (nth 2 lo 0) (nth 2 hi 0) (p_eval p) ->
  exists A, 0 <= A /\ forall n0 n1 nt, (2 <= n0)%nat -> (2 <= n1)%nat -> (2 <= nt)%nat ->
  exists L e, laser_init Xyt lo hi [n0;n1;nt] p nm nte = Ok L /\
    snd (compute_laser_energy Xyt (l_grid L)) = Ok e /\
    Rabs (e - U_xyt (nth 0 lo 0) (nth 0 hi 0) (nth 1 lo 0) (nth 1 hi 0) (nth 2 lo 0) (nth 2 hi 0) (p_eval p)) <=
    A * (spacing (nth 0 lo 0) (nth 0 hi 0) n0 + spacing (nth 1 lo 0) (nth 1 hi 0) n1 + spacing (nth 2 lo 0) (nth 2 hi 0) nt).
Proof. exact c86_xyt. Qed.
Print Assumptions C86_xyt_energy.
(** Cartesian grids: for a requested energy E, the samples are the profile times a factor that tends to sqrt(E/U). *)
Theorem C86_xyt_field :
  forall K lo hi p nm nte E,
  let U := U_xyt (nth 0 lo 0) (nth 0 hi 0) (nth 1 lo 0) (nth 1 hi 0) (nth 2 lo 0) (nth 2 hi 0) (p_eval p) in
  length lo = 3%nat -> length hi = 3%nat ->
  nth 0 lo 0 < nth 0 hi 0 -> nth 1 lo 0 < nth 1 hi 0 -> nth 2 lo 0 < nth 2 hi 0 ->
  p_energy p = Some (Some E) -> 0 <= E -> p_dtype p = Complex128 -> 0 <= K ->
  lip_intensity K (nth 0 lo 0) (nth 0 hi 0) (nth 1 lo 0) (nth 1 hi 0) (nth 2 lo 0) (nth 2 hi 0) (p_eval p) ->
  0 < U ->
  forall eps, 0 < eps -> exists N, forall n0 n1 nt, (N <= n0)%nat -> (N <= n1)%nat -> (N <= nt)%nat ->
  exists L a s, laser_init Xyt lo hi [n0;n1;nt] p nm nte = Ok L /\
    snd (get_temporal_field (l_grid L)) = Ok a /\ Rabs (s - sqrt (E / U)) < eps /\
    forall i j k, (i < n0)%nat -> (j < n1)%nat -> (k < nt)%nat ->
      at3 a i j k = Cmult (RtoC s) (p_eval p (coord (nth 0 lo 0) (nth 0 hi 0) n0 i)
        (coord (nth 1 lo 0) (nth 1 hi 0) n1 j) (coord (nth 2 lo 0) (nth 2 hi 0) nt k)).
Proof. exact c86_xyt_field. Qed.
Print Assumptions C86_xyt_field.
(** Cylindrical grids, for an envelope whose azimuthal content the modes resolve. *)
Theorem C86_rt_energy :
  forall K lo hi p (M : nat) nte (A : Z -> R -> R -> C),
  length lo = 2%nat -> length hi = 2%nat -> (1 <= M)%nat ->
  0 <= nth 0 lo 0 -> nth 0 lo 0 < nth 0 hi 0 -> nth 1 lo 0 < nth 1 hi 0 ->
  p_energy p = None -> 0 <= K ->
  lip_intensity K (- nth 0 hi 0) (nth 0 hi 0) (- nth 0 hi 0) (nth 0 hi 0) (nth 1 lo 0) (nth 1 hi 0) (p_eval p) ->
  (forall r t theta, p_eval p (r * cos theta) (r * sin theta) t = recon M (fun m => A m r t) theta) ->
  (2 * Z.of_nat M - 1 <= match nte with None => 2 * Z.of_nat M - 1 | Some n => n end)%Z ->
  exists B, 0 <= B /\ forall n1 nt, (2 <= n1)%nat -> (2 <= nt)%nat ->
  exists L e, laser_init Rt lo hi [n1;nt] p (Z.of_nat M) nte = Ok L /\
    snd (compute_laser_energy Rt (l_grid L)) = Ok e /\
    Rabs (e - U_rt (nth 0 lo 0) (nth 0 hi 0) (nth 1 lo 0) (nth 1 hi 0) (p_eval p)) <=
    B * (spacing (nth 0 lo 0) (nth 0 hi 0) n1 + spacing (nth 1 lo 0) (nth 1 hi 0) nt).
Proof. exact c86_rt. Qed.
Print Assumptions C86_rt_energy.
(** Cylindrical grids with a requested energy. *)
Theorem C86_rt_field :
  forall K lo hi p (M : nat) nte (A : Z -> R -> R -> C) E,
  let U := U_rt (nth 0 lo 0) (nth 0 hi 0) (nth 1 lo 0) (nth 1 hi 0) (p_eval p) in
  length lo = 2%nat -> length hi = 2%nat -> (1 <= M)%nat ->
  0 <= nth 0 lo 0 -> nth 0 lo 0 < nth 0 hi 0 -> nth 1 lo 0 < nth 1 hi 0 ->
  p_energy p = Some (Some E) -> 0 <= E -> 0 <= K ->
  lip_intensity K (- nth 0 hi 0) (nth 0 hi 0) (- nth 0 hi 0) (nth 0 hi 0) (nth 1 lo 0) (nth 1 hi 0) (p_eval p) ->
  (forall r t theta, p_eval p (r * cos theta) (r * sin theta) t = recon M (fun m => A m r t) theta) ->
  (2 * Z.of_nat M - 1 <= match nte with None => 2 * Z.of_nat M - 1 | Some n => n end)%Z ->
  0 < U ->
  forall eps, 0 < eps -> exists N, forall n1 nt, (N <= n1)%nat -> (N <= nt)%nat ->
  exists L a s, laser_init Rt lo hi [n1;nt] p (Z.of_nat M) nte = Ok L /\
    snd (get_temporal_field (l_grid L)) = Ok a /\ Rabs (s - sqrt (E / U)) < eps /\
    forall j k theta, (j < n1)%nat -> (k < nt)%nat ->
      recon M (comp M a j k) theta = Cmult (RtoC s) (p_eval p (coord (nth 0 lo 0) (nth 0 hi 0) n1 j * cos theta)
        (coord (nth 0 lo 0) (nth 0 hi 0) n1 j * sin theta) (coord (nth 1 lo 0) (nth 1 hi 0) nt k)).
Proof. exact c86_rt_field. Qed.
Print Assumptions C86_rt_field.

(** The vortex r exp(-i theta) meets the hypotheses on both kinds of grid, with a positive energy. *)
Example C86_nonvacuous :
  lip_intensity 4 (-2) 2 (-2) 2 (-3) 4 (p_eval ex_vortex) /\ p_energy ex_vortex = None /\ p_dtype ex_vortex = Complex128 /\
  (forall r t theta, p_eval ex_vortex (r * cos theta) (r * sin theta) t =
     recon 2 (fun m => if Z.eqb m 1 then RtoC r else RtoC 0) theta) /\
  U_rt 0 2 (-3) 4 (p_eval ex_vortex) = eps0 / 2 * c_light * (7 * (PI / 2 * 2 ^ 4)) /\
  0 < U_rt 0 2 (-3) 4 (p_eval ex_vortex) /\
  0 < U_xyt (-2) 2 (-2) 2 (-3) 4 (p_eval ex_vortex).
Proof.
  pose proof eps0_pos. pose proof c_light_pos. pose proof PI_RGT_0.
  assert (P : 0 < eps0 / 2 * c_light) by (apply Rmult_lt_0_compat; lra).
  assert (E1 : U_rt 0 2 (-3) 4 (p_eval ex_vortex) = eps0 / 2 * c_light * (7 * (PI / 2 * 2 ^ 4))).
  { rewrite vortex_U_rt. replace (4 - -3) with 7 by ring. reflexivity. }
  split; [|split; [reflexivity|split; [reflexivity|split; [exact vortex_content|split; [exact E1|split]]]]].
  - pose proof (vortex_lip 2 (-3) 4 ltac:(lra)) as Q. replace (2 * 2) with 4 in Q by ring. exact Q.
  - rewrite E1. apply Rmult_lt_0_compat; [exact P|]. lra.
  - pose proof (vortex_U_xyt 2 (-3) 4) as Q. replace (- (2)) with (-2) in Q by ring. rewrite Q.
    apply Rmult_lt_0_compat; [exact P|]. lra.
Qed.
