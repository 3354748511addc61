(** C97: the amplitude given by a requested energy. *)
From Verif Require Import PyBase CSum NumPy GridModel GridSpec EnergyModel LaserSpec LaserModel ProfileModel AnalyticModel PolarSpec PeakSpec PeakProofs PeakInst PeakRt.
Open Scope R_scope.

(** C97: any beam of total power P times any pulse of total duration D, with a requested energy E, gets the amplitude
    sqrt(E / (eps0 c / 2 * P D)) - Cartesian grids. *)
Theorem C97_xyt :
  forall l px py E long trans p nm nte P D,
  combined_profile l [px; py] (Some E) long trans = Ok p -> 0 <= E ->
  tame2 (fun x y => Cnorm2 (trans x y)) -> tame1 (fun t => Cnorm2 (long t)) ->
  beam_power trans P -> pulse_duration long D -> 0 < P -> 0 < D ->
  settles_xyt p nm nte trans long (peak_factor E P D).
Proof. exact c97_xyt. Qed.
Print Assumptions C97_xyt.
(** C97 on cylindrical grids, for beams whose azimuthal content (the functions A m) fits the modes of the grid. *)
Theorem C97_rt :
  forall l px py E long trans p (M : nat) nte A P D,
  combined_profile l [px; py] (Some E) long trans = Ok p -> 0 <= E -> (1 <= M)%nat ->
  (2 * Z.of_nat M - 1 <= match nte with None => 2 * Z.of_nat M - 1 | Some n => n end)%Z ->
  (forall r theta, trans (r * cos theta) (r * sin theta) = recon M (fun m => A m r) theta) ->
  tame2 (fun x y => Cnorm2 (trans x y)) -> tame1 (fun t => Cnorm2 (long t)) ->
  power trans P -> pulse_duration long D -> 0 < P -> 0 < D ->
  settles_rt p M nte trans long (peak_factor E P D).
Proof. exact c97_rt. Qed.
Print Assumptions C97_rt.
(** C97 for every Hermite-Gaussian mode (power 1) with a Gaussian or cosine pulse, at any distance from focus. *)
Theorem C97_hermite :
  forall l px py E long trans p nm nte w0 nx ny zf D,
  0 < w0 -> hg_transverse w0 nx ny (Some l) zf = Ok trans -> library_pulse l long D ->
  combined_profile l [px; py] (Some E) long trans = Ok p -> 0 <= E -> settles_xyt p nm nte trans long (peak_factor E 1 D).
Proof. exact c97_hermite. Qed.
Print Assumptions C97_hermite.
(** C97 for Gaussian beams (power pi w0^2 / 2). *)
Theorem C97_gaussian :
  forall l px py E long trans p nm nte w0 zf D,
  0 < w0 -> gaussian_transverse w0 (Some l) zf = Ok trans -> library_pulse l long D ->
  combined_profile l [px; py] (Some E) long trans = Ok p -> 0 <= E -> settles_xyt p nm nte trans long (peak_factor E (PI * w0 ^ 2 / 2) D).
Proof. exact c97_gauss. Qed.
Print Assumptions C97_gaussian.
(** C97 for every Laguerre-Gaussian mode on a cylindrical grid with more than |m| modes. *)
Theorem C97_laguerre :
  forall l px py E long trans p (M : nat) nte w0 q m zf D,
  0 < w0 -> lg_transverse w0 q m (Some l) zf = Ok trans -> library_pulse l long D ->
  combined_profile l [px; py] (Some E) long trans = Ok p -> 0 <= E -> (Z.abs m < Z.of_nat M)%Z ->
  (2 * Z.of_nat M - 1 <= match nte with None => 2 * Z.of_nat M - 1 | Some n => n end)%Z ->
  settles_rt p M nte trans long
    (peak_factor E (PI * (w0 ^ 2 / 2) ^ S (Z.abs_nat m) * (1 + (zf * l / (PI * w0 ^ 2)) ^ 2) ^ Z.abs_nat m * (INR (fact (q + Z.abs_nat m)) / INR (fact q))) D).
Proof. exact c97_laguerre. Qed.
Print Assumptions C97_laguerre.
(** An out-of-focus HG(1,2) beam with a cosine pulse of one joule, and an LG beam with q = 1, m = -2 on three modes. *)
Example C97_nonvacuous :
  (exists trans p, hg_transverse 1 1 2 (Some 1) 5 = Ok trans /\ combined_profile 1 [RtoC 1; RtoC 0] (Some 1) (cosine_long 1 2 7 0) trans = Ok p /\
    library_pulse 1 (cosine_long 1 2 7 0) 2 /\ settles_xyt p 1 None trans (cosine_long 1 2 7 0) (peak_factor 1 1 2)) /\
  (exists trans p P, lg_transverse 1 1 (-2) (Some 1) 5 = Ok trans /\ combined_profile 1 [RtoC 1; RtoC 0] (Some 1) (cosine_long 1 2 7 0) trans = Ok p /\
    settles_rt p 3 None trans (cosine_long 1 2 7 0) (peak_factor 1 P 2)).
Proof.
  assert (LP : library_pulse 1 (cosine_long 1 2 7 0) 2) by (right; exists 2, 7, 0; split; [lra|split; reflexivity]).
  assert (Z : exists z, z_foc_over_zr 1 (Some 1) 5 = Ok z) by (unfold z_foc_over_zr; destruct (Reqb 5 0); eexists; reflexivity).
  destruct Z as (z & Hz). split.
  - assert (HT : hg_transverse 1 1 2 (Some 1) 5 = Ok (hg_trans_at 1 1 2 z)) by (unfold hg_transverse; rewrite Hz; reflexivity).
    eexists. eexists. split; [exact HT|]. split; [reflexivity|]. split; [exact LP|].
    exact (C97_hermite 1 _ _ 1 _ _ _ 1 None 1 1 2 5 2 Rlt_0_1 HT LP eq_refl ltac:(lra)).
  - assert (HT : lg_transverse 1 1 (-2) (Some 1) 5 = Ok (lg_trans_at 1 1 (-2) z)) by (unfold lg_transverse; rewrite Hz; reflexivity).
    eexists. eexists. eexists. split; [exact HT|]. split; [reflexivity|].
    exact (C97_laguerre 1 _ _ 1 _ _ _ 3 None 1 1 (-2) 5 2 Rlt_0_1 HT LP eq_refl ltac:(lra) ltac:(lia) ltac:(cbn; lia)).
Qed.
