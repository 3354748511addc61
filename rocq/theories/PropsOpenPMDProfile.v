(** Property theorems C75 (profiles from openPMD files). *)
From Verif Require Import PyBase CSum NumPy NpMath NpMathProofs GridModel LaserSpec LaserModel OpticsModel LaserOps LaserExamples FromArrayModel FromArrayProofs OpenPMDModel OpenPMDProofs
  OpenPMDProfileModel OpenPMDProfileSpec OpenPMDProfileProofs.
Open Scope R_scope.

(** C75: a Cartesian envelope is reproduced at every stored point, at the time it passes. *)
Theorem C75_xyt_partial :
  forall hilb a md l tr isz nx ny nl w pol, order3 l tr isz -> md_labels md = l ->
  shp a = (if tr then [nl; ny; nx] else [nx; ny; nl]) ->
  good_axis (md_axis md AxX) nx -> good_axis (md_axis md AxY) ny -> good_long md isz nl ->
  exists p, from_openpmd hilb a md None (Some true) (Ok w) pol = Ok p /\ p_lambda0 p = 2 * PI * c_light / w /\
    forall i j k, (i < nx)%nat -> (j < ny)%nat -> (k < nl)%nat ->
      p_eval p (vget (md_axis md AxX) i) (vget (md_axis md AxY) j) (pass_time md isz k) = sample3 tr a i j k.
Proof. exact c75_xyt. Qed.
Print Assumptions C75_xyt_partial.
(** C75: a plane of a cylindrical envelope: the mean of the two sides of the axis, at every azimuth. *)
Theorem C75_rt_partial :
  forall hilb a md th l tr isz h nl w pol, order2 l tr isz -> md_labels md = l -> (2 <= h)%nat ->
  shp a = (if tr then [nl; (2 * h)%nat] else [(2 * h)%nat; nl]) ->
  good_radial md h -> 0 <= vget (md_axis md AxR) h -> good_long md isz nl ->
  exists p, from_openpmd hilb a md (Some th) (Some true) (Ok w) pol = Ok p /\ p_lambda0 p = 2 * PI * c_light / w /\
    forall i k x y, (i < h)%nat -> (k < nl)%nat -> sqrt (x ^ 2 + y ^ 2) = vget (md_axis md AxR) (h + i) ->
      p_eval p x y (pass_time md isz k) = Cmult (RtoC (/ 2)) (Cplus (sample2 tr a (h + i) k) (sample2 tr a (h - 1 - i) k)).
Proof. exact c75_rt. Qed.
Print Assumptions C75_rt_partial.
(** C75: if is_envelope is not given, complex data are envelopes and real data are not. *)
Theorem C75_default :
  forall hilb F md theta fw pol,
  (dty F = Complex128 -> from_openpmd hilb F md theta None fw pol = from_openpmd hilb F md theta (Some true) fw pol) /\
  (dty F = Float64 -> from_openpmd hilb F md theta None fw pol = from_openpmd hilb F md theta (Some false) fw pol).
Proof. intros hilb F md theta fw pol. split; intros H; rewrite default_envelope, H; reflexivity. Qed.
Print Assumptions C75_default.
(** C75: what Laser.write_to_file wrote for a cylindrical laser is read back as the mean of the two sides of the chosen plane
    of the laser's field at the time of writing, with the laser's wavelength. *)
Theorem C75_roundtrip_rt :
  forall hilb S lo hi n1 nt p nm nte L0 h theta pol,
  laser_init Rt lo hi [n1; nt] p nm nte = Ok L0 -> Forall no_resample h ->
  0 <= nth 0 lo 0 < nth 0 hi 0 -> nth 1 lo 0 < nth 1 hi 0 -> p_lambda0 p <> 0 ->
  let L := lrun S L0 h in
  exists M a m q,
    nm = Z.of_nat M /\ snd (get_temporal_field (l_grid L)) = Ok a /\
    snd (build_mesh (l_dim L) (l_grid L) (p_lambda0 p) (p_pol p) false) = Ok m /\
    from_openpmd hilb (viewer_plane m theta) (viewer_md_rt m) (Some theta) None (Ok (ms_omega m)) pol = Ok q /\
    p_lambda0 q = p_lambda0 p /\
    forall i k x y, (i < n1)%nat -> (k < nt)%nat -> sqrt (x ^ 2 + y ^ 2) = coord (nth 0 lo 0) (nth 0 hi 0) n1 i ->
      p_eval q x y (coord (nth 1 lo 0) (nth 1 hi 0) nt k + travelled S L0 h / c_light) =
      Cmult (RtoC (/ 2)) (Cplus (recon M (comp M a i k) theta) (recon M (comp M a i k) (theta + PI))).
Proof. exact c75_roundtrip. Qed.
Print Assumptions C75_roundtrip_rt.
(** ... so an axisymmetric laser (one azimuthal mode) is read back exactly, whatever the plane. *)
Theorem C75_roundtrip_axisymmetric :
  forall hilb S lo hi n1 nt p nte L0 h theta pol,
  laser_init Rt lo hi [n1; nt] p 1 nte = Ok L0 -> Forall no_resample h ->
  0 <= nth 0 lo 0 < nth 0 hi 0 -> nth 1 lo 0 < nth 1 hi 0 -> p_lambda0 p <> 0 ->
  let L := lrun S L0 h in
  exists a m q,
    snd (get_temporal_field (l_grid L)) = Ok a /\
    snd (build_mesh (l_dim L) (l_grid L) (p_lambda0 p) (p_pol p) false) = Ok m /\
    from_openpmd hilb (viewer_plane m theta) (viewer_md_rt m) (Some theta) None (Ok (ms_omega m)) pol = Ok q /\
    p_lambda0 q = p_lambda0 p /\
    forall i k x y, (i < n1)%nat -> (k < nt)%nat -> sqrt (x ^ 2 + y ^ 2) = coord (nth 0 lo 0) (nth 0 hi 0) n1 i ->
      p_eval q x y (coord (nth 1 lo 0) (nth 1 hi 0) nt k + travelled S L0 h / c_light) = at3 a 0 i k.
Proof.
  intros hilb S lo hi n1 nt p nte L0 h theta pol Hi Hh Hr Ht Hl. cbn zeta.
  destruct (c75_roundtrip hilb S lo hi n1 nt p 1 nte L0 h theta pol Hi Hh Hr Ht Hl) as (M & a & m & q & HM & Ha & Hm & Hq & Lq & Eq).
  assert (M = 1%nat) as -> by lia. exists a, m, q. repeat (split; [assumption|]). intros i k x y H1 H2 H3.
  rewrite (Eq i k x y H1 H2 H3), !recon1. apply half_double.
Qed.
Print Assumptions C75_roundtrip_axisymmetric.
(** C75: the Cartesian file written by lasy goes through the function proved to round-trip in C28. *)
Theorem C75_written_xyt :
  forall hilb m pol, dty (ms_data m) = Complex128 ->
  from_openpmd hilb (ms_data m) (md_of_xyt m) None None (Ok (ms_omega m)) pol = from_openpmd_xyt m pol.
Proof. exact c75_written. Qed.
Print Assumptions C75_written_xyt.
(** C75 is false for electric fields (is_envelope = False, or real data): the constructor never succeeds.  In xyt it keeps
    only the first transverse slice of the envelope; in rt the grid is built for a rank-3 array. *)
Theorem C75_real_refuted :
  forall hilb a md theta fw pol, exists e, from_openpmd hilb a md theta (Some false) fw pol = Err e.
Proof. exact c75_real. Qed.
Print Assumptions C75_real_refuted.

Definition ex_md : field_md := mkMd [AxZ; AxY; AxX] (fun l => match l with AxX => [-1; 0; 1] | AxY => [0; 2] | AxZ => [0; 1; 2] | _ => [] end).
Example C75_nonvacuous : order3 [AxZ; AxY; AxX] true true /\ md_labels ex_md = [AxZ; AxY; AxX] /\
  good_axis (md_axis ex_md AxX) 3 /\ good_axis (md_axis ex_md AxY) 2 /\ good_long ex_md true 3.
Proof.
  assert (A : forall l, (forall i, (S i < length l)%nat -> vget l i < vget l (S i)) -> ascending l = true) by apply ascending_iff.
  repeat split; cbn [ex_md md_axis long_axis length]; try lia; try (constructor; fail).
  - apply A. intros [|[|i]] H; cbn in *; try lra; lia.
  - apply A. intros [|i] H; cbn in *; try lra; lia.
  - apply A. intros [|[|i]] H; cbn in *; try lra; lia.
  - intros _. exists 1. intros [|[|[|i]]] H; cbn in *; try lra; lia.
Qed.
Example C75_roundtrip_nonvacuous : exists L0, laser_init Rt [0;-3] [2;4] [4;5]%nat (ex_prof None) 1 None = Ok L0 /\
  0 <= nth 0 [0;-3] 0 < nth 0 [2;4] 0 /\ nth 1 [0;-3] 0 < nth 1 [2;4] 0 /\ p_lambda0 (ex_prof None) <> 0.
Proof.
  destruct (rt_construct_ok [0;-3] [2;4] [4;5]%nat 4 5 (ex_prof None) 1 None) as (L & HL); cbn; try lia; try lra; try reflexivity; try exact I.
  exists L. split; [exact HL|]. cbn. repeat split; lra.
Qed.
