(** Property theorems C73 (get_full_field on another number of times). *)
From Verif Require Import PyBase CSum NumPy GridModel GridSpec LaserSpec EnergyModel LaserModel OpticsModel LaserOps LaserExamples AnalysisModel
  AnalysisExamples AnalysisSpec FromArraySpec FullFieldModel FullFieldSpec FullFieldProofs.
Open Scope R_scope.

(** C73, rt: rows above the axis show the plane at theta, those below the plane at -theta (see C30), at n times equally spaced over the window of the laser. *)
Theorem C73_rt :
  forall S lo hi np p nm nte L0 h theta s sa n,
  laser_init Rt lo hi np p nm nte = Ok L0 -> Forall no_resample h -> nth 1 lo 0 < nth 1 hi 0 ->
  let L := lrun S L0 h in
  let T := coord (lastR (g_lo (l_grid L))) (lastR (g_hi (l_grid L))) n in
  exists M a n1 nt im,
    (1 <= M)%nat /\ (2 <= n1)%nat /\ snd (get_temporal_field (l_grid L)) = Ok a /\ shp a = [(2 * M - 1)%nat; n1; nt] /\
    snd (get_full_field_nt L theta s sa (Some n)) =
      Ok (Some (im, [lastR (g_lo (l_grid L)); lastR (g_hi (l_grid L)); - vget (g_hi (l_grid L)) 0; vget (g_hi (l_grid L)) 0])) /\
    shp im = [(2 * n1 - 1)%nat; n] /\
    (forall j, (j < n1)%nat -> resampled (time_axis (l_grid L)) (p_omega0 (l_prof L)) (fun k => recon M (comp M a j k) theta) T n (fun q => at3 im (n1 - 1 + j) q 0)) /\
    (forall j, (1 <= j < n1)%nat -> resampled (time_axis (l_grid L)) (p_omega0 (l_prof L)) (fun k => recon M (comp M a j k) (- theta)) T n (fun q => at3 im (n1 - 1 - j) q 0)).
Proof. exact c73_rt. Qed.
Print Assumptions C73_rt.
(** C73, xyt. *)
Theorem C73_xyt :
  forall S lo hi np p nm nte L0 h theta s n,
  laser_init Xyt lo hi np p nm nte = Ok L0 -> nth 2 lo 0 < nth 2 hi 0 -> -1/2 <= s <= 1/2 ->
  let L := lrun S L0 h in
  let T := coord (lastR (g_lo (l_grid L))) (lastR (g_hi (l_grid L))) n in
  exists a n0 n1 nt,
    snd (get_temporal_field (l_grid L)) = Ok a /\ shp a = [n0; n1; nt] /\
    let ext := [lastR (g_lo (l_grid L)); lastR (g_hi (l_grid L)); vget (g_lo (l_grid L)) 0; vget (g_hi (l_grid L)) 0] in
    (exists q im, (q < n1)%nat /\ INR q <= (1 + s) * IZR (Z.of_nat n1 / 2 - 1) < INR q + 1 /\
       snd (get_full_field_nt L theta s SliceY (Some n)) = Ok (Some (im, ext)) /\ shp im = [n0; n] /\
       forall i, resampled (time_axis (l_grid L)) (p_omega0 (l_prof L)) (fun k => at3 a i q k) T n (fun k => at3 im i k 0)) /\
    ((2 <= n0)%nat -> exists q im, (q < n0)%nat /\ INR q <= (1 + s) * IZR (Z.of_nat n0 / 2 - 1) < INR q + 1 /\
       snd (get_full_field_nt L theta s SliceX (Some n)) = Ok (Some (im, ext)) /\ shp im = [n1; n] /\
       forall j, resampled (time_axis (l_grid L)) (p_omega0 (l_prof L)) (fun k => at3 a q j k) T n (fun k => at3 im j k 0)) /\
    snd (get_full_field_nt L theta s SliceOther (Some n)) = Ok None.
Proof. exact c73_xyt. Qed.
Print Assumptions C73_xyt.
(** C73: with the number of points of the laser, the same picture as without Nt. *)
Theorem C73_same :
  forall S d lo hi np p nm nte L0 h theta s sa im ext,
  laser_init d lo hi np p nm nte = Ok L0 -> (d = Xyt \/ Forall no_resample h) ->
  nth (ndims_of d - 1) lo 0 < nth (ndims_of d - 1) hi 0 ->
  let L := lrun S L0 h in
  snd (get_full_field L theta s sa) = Ok (Some (im, ext)) ->
  exists nt im', length (time_axis (l_grid L)) = nt /\ snd (get_full_field_nt L theta s sa (Some nt)) = Ok (Some (im', ext)) /\ shp im' = shp im /\
    forall i k, (k < nt)%nat -> at3 im' i k 0 = at3 im i k 0.
Proof. exact c73_same. Qed.
Print Assumptions C73_same.
(** C73: without Nt it is the function of C30 and C32; and it only reads. *)
Theorem C73_default :
  forall L theta s sa, get_full_field_nt L theta s sa None = get_full_field L theta s sa.
Proof. exact nt_none. Qed.
Print Assumptions C73_default.
Theorem C73_readonly :
  forall L theta s sa Nt,
  let L' := fst (get_full_field_nt L theta s sa Nt) in
  l_prof L' = l_prof L /\ l_dim L' = l_dim L /\ same_contents (l_grid L) (l_grid L').
Proof. exact c73_readonly. Qed.
Print Assumptions C73_readonly.
(** A vortex beam on 5 times, shown on 9; on the time between the two first samples of the third radius. *)
Example C73_nonvacuous : exists L a im ext, laser_init Rt [0;-3] [2;4] [4;5]%nat ex_vortex 2 None = Ok L /\ snd (get_temporal_field (l_grid L)) = Ok a /\
  at3 a 1 3 0 = RtoC 2 /\ snd (get_full_field_nt L 0 0 SliceX (Some 9%nat)) = Ok (Some (im, ext)) /\ shp im = [7; 9]%nat.
Proof.
  destruct vortex_field as (L & a & HL & Ha & Hs & HD & _ & _ & _ & Hv). 
  destruct (c73_rt id_solvers _ _ _ _ _ _ _ [] 0 0 SliceX 9 HL (Forall_nil _) ltac:(cbn; lra)) as (M & a' & n1 & nt & im & _ & _ & Ha' & Hs' & G & Sh & _). cbn [lrun] in *.
  assert (a' = a) by congruence. subst a'. rewrite Hs in Hs'. injection Hs' as _ <- _.
  exists L, a, im. eexists. split; [exact HL|]. split; [exact Ha|]. split; [|split; [exact G|exact Sh]].
  destruct (Hv 3%nat 0%nat ltac:(lia) ltac:(lia)) as (_ & -> & _). f_equal. unfold coord. simpl. field.
Qed.
