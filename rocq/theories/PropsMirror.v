(** C103: mirror images of a pulse (x -> -x, y -> -y, or both) go through every history of a Cartesian laser, and a
    pulse that is its own mirror image stays so. *)
From Coq Require Import FunctionalExtensionality.
From Verif Require Import PyBase CSum NumPy GridModel GridSpec EnergyModel LaserSpec LaserModel LaserOps LaserInitProofs LaserExamples LtiSpec WaveSpec WaveSolver MirrorSpec MirrorProofs MirrorWave MirrorRtSpec MirrorRtProofs.
Open Scope R_scope.

(** On a box centred along the mirrored axes, with the mirror-image pulse and the mirror-image optics: every call ends
    the same way (also the failing ones), the axes and the energy are the same, and every field sample is the sample of
    the first laser at the mirror-image grid point.  Propagations with absorbing layers and all normalizations included. *)
Theorem C103_mirror :
  forall bx bY S lo hi np p p' nm nte L L' h, mirror_solver bx bY S ->
  (bx = true -> nth 0 lo 0 = - nth 0 hi 0) -> (bY = true -> nth 1 lo 0 = - nth 1 hi 0) ->
  p_omega0 p' = p_omega0 p -> p_energy p' = p_energy p ->
  (forall x y t, p_eval p' x y t = p_eval p (sign bx x) (sign bY y) t) ->
  laser_init Xyt lo hi np p nm nte = Ok L -> laser_init Xyt lo hi np p' nm nte = Ok L' ->
  let K := lrun S L h in let K' := lrun S L' (map (mirror_op bx bY) h) in
  outcomes S L' (map (mirror_op bx bY) h) = outcomes S L h /\ g_axes (l_grid K') = g_axes (l_grid K) /\
  snd (compute_laser_energy Xyt (l_grid K')) = snd (compute_laser_energy Xyt (l_grid K)) /\
  exists n0 n1 nt f f', snd (get_temporal_field (l_grid K)) = Ok f /\ shp f = [n0; n1; nt] /\
    snd (get_temporal_field (l_grid K')) = Ok f' /\ shp f' = [n0; n1; nt] /\
    forall i j k, (i < n0)%nat -> (j < n1)%nat -> (k < nt)%nat -> at3 f' i j k = at3 f (flip bx n0 i) (flip bY n1 j) k.
Proof. exact c103. Qed.
Print Assumptions C103_mirror.

(** A symmetric pulse through symmetric optics stays symmetric. *)
Theorem C103_symmetric :
  forall bx bY S lo hi np p nm nte L h, mirror_solver bx bY S ->
  (bx = true -> nth 0 lo 0 = - nth 0 hi 0) -> (bY = true -> nth 1 lo 0 = - nth 1 hi 0) ->
  (forall x y t, p_eval p (sign bx x) (sign bY y) t = p_eval p x y t) ->
  (forall e x y w w0, In (OpOptics e) h -> e (sign bx x) (sign bY y) w w0 = e x y w w0) ->
  laser_init Xyt lo hi np p nm nte = Ok L ->
  exists n0 n1 nt f, snd (get_temporal_field (l_grid (lrun S L h))) = Ok f /\ shp f = [n0; n1; nt] /\
    forall i j k, (i < n0)%nat -> (j < n1)%nat -> (k < nt)%nat -> at3 f (flip bx n0 i) (flip bY n1 j) k = at3 f i j k.
Proof.
  intros bx bY S lo hi np p nm nte L h HS Cx Cy Hp Ho H.
  assert (E : map (mirror_op bx bY) h = h).
  { rewrite <- (map_id h) at 2. apply map_ext_in. intros [d0 nr ng b|e|v kd|w] Hin; cbn [mirror_op]; try reflexivity. f_equal.
    apply functional_extensionality. intros x. apply functional_extensionality. intros y. apply functional_extensionality. intros w.
    apply functional_extensionality. intros w0. apply Ho, Hin. }
  destruct (c103 bx bY S lo hi np p p nm nte L L h HS Cx Cy eq_refl eq_refl (fun x y t => eq_sym (Hp x y t)) H H)
    as (_ & _ & _ & n0 & n1 & nt & f & f' & F1 & F2 & F3 & _ & F5). rewrite E in F3. rewrite F1 in F3. injection F3 as <-.
  exists n0, n1, nt, f. split; [exact F1|]. split; [exact F2|]. intros i j k Hi Hj Hk. symmetry. apply F5; assumption.
Qed.
Print Assumptions C103_symmetric.

(** The exact angular-spectrum method on the grid points is such a solver. *)
Theorem C103_solver : forall bx bY kr0, mirror_solver bx bY (wave_solvers kr0).
Proof. exact wave_solvers_mirror. Qed.
Print Assumptions C103_solver.

(** The chirped pulse of LaserExamples (tilted in x, so not its own mirror image) and its mirror image, an astigmatic lens
    with a tilt, propagation with absorbing layers, failing calls, and all normalizations. *)
Definition c103_mirrored : profile :=
  mkProfile (2 * PI * c_light) 1 (RtoC 1, RtoC 0) (Some (Some 3)) Complex128
    (fun x y t => Cmult (RtoC (exp (- (x ^ 2 + 2 * y ^ 2 + t ^ 2)))) (cis (- x + t ^ 2))).
Definition c103_history : list lop :=
  [OpOptics (fun x y w w0 => cis (- w * (x ^ 2 + 2 * y ^ 2) + x)); OpNormalize (Some 3) KField; OpPropagate 3 (Some (PyInt 1)) None 0%nat;
   OpNormalize (Some 3) KIntensity; OpPropagate 1 (Some (PyInt 9)) None 0%nat; OpNormalize (Some 2) KEnergy; OpPropagate (-1) None None 1%nat].
Example C103_nonvacuous : exists L L',
  mirror_solver true false (wave_solvers 1) /\
  laser_init Xyt [-1;-2;-3] [1;2;4] [4;3;5]%nat (ex_prof (Some (Some 3))) 1 None = Ok L /\
  laser_init Xyt [-1;-2;-3] [1;2;4] [4;3;5]%nat c103_mirrored 1 None = Ok L' /\
  (forall x y t, p_eval c103_mirrored x y t = p_eval (ex_prof (Some (Some 3))) (sign true x) (sign false y) t) /\
  p_eval c103_mirrored 1 0 0 <> p_eval (ex_prof (Some (Some 3))) 1 0 0 /\
  outcomes (wave_solvers 1) L c103_history <> [] /\
  (forall x y t, p_eval (ex_prof None) (sign false x) (sign true y) t = p_eval (ex_prof None) x y t) /\
  (forall e x y w w0, In (OpOptics e) c103_history -> e (sign false x) (sign true y) w w0 = e x y w w0).
Proof.
  destruct (ex_xyt (Some (Some 3)) ltac:(cbn; lra)) as (L & HL).
  assert (HL' : exists L', laser_init Xyt [-1;-2;-3] [1;2;4] [4;3;5]%nat c103_mirrored 1 None = Ok L').
  { apply xyt_construct_ok; simpl; try lia; try lra; try reflexivity. }
  destruct HL' as (L' & HL'). exists L, L'.
  split; [apply wave_solvers_mirror|]. split; [exact HL|]. split; [exact HL'|].
  split. { intros x y t. cbn [p_eval c103_mirrored ex_prof sign]. replace ((- x) ^ 2) with (x ^ 2) by ring. reflexivity. }
  split. { cbn [p_eval c103_mirrored ex_prof]. intros H. apply (f_equal snd) in H. unfold Cmult, RtoC, cis in H. cbn [fst snd] in H.
    rewrite !Rmult_0_l, !Rplus_0_r in H. apply Rmult_eq_reg_l in H; [|apply Rgt_not_eq, exp_pos].
    replace (1 + 0 ^ 2) with 1 in H by ring. replace (- (1) + 0 ^ 2) with (- (1)) in H by ring. rewrite sin_neg in H.
    assert (P : 0 < sin 1) by (apply sin_gt_0; [lra|]; pose proof PI2_1; lra). lra. }
  split; [discriminate|].
  split. { intros x y t. cbn [p_eval ex_prof sign]. replace ((- y) ^ 2) with (y ^ 2) by ring. reflexivity. }
  intros e x y w w0 Hin. cbn in Hin. destruct Hin as [Hin|Hin]; [|repeat (destruct Hin as [Hin|Hin]; [discriminate|]); contradiction].
  injection Hin as <-. cbv beta. cbn [sign]. apply (f_equal cis). ring.
Qed.

(** C105.  The same for azimuthally decomposed lasers: the mirror image y -> -y of a pulse gives the same outcomes, axes and
    energy through every history without change of radial grid, its mode m is mode -m of the pulse, and its field at
    angle theta the field at -theta.  No band limit on the pulse: any number of evaluation angles the constructor accepts. *)
Theorem C105_mirror :
  forall S lo hi np p p' nm nte L L' h, mirror_rt_solver S ->
  p_omega0 p' = p_omega0 p -> p_energy p' = p_energy p ->
  (forall x y t, p_eval p' x y t = p_eval p x (- y) t) ->
  laser_init Rt lo hi np p nm nte = Ok L -> laser_init Rt lo hi np p' nm nte = Ok L' -> Forall no_resample h ->
  let K := lrun S L h in let K' := lrun S L' h in
  outcomes S L' h = outcomes S L h /\ g_axes (l_grid K') = g_axes (l_grid K) /\
  snd (compute_laser_energy Rt (l_grid K')) = snd (compute_laser_energy Rt (l_grid K)) /\
  exists (M : nat) n1 nt f f', nm = Z.of_nat M /\ snd (get_temporal_field (l_grid K)) = Ok f /\ shp f = [(2 * M - 1)%nat; n1; nt] /\
    snd (get_temporal_field (l_grid K')) = Ok f' /\ shp f' = [(2 * M - 1)%nat; n1; nt] /\
    forall j k, (j < n1)%nat -> (k < nt)%nat ->
      (forall m, (- Z.of_nat M < m < Z.of_nat M)%Z -> comp M f' j k m = comp M f j k (- m)) /\
      forall theta, recon M (comp M f' j k) theta = recon M (comp M f j k) (- theta).
Proof. exact c105. Qed.
Print Assumptions C105_mirror.

(** A pulse symmetric in y keeps equal modes m and -m, hence a field even in the angle. *)
Theorem C105_symmetric :
  forall S lo hi np p nm nte L h, mirror_rt_solver S -> (forall x y t, p_eval p x (- y) t = p_eval p x y t) ->
  laser_init Rt lo hi np p nm nte = Ok L -> Forall no_resample h ->
  exists (M : nat) n1 nt f, nm = Z.of_nat M /\ snd (get_temporal_field (l_grid (lrun S L h))) = Ok f /\ shp f = [(2 * M - 1)%nat; n1; nt] /\
    forall j k, (j < n1)%nat -> (k < nt)%nat ->
      (forall m, (- Z.of_nat M < m < Z.of_nat M)%Z -> comp M f j k (- m) = comp M f j k m) /\
      forall theta, recon M (comp M f j k) (- theta) = recon M (comp M f j k) theta.
Proof.
  intros S lo hi np p nm nte L h HS Hp H Hh.
  destruct (c105 S lo hi np p p nm nte L L h HS eq_refl eq_refl (fun x y t => eq_sym (Hp x y t)) H H Hh)
    as (_ & _ & _ & M & n1 & nt & f & f' & F0 & F1 & F2 & F3 & _ & F5). rewrite F1 in F3. injection F3 as <-.
  exists M, n1, nt, f. split; [exact F0|]. split; [exact F1|]. split; [exact F2|]. intros j k Hj Hk. destruct (F5 j k Hj Hk) as (G1 & G2).
  split; [intros m Hm; symmetry; apply G1, Hm | intros theta; symmetry; apply G2].
Qed.
Print Assumptions C105_symmetric.

(** The single-beam Bessel solver of C93/C92 is such a solver. *)
Theorem C105_solver : forall kr0, mirror_rt_solver (wave_solvers kr0).
Proof.
  intros kr0 p w x d Hn Hw k j Hk Hj. destruct p as [r kk rn m b]. cbn [rp_rnew rp_k rp_r] in *. subst rn. cbn [wave_solvers step_rt]. unfold beam_step, opposite_prop, rt_out. cbn [rp_r rp_k rp_rnew rp_mode].
  rewrite Hw by (assumption || lia). replace (Z.abs_nat (- m)) with (Z.abs_nat m) by lia. reflexivity.
Qed.
Print Assumptions C105_solver.

(** A vortex on top of a plane wave, and its mirror image: the opposite vortex. *)
Definition c105_beam (s : R) : profile :=
  mkProfile (2 * PI * c_light) 1 (RtoC 1, RtoC 0) (Some (Some 2)) Complex128 (fun x y t => Cplus (RtoC 1) (x, s * y)).
Definition c105_history : list lop :=
  [OpOptics (fun x y w w0 => cis (- w * (x ^ 2 + y ^ 2))); OpNormalize (Some 3) KField; OpPropagate 3 (Some (PyInt 2)) None 0%nat;
   OpNormalize (Some 3) KIntensity; OpPropagate 1 (Some (PyInt 9)) None 0%nat; OpNormalize (Some 2) KEnergy; OpPropagate (-1) None None 1%nat].
Example C105_nonvacuous : Forall no_resample c105_history /\
  (exists L, laser_init Rt [0;-3] [2;4] [4;5]%nat (c105_beam (-1)) 2 None = Ok L) /\
  (exists L, laser_init Rt [0;-3] [2;4] [4;5]%nat (c105_beam 1) 2 (Some 4%Z) = Ok L) /\
  (forall x y t, p_eval (c105_beam 1) x y t = p_eval (c105_beam (-1)) x (- y) t) /\
  p_eval (c105_beam 1) 0 1 0 <> p_eval (c105_beam (-1)) 0 1 0 /\
  mirror_rt_solver (wave_solvers 1).
Proof.
  split; [repeat constructor|]. split; [apply ex_rt; cbn; [lra|lia]|]. split; [apply ex_rt; cbn; [lra|lia]|].
  split. { intros x y t. cbn. f_equal. f_equal. ring. }
  split. { cbn. intros H. apply (f_equal snd) in H. cbn in H. lra. }
  apply C105_solver.
Qed.
