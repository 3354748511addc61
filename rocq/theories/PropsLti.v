(** C93: a sequence of propagate / apply_optics / write_to_file calls is a linear, time-invariant system. *)
From Verif Require Import PyBase CSum NumPy GridModel GridSpec EnergyModel LaserSpec LaserModel LaserOps LaserExamples ProfileModel LtiSpec LtiProofs LtiStep LtiMain LtiExamples.
Open Scope R_scope.

(** One transfer kernel per history: it is the same for every profile of the same carrier frequency and every time
    origin; it acts frequency by frequency and, in rt geometry, azimuthal mode by azimuthal mode. *)
Theorem C93_transfer :
  forall S d lo hi np p nm nte L h, linear_solver S ->
  laser_init d lo hi np p nm nte = Ok L -> Forall linear_op h -> clean S L h ->
  exists n0 n1 nt m0 m1 T, (d = Rt -> mode_diagonal T) /\
    forall tau p' L', p_omega0 p' = p_omega0 p -> laser_init d (later tau lo) (later tau hi) np p' nm nte = Ok L' ->
      clean S L' h /\ outcomes S L' h = outcomes S L h /\
      axes_later tau (g_axes (l_grid (lrun S L h))) (g_axes (l_grid (lrun S L' h))) /\
      exists s s', snd (get_spectral_field (l_grid L')) = Ok s /\ shp s = [n0; n1; nt] /\
        snd (get_spectral_field (l_grid (lrun S L' h))) = Ok s' /\ shp s' = [m0; m1; nt] /\
        forall i j k, (i < m0)%nat -> (j < m1)%nat -> (k < nt)%nat -> at3 s' i j k = kapply n0 n1 T (at3 s) i j k.
Proof. exact c93_transfer. Qed.
Print Assumptions C93_transfer.

(** Superposition of the temporal fields. *)
Theorem C93_superposition :
  forall S d lo hi np p q r nm nte Lp Lq Lr (a b : C) h, linear_solver S ->
  p_energy p = None -> p_energy q = None -> p_energy r = None ->
  p_omega0 q = p_omega0 p -> p_omega0 r = p_omega0 p ->
  (forall x y t, p_eval r x y t = Cplus (Cmult a (p_eval p x y t)) (Cmult b (p_eval q x y t))) ->
  laser_init d lo hi np p nm nte = Ok Lp -> laser_init d lo hi np q nm nte = Ok Lq -> laser_init d lo hi np r nm nte = Ok Lr ->
  Forall linear_op h -> clean S Lp h ->
  outcomes S Lq h = outcomes S Lp h /\ outcomes S Lr h = outcomes S Lp h /\
  g_axes (l_grid (lrun S Lq h)) = g_axes (l_grid (lrun S Lp h)) /\ g_axes (l_grid (lrun S Lr h)) = g_axes (l_grid (lrun S Lp h)) /\
  exists m0 m1 nt fp fq fr,
    snd (get_temporal_field (l_grid (lrun S Lp h))) = Ok fp /\ shp fp = [m0; m1; nt] /\
    snd (get_temporal_field (l_grid (lrun S Lq h))) = Ok fq /\ shp fq = [m0; m1; nt] /\
    snd (get_temporal_field (l_grid (lrun S Lr h))) = Ok fr /\ shp fr = [m0; m1; nt] /\
    forall i j k, (i < m0)%nat -> (j < m1)%nat -> (k < nt)%nat ->
      at3 fr i j k = Cplus (Cmult a (at3 fp i j k)) (Cmult b (at3 fq i j k)).
Proof. exact c93_superposition. Qed.
Print Assumptions C93_superposition.

(** ... in particular for the profile that the user writes p + q. *)
Theorem C93_sum_of_profiles :
  forall S d lo hi np p q r nm nte Lp Lq Lr h, linear_solver S ->
  p_energy p = None -> p_energy q = None ->
  p_omega0 p = 2 * PI * c_light / p_lambda0 p -> p_omega0 q = p_omega0 p ->
  py_add (VProf p) (VProf q) = Ok (VProf r) ->
  laser_init d lo hi np p nm nte = Ok Lp -> laser_init d lo hi np q nm nte = Ok Lq -> laser_init d lo hi np r nm nte = Ok Lr ->
  Forall linear_op h -> clean S Lp h ->
  exists m0 m1 nt fp fq fr,
    snd (get_temporal_field (l_grid (lrun S Lp h))) = Ok fp /\ shp fp = [m0; m1; nt] /\
    snd (get_temporal_field (l_grid (lrun S Lq h))) = Ok fq /\ shp fq = [m0; m1; nt] /\
    snd (get_temporal_field (l_grid (lrun S Lr h))) = Ok fr /\ shp fr = [m0; m1; nt] /\
    forall i j k, (i < m0)%nat -> (j < m1)%nat -> (k < nt)%nat ->
      at3 fr i j k = Cplus (at3 fp i j k) (at3 fq i j k).
Proof. exact c93_sum. Qed.
Print Assumptions C93_sum_of_profiles.

(** Time origin: the profile delayed by tau on the window delayed by tau (the same energy requested, or none). *)
Theorem C93_time_origin :
  forall S d lo hi np p p' nm nte tau L L' h, linear_solver S ->
  p_omega0 p' = p_omega0 p -> p_energy p' = p_energy p ->
  (forall x y t, p_eval p' x y t = p_eval p x y (t - tau)) ->
  laser_init d lo hi np p nm nte = Ok L -> laser_init d (later tau lo) (later tau hi) np p' nm nte = Ok L' ->
  Forall linear_op h -> clean S L h ->
  outcomes S L' h = outcomes S L h /\
  axes_later tau (g_axes (l_grid (lrun S L h))) (g_axes (l_grid (lrun S L' h))) /\
  exists m0 m1 nt f f',
    snd (get_temporal_field (l_grid (lrun S L h))) = Ok f /\ shp f = [m0; m1; nt] /\
    snd (get_temporal_field (l_grid (lrun S L' h))) = Ok f' /\ shp f' = [m0; m1; nt] /\
    forall i j k, (i < m0)%nat -> (j < m1)%nat -> (k < nt)%nat -> at3 f' i j k = at3 f i j k.
Proof. exact c93_time_origin. Qed.
Print Assumptions C93_time_origin.

(** No frequency and (rt) no azimuthal mode is created. *)
Theorem C93_selection :
  forall S d lo hi np p nm nte L h, linear_solver S ->
  laser_init d lo hi np p nm nte = Ok L -> Forall linear_op h -> clean S L h ->
  exists n0 n1 nt m0 m1 s s',
    snd (get_spectral_field (l_grid L)) = Ok s /\ shp s = [n0; n1; nt] /\
    snd (get_spectral_field (l_grid (lrun S L h))) = Ok s' /\ shp s' = [m0; m1; nt] /\
    (forall k, (k < nt)%nat -> (forall i j, (i < n0)%nat -> (j < n1)%nat -> at3 s i j k = RtoC 0) ->
       forall i j, (i < m0)%nat -> (j < m1)%nat -> at3 s' i j k = RtoC 0) /\
    (d = Rt -> forall i k, (i < m0)%nat -> (k < nt)%nat -> (forall j, (j < n1)%nat -> at3 s i j k = RtoC 0) ->
       forall j, (j < m1)%nat -> at3 s' i j k = RtoC 0).
Proof. exact c93_selection. Qed.
Print Assumptions C93_selection.

(** A linear solver, two profiles and their sum, delayed windows, and a history with an optic, a propagation with
    an absorbing boundary, a failing propagation and another propagation. *)
Example C93_solver : linear_solver linear_example.
Proof. exact linear_example_ok. Qed.
Definition c93_lens : optic := fun x y w w0 => cis (- w * (x ^ 2 + y ^ 2)).
Definition c93_history : list lop :=
  [OpOptics c93_lens; OpPropagate 3 (Some (PyInt 2)) None 0%nat; OpPropagate 1 (Some (PyInt (-7))) None 0%nat; OpPropagate (-1) None None 1%nat].
Definition c93_vortex2 : profile :=
  mkProfile (2 * PI * c_light) 1 (RtoC 1, RtoC 0) None Complex128 (fun x y t => Cmult (x, - y) (cis (t - 1))).
Example C93_history_ok : Forall linear_op c93_history /\ forall S L, clean S L c93_history.
Proof.
  split; [repeat constructor|]. intros S L. unfold c93_history. cbn [clean].
  repeat (split; [left; exact I|]). exact I.
Qed.
Example C93_nonvacuous_xyt : (exists L, laser_init Xyt [-1;-2;-3] [1;2;4] [4;3;5]%nat (ex_prof (Some (Some 2))) 1 None = Ok L) /\
  exists L, laser_init Xyt (later 5 [-1;-2;-3]) (later 5 [1;2;4]) [4;3;5]%nat
    (mkProfile (2 * PI * c_light) 1 (RtoC 1, RtoC 0) (Some (Some 2)) Complex128 (fun x y t => p_eval (ex_prof None) x y (t - 5))) 1 None = Ok L.
Proof.
  split; [apply ex_xyt; cbn; lra|]. apply LaserInitProofs.xyt_construct_ok; simpl; try lia; try lra; try reflexivity.
Qed.
Example C93_nonvacuous_rt : (exists L, laser_init Rt [0;-3] [2;4] [4;5]%nat ex_vortex 2 None = Ok L) /\
  (exists L, laser_init Rt [0;-3] [2;4] [4;5]%nat c93_vortex2 2 None = Ok L) /\
  exists r L, py_add (VProf ex_vortex) (VProf c93_vortex2) = Ok (VProf r) /\ laser_init Rt [0;-3] [2;4] [4;5]%nat r 2 None = Ok L.
Proof.
  split; [apply ex_rt; cbn; [exact I|lia]|]. split; [apply ex_rt; cbn; [exact I|lia]|].
  assert (H : exists r, py_add (VProf ex_vortex) (VProf c93_vortex2) = Ok (VProf r)).
  { apply ProfileProofs.c40_iff. cbn [ex_vortex c93_vortex2 p_lambda0 p_pol fst snd].
    unfold Cminus. rewrite !Cplus_opp_r, Rminus_eq_0, Rabs_R0, Cmod_0.
    assert (0 < / 10 ^ 8) by (apply Rinv_0_lt_compat, pow_lt; lra). assert (0 < / 10 ^ 5) by (apply Rinv_0_lt_compat, pow_lt; lra).
    pose proof (Rabs_pos 1). pose proof (Cmod_ge_0 (RtoC 1)). pose proof (Cmod_ge_0 (RtoC 0)).
    repeat split; nra. }
  destruct H as (r & Hr). exists r.
  destruct (ex_rt r None) as (L & HL); [|cbn; lia|exists L; auto].
  cbn [py_add] in Hr. unfold vbind in Hr. destruct (summed_profile _) as [r'|] eqn:E; [|discriminate]. cbn [bind] in Hr. injection Hr as ->.
  destruct (ProfileProofs.summed_inv _ _ E) as (p0 & ps & _ & _ & Er & _). rewrite Er. exact I.
Qed.
