(** C107: there is no preferred place and no preferred instant: moving the window, the pulse and the optical elements across
    and in time changes nothing but the axes, after every history of a Cartesian laser. *)
From Coq Require Import FunctionalExtensionality.
From Verif Require Import PyBase CSum NumPy GridModel GridSpec GridObs EnergyModel LaserSpec LaserModel LaserOps LaserInv LaserStepProofs HistoryProofs LaserInitProofs LaserExamples LtiSpec LtiProofs LtiNorm WaveSolver AnalysisModel DataModel SpectrumModel MirrorSpec MirrorProofs MirrorWave TransProofs MoveSpec MoveProofs MoveMain.
Open Scope R_scope.

Theorem C107_moved :
  forall S a b c lo hi np p nm nte L h, local_solver S ->
  laser_init Xyt lo hi np p nm nte = Ok L ->
  exists L', laser_init Xyt (move3 a b c lo) (move3 a b c hi) np (move_profile a b c p) nm nte = Ok L' /\
  let K := lrun S L h in let K' := lrun S L' (map (move_op a b c) h) in
  outcomes S L' (map (move_op a b c) h) = outcomes S L h /\
  (exists x y t, g_axes (l_grid K) = [x; y; t] /\
     g_axes (l_grid K') = [map (fun u => u + a) x; map (fun u => u + b) y; map (fun u => u + c) t]) /\
  snd (compute_laser_energy Xyt (l_grid K')) = snd (compute_laser_energy Xyt (l_grid K)) /\
  snd (get_duration Xyt (l_grid K')) = snd (get_duration Xyt (l_grid K)) /\
  (forall range bins w m, m = MSum \/ m = MOnAxis ->
     snd (get_spectrum Xyt (l_grid K') range bins w m) = snd (get_spectrum Xyt (l_grid K) range bins w m)) /\
  (exists n0 n1 nt f f', snd (get_temporal_field (l_grid K)) = Ok f /\ shp f = [n0; n1; nt] /\
     snd (get_temporal_field (l_grid K')) = Ok f' /\ shp f' = [n0; n1; nt] /\
     forall i j k, (i < n0)%nat -> (j < n1)%nat -> (k < nt)%nat -> at3 f' i j k = at3 f i j k) /\
  (exists n0 nt img img' t0 t1 x0 x1, snd (show_image K) = Ok (img, [t0; t1; x0; x1]) /\
     snd (show_image K') = Ok (img', [t0 + c; t1 + c; x0 + a; x1 + a]) /\ shp img = [n0; nt] /\ shp img' = [n0; nt] /\
     forall i k q, (i < n0)%nat -> (k < nt)%nat -> at3 img' i k q = at3 img i k q).
Proof.
  intros S a b c lo hi np p nm nte L h HS H. destruct (laser_init_move a b c _ _ _ _ _ _ _ H) as (L' & n0 & n1 & nt & H' & HM & Hd).
  exists L'. split; [exact H'|]. destruct (moved_run a b c S h HS L L' n0 n1 nt Hd HM) as ((G & HP & HR & E) & O & Hd'). cbn zeta. rewrite E, O. split; [reflexivity|].
  pose proof (three_of _ _ _ _ (pa_inv _ _ _ _ _ _ HP) Hd') as H3. split.
  { destruct (len3 _ (th_axes _ H3)) as (x & y & t & Ex). exists x, y, t. split; [exact Ex|]. cbn [ml l_grid move_grid g_axes]. rewrite (Par0_axes _ _ _ _ _ HP), Ex. reflexivity. }
  split; [exact (two_energy a b c _ _ n0 n1 nt HP HR)|]. split; [exact (two_duration a b c _ _ n0 n1 nt Hd' HP HR)|].
  split; [intros range bins w m; exact (two_spectrum a b c _ _ n0 n1 nt Hd' HP HR range bins w m)|]. split.
  { destruct (two_reads _ _ _ _ _ HP HR) as (f & f' & F1 & F2 & F3 & F4 & F5). exists n0, n1, nt, f, f'. split; [exact F1|]. split; [exact F2|].
    split; [cbn [ml l_grid]; change (tread (move_grid a b c (l_grid G)) = Ok f'); rewrite tread_mg; exact F3|]. split; [exact F4 | exact F5]. }
  destruct (two_show a b c _ _ n0 n1 nt Hd' HP HR) as (img & img' & e & S1 & S2 & S3 & S4 & S5).
  assert (Ee : exists t0 t1 x0 x1, e = [t0; t1; x0; x1]).
  { revert S1. unfold show_image, with_field. cbn [snd]. destruct (snd (get_temporal_field (l_grid (lrun S L h)))) as [f|]; [|discriminate]. rewrite Hd'. intros X. injection X as _ <-. cbn [full_extent]. eauto. }
  destruct Ee as (t0 & t1 & x0 & x1 & ->). exists n0, nt, img, img', t0, t1, x0, x1. cbn [moved_extent] in S2. auto.
Qed.
Print Assumptions C107_moved.

(** The real field in a plane is the same image, when only the place changes. *)
Theorem C107_full_field :
  forall S a b lo hi np p nm nte L h, local_solver S ->
  laser_init Xyt lo hi np p nm nte = Ok L ->
  exists L', laser_init Xyt (move3 a b 0 lo) (move3 a b 0 hi) np (move_profile a b 0 p) nm nte = Ok L' /\
  forall theta s sa,
  match snd (get_full_field (lrun S L h) theta s sa), snd (get_full_field (lrun S L' (map (move_op a b 0) h)) theta s sa) with
  | Ok (Some (img, e)), Ok (Some (img', e')) =>
      (exists t0 t1 x0 x1, e = [t0; t1; x0; x1] /\ e' = [t0; t1; x0 + a; x1 + a]) /\ shp img' = shp img /\
      forall i k q, (i < dim0 img)%nat -> (k < dim1 img)%nat -> at3 img' i k q = at3 img i k q
  | Ok None, Ok None => True
  | Err x, Err x' => x' = x
  | _, _ => False
  end.
Proof.
  intros S a b lo hi np p nm nte L h HS H. destruct (laser_init_move a b 0 _ _ _ _ _ _ _ H) as (L' & n0 & n1 & nt & H' & HM & Hd).
  exists L'. split; [exact H'|]. destruct (moved_run a b 0 S h HS L L' n0 n1 nt Hd HM) as ((G & HP & HR & E) & O & Hd'). rewrite E. intros theta s sa.
  pose proof (two_full a b 0 _ _ n0 n1 nt Hd' HP HR theta s sa eq_refl) as X.
  destruct (snd (get_full_field (lrun S L h) theta s sa)) as [[[img e]|]|x] eqn:E1; destruct (snd (get_full_field (ml a b 0 G) theta s sa)) as [[[img' e']|]|x']; try exact X.
  destruct X as (-> & X2 & X3). split; [|split; assumption].
  assert (Ee : exists t0 t1 x0 x1, e = [t0; t1; x0; x1]).
  { revert E1. unfold get_full_field, with_field. cbn [snd]. destruct (snd (get_temporal_field (l_grid (lrun S L h)))) as [f|]; [|discriminate]. unfold full_field.
    destruct (negb _); [discriminate|]. rewrite Hd'. destruct sa; [destruct (py_index _ _); [|discriminate]|destruct (py_index _ _); [|discriminate]|discriminate]; intros X; injection X as _ <-; cbn [full_extent]; eauto. }
  destruct Ee as (t0 & t1 & x0 & x1 & ->). exists t0, t1, x0, x1. cbn [moved_extent]. rewrite !Rplus_0_r. auto.
Qed.
Print Assumptions C107_full_field.

(** The exact angular-spectrum method is such a solver. *)
Theorem C107_solver : forall kr0, local_solver (wave_solvers kr0).
Proof. intros kr0. exact (wave_solvers_mirror false false kr0). Qed.
Print Assumptions C107_solver.

(** A tilted pulse, a lens, absorbing layers, failing calls, moved by (5, -7) and 11. *)
Definition c107_history : list lop :=
  [OpOptics (fun x y w w0 => cis (- w * x ^ 2 + y)); OpNormalize (Some 3) KField; OpPropagate 3 (Some (PyInt 1)) None 0%nat;
   OpNormalize (Some 3) KIntensity; OpPropagate 1 (Some (PyInt 9)) None 0%nat; OpNormalize (Some 2) KEnergy; OpPropagate (-1) None None 1%nat].
Example C107_nonvacuous : local_solver (wave_solvers 1) /\
  (exists L, laser_init Xyt [-1;-2;-3] [1;2;4] [4;3;5]%nat (ex_prof (Some (Some 3))) 1 None = Ok L /\ length (outcomes (wave_solvers 1) L c107_history) = 7%nat) /\
  move3 5 (-7) 11 [-1;-2;-3] = [4; -9; 8] /\
  p_eval (move_profile 5 (-7) 11 (ex_prof None)) 5 (-7) 11 = p_eval (ex_prof None) 0 0 0 /\
  move_op 5 0 0 (OpOptics (fun x _ _ _ => RtoC x)) <> OpOptics (fun x _ _ _ => RtoC x).
Proof.
  split; [apply (wave_solvers_mirror false false 1)|]. split.
  { destruct (ex_xyt (Some (Some 3)) ltac:(cbn; lra)) as (L & HL). exists L. split; [exact HL | reflexivity]. }
  split. { cbn [move3]. repeat (f_equal; try lra). }
  split. { unfold move_profile. cbn [p_eval]. rewrite !Rminus_eq_0. reflexivity. }
  cbn [move_op]. intros X. injection X as X. apply (f_equal (fun e : optic => Re (e 0 0 0 0))) in X. cbn in X. lra.
Qed.
