(** C98: a global phase of the pulse, and a rotation of the pulse about the axis (rt geometry), go through every history. *)
From Verif Require Import PyBase CSum NumPy GridModel GridSpec EnergyModel LaserSpec LaserModel LaserOps LaserInitProofs LaserExamples LtiSpec LtiExamples RotProofs.
Open Scope R_scope.

(** A pulse with another carrier-envelope phase: every later field has that phase, every call ends the same way
    (propagate, apply_optics, normalize of every kind, write_to_file), the axes and the energy are the same. *)
Theorem C98_phase :
  forall S d lo hi np p p' nm nte L L' phi h, linear_solver S ->
  p_omega0 p' = p_omega0 p -> p_energy p' = p_energy p ->
  (forall x y t, p_eval p' x y t = Cmult (cis phi) (p_eval p x y t)) ->
  laser_init d lo hi np p nm nte = Ok L -> laser_init d lo hi np p' nm nte = Ok L' ->
  Forall user_op h -> clean S L h ->
  outcomes S L' h = outcomes S L h /\ g_axes (l_grid (lrun S L' h)) = g_axes (l_grid (lrun S L h)) /\
  snd (compute_laser_energy d (l_grid (lrun S L' h))) = snd (compute_laser_energy d (l_grid (lrun S L h))) /\
  exists m0 m1 nt f f',
    snd (get_temporal_field (l_grid (lrun S L h))) = Ok f /\ shp f = [m0; m1; nt] /\
    snd (get_temporal_field (l_grid (lrun S L' h))) = Ok f' /\ shp f' = [m0; m1; nt] /\
    forall i j k, (i < m0)%nat -> (j < m1)%nat -> (k < nt)%nat -> at3 f' i j k = Cmult (cis phi) (at3 f i j k).
Proof. exact c98_phase. Qed.
Print Assumptions C98_phase.

(** A pulse whose azimuthal content fits the M modes of the grid, and the same pulse turned by alpha: after every
    history the 3D field of the second (summed over its modes) is that of the first turned by alpha. *)
Theorem C98_rotation :
  forall S (M : nat) lo hi np p p' nte L L' (A : Z -> R -> R -> C) alpha h, linear_solver S ->
  p_omega0 p' = p_omega0 p -> p_energy p' = p_energy p ->
  0 <= nth 0 lo 0 -> nth 0 lo 0 < nth 0 hi 0 -> nth 1 lo 0 < nth 1 hi 0 ->
  (forall r t theta, p_eval p (r * cos theta) (r * sin theta) t = recon M (fun m => A m r t) theta) ->
  (forall x y t, p_eval p' x y t = p_eval p (x * cos alpha - y * sin alpha) (x * sin alpha + y * cos alpha) t) ->
  (2 * Z.of_nat M - 1 <= match nte with None => 2 * Z.of_nat M - 1 | Some n => n end)%Z ->
  laser_init Rt lo hi np p (Z.of_nat M) nte = Ok L -> laser_init Rt lo hi np p' (Z.of_nat M) nte = Ok L' ->
  Forall user_op h -> clean S L h ->
  outcomes S L' h = outcomes S L h /\ g_axes (l_grid (lrun S L' h)) = g_axes (l_grid (lrun S L h)) /\
  snd (compute_laser_energy Rt (l_grid (lrun S L' h))) = snd (compute_laser_energy Rt (l_grid (lrun S L h))) /\
  exists m0 m1 nt f f',
    snd (get_temporal_field (l_grid (lrun S L h))) = Ok f /\ shp f = [m0; m1; nt] /\
    snd (get_temporal_field (l_grid (lrun S L' h))) = Ok f' /\ shp f' = [m0; m1; nt] /\
    (forall i j k, (i < m0)%nat -> (j < m1)%nat -> (k < nt)%nat -> Cmod (at3 f' i j k) = Cmod (at3 f i j k)) /\
    (m0 = (2 * M - 1)%nat -> forall j k theta, (j < m1)%nat -> (k < nt)%nat ->
       recon M (comp M f' j k) theta = recon M (comp M f j k) (theta + alpha)).
Proof.
  intros S M lo hi np p p' nte L L' A alpha h HS Hw HE B0 B1 B2 Hb Hr.
  apply (c98_rotation S M lo hi np p p' nte L L' A alpha h HS Hw HE B0 B1 B2 Hb).
  intros r t theta. rewrite Hr, cos_plus, sin_plus. f_equal; ring.
Qed.
Print Assumptions C98_rotation.

(** A beam that is not symmetric about the axis (a vortex on top of a plane wave), turned by one radian, and a history
    with an optic, propagations (one of them failing) and all kinds of normalization. *)
Definition c98_beam (E : option (option R)) : profile :=
  mkProfile (2 * PI * c_light) 1 (RtoC 1, RtoC 0) E Complex128 (fun x y t => Cplus (RtoC 1) (x, - y)).
Definition c98_turned (E : option (option R)) : profile :=
  mkProfile (2 * PI * c_light) 1 (RtoC 1, RtoC 0) E Complex128
    (fun x y t => Cplus (RtoC 1) (x * cos 1 - y * sin 1, - (x * sin 1 + y * cos 1))).
Definition c98_lens : optic := fun x y w w0 => cis (- w * (x ^ 2 + y ^ 2)).
Definition c98_history : list lop :=
  [OpOptics c98_lens; OpNormalize (Some 3) KField; OpPropagate 3 (Some (PyInt 2)) None 0%nat; OpNormalize (Some 3) KIntensity;
   OpPropagate 1 (Some (PyInt (-7))) None 0%nat; OpNormalize (Some 2) KEnergy; OpPropagate (-1) None None 1%nat].
Example C98_nonvacuous : linear_solver linear_example /\ Forall user_op c98_history /\ (forall S L, clean S L c98_history) /\
  (exists L, laser_init Rt [0;-3] [2;4] [4;5]%nat (c98_beam (Some (Some 2))) 2 None = Ok L) /\
  (exists L, laser_init Rt [0;-3] [2;4] [4;5]%nat (c98_turned (Some (Some 2))) 2 None = Ok L) /\
  (forall r t theta, p_eval (c98_beam None) (r * cos theta) (r * sin theta) t =
     recon 2 (fun m => if Z.eqb m 1 then RtoC r else if Z.eqb m 0 then RtoC 1 else RtoC 0) theta).
Proof.
  split; [exact linear_example_ok|]. split; [repeat constructor|]. split.
  { intros S L. unfold c98_history. cbn [clean]. repeat (split; [left; exact I|]). exact I. }
  split; [apply ex_rt; cbn; [lra|lia]|]. split; [apply ex_rt; cbn; [lra|lia]|].
  intros r t theta. unfold c98_beam, recon; cbn [p_eval]. cbn [csum Nat.mul Nat.sub Nat.add]. cbn.
  unfold cis, Cplus, Cmult, RtoC; cbn [fst snd]. f_equal.
  - replace (1 * theta) with theta by ring. replace (- (0 * theta)) with 0 by ring. rewrite (cos_neg theta), cos_0. ring.
  - replace (1 * theta) with theta by ring. replace (- (0 * theta)) with 0 by ring. rewrite (sin_neg theta), sin_0. ring.
Qed.
