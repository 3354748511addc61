(** C94: a purely spectral element can be placed anywhere in a history.
    C95: normalize only rescales, wherever it stands in a history. *)
From Verif Require Import PyBase CSum NumPy GridModel GridSpec EnergyModel LaserSpec LaserModel LaserOps OpticsModel LaserExamples LtiSpec LtiProofs LtiStep LtiMain LtiNorm LtiExamples PropsLti.
Open Scope R_scope.

(** The calls e, h give the same field on the same axes as the calls h, e. *)
Theorem C94_commute :
  forall S L e h, linear_solver S -> reachable S L -> spectral_element e -> Forall linear_op h -> clean S L h ->
  let A := lrun S L (OpOptics e :: h) in let B := lrun S L (h ++ [OpOptics e]) in
  outcomes S (fst (lstep S L (OpOptics e))) h = outcomes S L h /\
  g_axes (l_grid A) = g_axes (l_grid B) /\
  exists m0 m1 nt fa fb, snd (get_temporal_field (l_grid A)) = Ok fa /\ shp fa = [m0; m1; nt] /\
    snd (get_temporal_field (l_grid B)) = Ok fb /\ shp fb = [m0; m1; nt] /\
    forall i j k, (i < m0)%nat -> (j < m1)%nat -> (k < nt)%nat -> at3 fa i j k = at3 fb i j k.
Proof. exact c94_commute. Qed.
Print Assumptions C94_commute.
(** PolynomialSpectralPhase is such an element (for every dispersion). *)
Example C94_spectral_phase : forall gdd tod fod, spectral_element (polynomial_spectral_phase gdd tod fod).
Proof. intros gdd tod fod x y x' y' w w0. reflexivity. Qed.

(** A history and the same history without its normalize calls: the same field up to one positive factor, on the same
    axes, and the other calls end in the same way. *)
Theorem C95_normalize :
  forall S L h, linear_solver S -> reachable S L -> positive_cells (l_dim L) (l_grid L) ->
  Forall scaling_op h -> clean S L (without_normalize h) ->
  let A := lrun S L h in let B := lrun S L (without_normalize h) in
  other_outcomes S L h = other_outcomes S L (without_normalize h) /\
  g_axes (l_grid A) = g_axes (l_grid B) /\
  exists c m0 m1 nt fa fb, 0 < c /\ snd (get_temporal_field (l_grid A)) = Ok fa /\ shp fa = [m0; m1; nt] /\
    snd (get_temporal_field (l_grid B)) = Ok fb /\ shp fb = [m0; m1; nt] /\
    forall i j k, (i < m0)%nat -> (j < m1)%nat -> (k < nt)%nat -> at3 fa i j k = Cmult (RtoC c) (at3 fb i j k).
Proof. exact c95_normalize. Qed.
Print Assumptions C95_normalize.
(** Only the last normalization counts. *)
Theorem C95_last :
  forall S L h v kd, linear_solver S -> reachable S L -> positive_cells (l_dim L) (l_grid L) ->
  Forall scaling_op h -> clean S L (without_normalize h) -> 0 < v ->
  (kd = KField \/ (kd = KEnergy /\ snd (compute_laser_energy (l_dim L) (l_grid (lrun S L (without_normalize h)))) <> Ok 0)) ->
  let A := lrun S L (h ++ [OpNormalize (Some v) kd]) in let B := lrun S L (without_normalize h ++ [OpNormalize (Some v) kd]) in
  g_axes (l_grid A) = g_axes (l_grid B) /\
  exists m0 m1 nt fa fb, snd (get_temporal_field (l_grid A)) = Ok fa /\ shp fa = [m0; m1; nt] /\
    snd (get_temporal_field (l_grid B)) = Ok fb /\ shp fb = [m0; m1; nt] /\
    forall i j k, (i < m0)%nat -> (j < m1)%nat -> (k < nt)%nat -> at3 fa i j k = at3 fb i j k.
Proof. exact c95_last. Qed.
Print Assumptions C95_last.
(** Every laser built on a window with lo < hi (and radii from 0 up) has positive cells. *)
Theorem C95_cells :
  forall d lo hi np p nm nte L, laser_init d lo hi np p nm nte = Ok L ->
  (forall q, (q < ndims_of d)%nat -> nth q lo 0 < nth q hi 0) -> (d = Rt -> 0 <= nth 0 lo 0) -> positive_cells (l_dim L) (l_grid L).
Proof. exact laser_cells. Qed.
Print Assumptions C95_cells.

(** The hypotheses are met: a Cartesian and a cylindrical laser, a history with a lens, absorbing and failing
    propagations, and normalizations in between (one of them of the failing kind of C11). *)
Definition c95_history : list lop :=
  OpNormalize (Some 2) KEnergy :: c93_history ++ [OpNormalize (Some 3) KField; OpNormalize (Some 5) KIntensity; OpPropagate 2 None None 0%nat; OpNormalize None KOther].
Example C95_history_ok : Forall scaling_op c95_history /\ forall S L, clean S L (without_normalize c95_history).
Proof.
  split.
  - repeat constructor; cbn; lra.
  - intros S L. cbn [c95_history c93_history app without_normalize filter is_normalize negb clean].
    repeat (split; [left; exact I|]). exact I.
Qed.
Example C94_C95_nonvacuous : forall S,
  (exists L, laser_init Xyt [-1;-2;-3] [1;2;4] [4;3;5]%nat (ex_prof (Some (Some 2))) 1 None = Ok L /\ reachable S L /\ positive_cells (l_dim L) (l_grid L)) /\
  (exists L, laser_init Rt [0;-3] [2;4] [4;5]%nat ex_vortex 2 None = Ok L /\ reachable S L /\ positive_cells (l_dim L) (l_grid L)).
Proof.
  intros S. split.
  - destruct (ex_xyt (Some (Some 2)) ltac:(cbn; lra)) as (L & H). exists L. split; [exact H|]. split.
    + exact (reachable_init S _ _ _ _ _ _ _ L [] H (Forall_nil _) (Forall_nil _)).
    + eapply C95_cells; [exact H| |discriminate]. intros q Hq. cbn in Hq. destruct q as [|[|[|q]]]; [cbn; lra..|lia].
  - destruct (ex_rt ex_vortex None I ltac:(cbn; lia)) as (L & H). exists L. split; [exact H|]. split.
    + exact (reachable_init S _ _ _ _ _ _ _ L [] H (Forall_nil _) (Forall_nil _)).
    + eapply C95_cells; [exact H| |intros _; cbn; lra]. intros q Hq. cbn in Hq. destruct q as [|[|q]]; [cbn; lra..|lia].
Qed.
