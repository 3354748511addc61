(** C99: the energy of every frequency, over histories. *)
From Verif Require Import PyBase CSum NumPy GridModel GridSpec EnergyModel LaserSpec LaserModel LaserOps OpticsModel SolverSpec LaserInitProofs LaserExamples OpticsProofs OpticsProofs2 SolverProofs PropLaws LtiSpec LedgerSpec LedgerProofs.
Open Scope R_scope.

(** Elements that do not amplify, propagations with or without an absorbing layer (a solver that conserves the energy of
    every frequency), calls that fail, writes: no frequency ever gains energy, nor does the pulse. *)
Theorem C99_passive :
  forall S d lo hi np p nm nte L0 h0 h, unitary S ->
  laser_init d lo hi np p nm nte = Ok L0 -> Forall no_resample h0 -> Forall passive_op h ->
  (forall q, (q < ndims_of d)%nat -> nth q lo 0 < nth q hi 0) -> (d = Rt -> 0 <= nth 0 lo 0) ->
  let L := lrun S L0 h0 in let L' := lrun S L h in
  exists n0 n1 nt s s' e e', snd (get_spectral_field (l_grid L)) = Ok s /\ shp s = [n0; n1; nt] /\
    snd (get_spectral_field (l_grid L')) = Ok s' /\ shp s' = [n0; n1; nt] /\
    (forall k, (k < nt)%nat -> freq_power d (l_grid L') s' k <= freq_power d (l_grid L) s k) /\
    snd (compute_laser_energy d (l_grid L)) = Ok e /\ snd (compute_laser_energy d (l_grid L')) = Ok e' /\ e' <= e.
Proof. exact c99_passive. Qed.
Print Assumptions C99_passive.

(** Without an absorbing layer, and with elements whose transmission depends on the frequency only, the energy of every
    frequency is the initial one times the product of the transmissions; phase elements conserve the energy. *)
Theorem C99_ledger :
  forall S d lo hi np p nm nte L0 h0 h G, unitary S ->
  laser_init d lo hi np p nm nte = Ok L0 -> Forall no_resample h0 -> transmits h G ->
  (forall q, (q < ndims_of d)%nat -> nth q lo 0 < nth q hi 0) -> (d = Rt -> 0 <= nth 0 lo 0) ->
  let L := lrun S L0 h0 in let L' := lrun S L h in
  exists n0 n1 nt s s' e e', nth_error np (ndims_of d - 1) = Some nt /\
    snd (get_spectral_field (l_grid L)) = Ok s /\ shp s = [n0; n1; nt] /\
    snd (get_spectral_field (l_grid L')) = Ok s' /\ shp s' = [n0; n1; nt] /\
    (forall k, (k < nt)%nat -> freq_power d (l_grid L') s' k =
       G (p_omega0 p + dft_omega nt (spacing (nth (ndims_of d - 1) lo 0) (nth (ndims_of d - 1) hi 0) nt) k) (p_omega0 p) * freq_power d (l_grid L) s k) /\
    snd (compute_laser_energy d (l_grid L)) = Ok e /\ snd (compute_laser_energy d (l_grid L')) = Ok e' /\
    ((forall w w0, G w w0 = 1) -> e' = e).
Proof. exact c99_ledger. Qed.
Print Assumptions C99_ledger.

(** The library's elements: mirror, axicon, axiparabola and spectral phase are passive; all but the axiparabola (which is
    an aperture too) transmit everything. *)
Theorem C99_elements :
  (forall f, passive_op (OpOptics (parabolic_mirror f))) /\ (forall gamma, passive_op (OpOptics (axicon gamma))) /\
  (forall f0 delta Rad, passive_op (OpOptics (axiparabola f0 delta Rad))) /\
  (forall gdd tod fod, passive_op (OpOptics (polynomial_spectral_phase gdd tod fod))) /\
  forall f gamma gdd tod fod x y w w0, Cmod (parabolic_mirror f x y w w0) ^ 2 = 1 /\ Cmod (axicon gamma x y w w0) ^ 2 = 1 /\
    Cmod (polynomial_spectral_phase gdd tod fod x y w w0) ^ 2 = 1.
Proof.
  cbn [passive_op]. split; [intros; rewrite mirror_unit; lra|]. split; [intros; rewrite axicon_unit; lra|].
  split; [intros; apply axiparabola_le|]. split; [intros; rewrite poly_unit; lra|].
  intros f gamma gdd tod fod x y w w0. rewrite mirror_unit, axicon_unit, poly_unit. repeat split; ring.
Qed.
Print Assumptions C99_elements.

(** The angular-spectrum solver; a history with a mirror, propagations with and without a layer, a rejected call and a
    filter that transmits a quarter of the carrier frequency. *)
Definition c99_filter : optic := fun x y w w0 => RtoC (/ (1 + (w / w0) ^ 2)).
Definition c99_history : list lop :=
  [OpOptics (parabolic_mirror 3); OpPropagate 2 None None 0%nat; OpOptics c99_filter; OpPropagate 1 (Some PyOther) None 0%nat].
Example C99_nonvacuous : unitary asm_solvers /\
  (exists L, laser_init Xyt [-1;-2;-3] [1;2;4] [4;3;5]%nat (ex_prof (Some (Some 2))) 1 None = Ok L) /\
  (exists L, laser_init Rt [0;-3] [2;4] [4;5]%nat ex_vortex 2 None = Ok L) /\
  Forall passive_op (OpPropagate 1 (Some (PyInt 2)) None 0%nat :: c99_history) /\
  transmits c99_history (fun w w0 => 1 * ((/ (1 + (w / w0) ^ 2)) ^ 2 * 1)) /\
  (forall w, w <> 0 -> 1 * ((/ (1 + (w / w) ^ 2)) ^ 2 * 1) = / 4).
Proof.
  assert (Hf : forall x y w w0, Cmod (c99_filter x y w w0) = / (1 + (w / w0) ^ 2)).
  { intros. unfold c99_filter. rewrite Cmod_R. apply Rabs_right. pose proof (pow2_ge_0 (w / w0)). assert (0 < / (1 + (w / w0) ^ 2)) by (apply Rinv_0_lt_compat; lra). lra. }
  split; [exact asm_unitary|]. split; [apply ex_xyt; cbn; lra|]. split; [apply ex_rt; cbn; [exact I|lia]|].
  split; [|split].
  - unfold c99_history. apply Forall_cons; [exact I|]. apply Forall_cons; [cbn [passive_op]; intros; rewrite mirror_unit; lra|].
    apply Forall_cons; [exact I|]. apply Forall_cons; [|apply Forall_cons; [exact I|constructor]].
    cbn [passive_op]. intros x y w w0. rewrite Hf. pose proof (pow2_ge_0 (w / w0)). rewrite <- Rinv_1 at 2. apply Rinv_le_contravar; lra.
  - unfold c99_history.
    apply (tr_element (parabolic_mirror 3) (fun _ _ => 1) _ (fun w w0 => (/ (1 + (w / w0) ^ 2)) ^ 2 * 1)); [intros; rewrite mirror_unit; ring|].
    apply tr_propagate. apply (tr_element c99_filter (fun w w0 => (/ (1 + (w / w0) ^ 2)) ^ 2) _ (fun _ _ => 1)); [intros; rewrite Hf; ring|].
    apply tr_rejected; [left; reflexivity|constructor].
  - intros w Hw. field. exact Hw.
Qed.
