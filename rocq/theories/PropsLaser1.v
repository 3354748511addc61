(** Property theorems C07-C19 (Laser construction, energy, optics, time window). *)
From Verif Require Import PyBase CSum NpFFT NumPy GridModel GridSpec GridProofs LaserSpec EnergyModel LaserModel OpticsModel LaserOps
  LaserInv LaserInitProofs HistoryProofs OpticsProofs OpticsProofs2 LaserExamples.
Open Scope R_scope.

(** C07: construction succeeds, and every sample is one common factor times the profile. *)
Theorem C07_xyt_samples :
  forall lo hi n0 n1 nt p nm nte,
  length lo = 3%nat -> length hi = 3%nat -> (2 <= n0)%nat -> (2 <= n1)%nat -> (2 <= nt)%nat ->
  nth 0 lo 0 < nth 0 hi 0 -> nth 1 lo 0 < nth 1 hi 0 -> nth 2 lo 0 < nth 2 hi 0 ->
  energy_request_ok (p_energy p) -> p_dtype p = Complex128 ->
  exists L, laser_init Xyt lo hi [n0;n1;nt] p nm nte = Ok L /\
  let f := fun i j k => p_eval p (coord (nth 0 lo 0) (nth 0 hi 0) n0 i)
                                 (coord (nth 1 lo 0) (nth 1 hi 0) n1 j)
                                 (coord (nth 2 lo 0) (nth 2 hi 0) nt k) in
  exists a s, snd (get_temporal_field (l_grid L)) = Ok a /\ shp a = [n0;n1;nt] /\ 0 <= s /\
    (forall i j k, (i < n0)%nat -> (j < n1)%nat -> (k < nt)%nat -> at3 a i j k = Cmult (RtoC s) (f i j k)) /\
    energy_factor (p_energy p) (E_xyt lo hi n0 n1 nt f) s.
Proof.
  intros. destruct (xyt_construct_ok lo hi n0 n1 nt p nm nte) as (L & HL); try assumption.
  exists L. split; [exact HL|]. apply (xyt_samples lo hi n0 n1 nt p nm nte); assumption.
Qed.
Print Assumptions C07_xyt_samples.
Example C07_nonvacuous :
  energy_request_ok (p_energy (ex_prof (Some (Some 3)))) /\ p_dtype (ex_prof (Some (Some 3))) = Complex128 /\
  exists L, laser_init Xyt [-1;-2;-3] [1;2;4] [4;3;5]%nat (ex_prof (Some (Some 3))) 1 None = Ok L.
Proof.
  assert (H : energy_request_ok (Some (Some 3))) by (simpl; lra).
  split; [exact H|split; [reflexivity|apply ex_xyt, H]].
Qed.

(** C07: the same for every construction that succeeds, whatever element type the profile returns. *)
Theorem C07_whenever_constructed :
  forall lo hi n0 n1 nt p nm nte L,
  laser_init Xyt lo hi [n0;n1;nt] p nm nte = Ok L ->
  nth 0 lo 0 < nth 0 hi 0 -> nth 1 lo 0 < nth 1 hi 0 -> nth 2 lo 0 < nth 2 hi 0 ->
  energy_request_ok (p_energy p) ->
  let f := fun i j k => p_eval p (coord (nth 0 lo 0) (nth 0 hi 0) n0 i)
                                 (coord (nth 1 lo 0) (nth 1 hi 0) n1 j)
                                 (coord (nth 2 lo 0) (nth 2 hi 0) nt k) in
  exists a s, snd (get_temporal_field (l_grid L)) = Ok a /\ shp a = [n0;n1;nt] /\ 0 <= s /\
    (forall i j k, (i < n0)%nat -> (j < n1)%nat -> (k < nt)%nat -> at3 a i j k = Cmult (RtoC s) (f i j k)) /\
    energy_factor (p_energy p) (E_xyt lo hi n0 n1 nt f) s.
Proof. exact xyt_samples. Qed.
Print Assumptions C07_whenever_constructed.

(** C07: a profile whose [evaluate] returns real numbers is refused in xyt, on every grid. *)
Theorem C07_real_rejected :
  forall lo hi np p nm nte g, p_dtype p = Float64 -> grid_init Xyt lo hi np (Some nm) true = Ok g ->
  laser_init Xyt lo hi np p nm nte = Err AssertionError.
Proof.
  intros lo hi np p nm nte g Hd Hg. unfold laser_init. rewrite Hg. cbn [bind].
  assert (HD : g_dtype g = Complex128).
  { unfold grid_init in Hg. cbn [pyassert bind] in Hg.
    destruct (Nat.eqb (length lo) 3), (Nat.eqb (length hi) 3); cbn [pyassert bind] in Hg; try discriminate.
    destruct (build_axes 3 0 lo hi np); cbn [bind] in Hg; [|discriminate]. inversion Hg; reflexivity. }
  unfold set_temporal_field, sample_xyt at 1 2. cbn [dty]. rewrite HD, Hd.
  destruct (shape_eqb _ _); reflexivity.
Qed.
Print Assumptions C07_real_rejected.
Example C07_rejected_nonvacuous :
  exists p g, p_dtype p = Float64 /\ grid_init Xyt [-1;-2;-3] [1;2;4] [4;3;5]%nat (Some 1%Z) true = Ok g.
Proof.
  exists (mkProfile 1 0 (RtoC 1, RtoC 0) None Float64 (fun _ _ _ => RtoC 1)).
  destruct (proj2 (grid_init_ok_iff Xyt [-1;-2;-3] [1;2;4] [4;3;5]%nat (Some 1%Z) true)) as (g & Hg).
  - repeat split; try discriminate; try reflexivity; try (simpl; lia).
    intros q Hq. destruct q as [|[|[|q]]]; simpl in *; try lia; eexists; split; try reflexivity; lia.
  - exists g. split; [reflexivity|exact Hg].
Qed.

(** C08 *)
Theorem C08_rt_modes :
  forall lo hi np n1 nt p (M : nat) nte (K : nat) (A : Z -> R -> R -> C),
  length lo = 2%nat -> length hi = 2%nat -> (2 <= n1)%nat -> (2 <= nt)%nat -> (1 <= M)%nat ->
  nth_error np 0 = Some n1 -> nth_error np 1 = Some nt ->
  0 <= nth 0 lo 0 -> nth 0 lo 0 < nth 0 hi 0 -> nth 1 lo 0 < nth 1 hi 0 ->
  energy_request_ok (p_energy p) ->
  (forall r t theta, p_eval p (r * cos theta) (r * sin theta) t = recon (S K) (fun m => A m r t) theta) ->
  (Z.of_nat K + Z.of_nat M <= match nte with None => 2 * Z.of_nat M - 1 | Some n => n end)%Z ->
  (2 * Z.of_nat M - 1 <= match nte with None => 2 * Z.of_nat M - 1 | Some n => n end)%Z ->
  exists L, laser_init Rt lo hi np p (Z.of_nat M) nte = Ok L /\
  let f := fun (m : Z) j k =>
     if Z.leb (Z.abs m) (Z.of_nat K)
     then A m (coord (nth 0 lo 0) (nth 0 hi 0) n1 j) (coord (nth 1 lo 0) (nth 1 hi 0) nt k) else RtoC 0 in
  exists a s, snd (get_temporal_field (l_grid L)) = Ok a /\
    shp a = [(2 * M - 1)%nat; n1; nt] /\ 0 <= s /\
    (forall m j k, (- Z.of_nat M < m < Z.of_nat M)%Z -> (j < n1)%nat -> (k < nt)%nat ->
       at3 a (mode_slot M m) j k = Cmult (RtoC s) (f m j k)) /\
    energy_factor (p_energy p)
      (E_rt lo hi (2 * M - 1) n1 nt (fun q j k => f (Z.of_nat q - (Z.of_nat M - 1))%Z j k)) s.
Proof.
  intros. destruct (rt_construct_ok lo hi np n1 nt p M nte) as (L & HL); try assumption.
  exists L. split; [exact HL|]. apply (rt_modes lo hi np n1 nt p M nte); assumption.
Qed.
Print Assumptions C08_rt_modes.
Theorem C08_too_few_angles :
  forall lo hi np p nm n,
  (exists g, grid_init Rt lo hi np (Some nm) true = Ok g) -> (n < 2 * nm - 1)%Z ->
  laser_init Rt lo hi np p nm (Some n) = Err AssertionError.
Proof. exact rt_too_few_angles. Qed.
Print Assumptions C08_too_few_angles.
Example C08_nonvacuous :
  (forall r t theta, p_eval ex_vortex (r * cos theta) (r * sin theta) t =
     recon 2 (fun m => if Z.eqb m 1 then RtoC r else RtoC 0) theta) /\
  (Z.of_nat 1 + Z.of_nat 2 <= 2 * Z.of_nat 2 - 1)%Z /\
  exists L, laser_init Rt [0;-3] [2;4] [4;5]%nat ex_vortex 2 None = Ok L.
Proof. split; [exact vortex_content|split; [lia|apply ex_rt; [exact I|lia]]]. Qed.

(** C09 *)
Theorem C09_normalize_energy :
  forall S L a e E, reachable S L -> snd (get_temporal_field (l_grid L)) = Ok a ->
  snd (compute_laser_energy (l_dim L) (l_grid L)) = Ok e -> 0 < e -> 0 <= E ->
  exists L' b s, normalize L (Some E) KEnergy = (L', Ok tt) /\
    snd (get_temporal_field (l_grid L')) = Ok b /\ 0 <= s /\ is_scaled (RtoC s) a b /\
    snd (compute_laser_energy (l_dim L') (l_grid L')) = Ok E.
Proof. exact c09. Qed.
Print Assumptions C09_normalize_energy.
(** Construction: [no_energy p] is p without its laser_energy attribute. *)
Theorem C09_construction_energy :
  forall lo hi d np p nm nte L0 E,
  laser_init d lo hi np (no_energy p) nm nte = Ok L0 -> p_energy p = Some (Some E) -> 0 <= E ->
  forall e, snd (compute_laser_energy d (l_grid L0)) = Ok e -> 0 < e ->
  exists L, laser_init d lo hi np p nm nte = Ok L /\ snd (compute_laser_energy d (l_grid L)) = Ok E.
Proof. exact c09_init. Qed.
Print Assumptions C09_construction_energy.
Example C09_nonvacuous : exists L a e, reachable id_solvers L /\
  snd (get_temporal_field (l_grid L)) = Ok a /\
  snd (compute_laser_energy (l_dim L) (l_grid L)) = Ok e /\ 0 < e.
Proof.
  destruct ex_xyt_energy as (L & e & a & H1 & H2 & H3 & H4 & _). exists L, a, e.
  split; [apply (reachable_init id_solvers _ _ _ _ _ _ _ L [] H1); constructor|]. auto.
Qed.

(** C10 *)
Theorem C10_normalize_field :
  forall S L a A, reachable S L -> snd (get_temporal_field (l_grid L)) = Ok a -> some_nonzero a -> 0 <= A ->
  exists L' b s, normalize L (Some A) KField = (L', Ok tt) /\
    snd (get_temporal_field (l_grid L')) = Ok b /\ 0 <= s /\ is_scaled (RtoC s) a b /\
    is_max3 b (fun i j k => Cmod (at3 b i j k)) A.
Proof. exact c10. Qed.
Print Assumptions C10_normalize_field.
Example C10_nonvacuous : exists L a, reachable id_solvers L /\
  snd (get_temporal_field (l_grid L)) = Ok a /\ some_nonzero a.
Proof.
  destruct ex_xyt_energy as (L & e & a & H1 & _ & _ & H4 & H5). exists L, a.
  split; [apply (reachable_init id_solvers _ _ _ _ _ _ _ L [] H1); constructor|]. auto.
Qed.

(** C11 is false of the code: for EVERY non-zero field and every requested intensity the call raises
    AssertionError (laser_utils.py:133 passes the scalar scaling factor instead of the array). *)
Theorem C11_intensity_refuted :
  forall S L a I, reachable S L -> snd (get_temporal_field (l_grid L)) = Ok a -> some_nonzero a ->
  snd (normalize L (Some I) KIntensity) = Err AssertionError.
Proof.
  intros S L a I H1 H2 H3. destruct (c11 S L a I H1 H2 H3) as (L' & H & _). rewrite H. reflexivity.
Qed.
Print Assumptions C11_intensity_refuted.
(** What remains true: the failing call leaves the field as it was. *)
Theorem C11_failure_harmless_partial :
  forall S L a I, reachable S L -> snd (get_temporal_field (l_grid L)) = Ok a -> some_nonzero a ->
  exists L', normalize L (Some I) KIntensity = (L', Err AssertionError) /\
    snd (get_temporal_field (l_grid L')) = snd (get_temporal_field (l_grid L)) /\
    snd (get_spectral_field (l_grid L')) = snd (get_spectral_field (l_grid L)).
Proof. exact c11. Qed.
Print Assumptions C11_failure_harmless_partial.
Example C11_nonvacuous : exists L a, reachable id_solvers L /\
  snd (get_temporal_field (l_grid L)) = Ok a /\ some_nonzero a.
Proof. exact C10_nonvacuous. Qed.

(** C12 *)
Theorem C12_none_noop :
  forall S L k, reachable S L -> k <> KOther -> normalize L None k = (L, Ok tt).
Proof. exact c12_none. Qed.
Print Assumptions C12_none_noop.
Theorem C12_zero_noop :
  forall S L a v k, reachable S L -> snd (get_temporal_field (l_grid L)) = Ok a -> all_zero a -> k <> KOther ->
  exists L', normalize L v k = (L', Ok tt) /\
    snd (get_temporal_field (l_grid L')) = snd (get_temporal_field (l_grid L)) /\
    snd (get_spectral_field (l_grid L')) = snd (get_spectral_field (l_grid L)).
Proof. exact c12_zero. Qed.
Print Assumptions C12_zero_noop.
Theorem C12_unknown_kind :
  forall S L v, reachable S L -> normalize L v KOther = (L, Err ValueError).
Proof. exact c12_other. Qed.
Print Assumptions C12_unknown_kind.
Example C12_nonvacuous : exists L a, reachable id_solvers L /\
  snd (get_temporal_field (l_grid L)) = Ok a /\ all_zero a.
Proof.
  set (p := mkProfile 1 1 (RtoC 1, RtoC 0) (Some (Some 3)) Complex128 (fun _ _ _ => RtoC 0)).
  assert (HE : energy_request_ok (p_energy p)) by (simpl; lra).
  destruct (xyt_construct_ok [-1;-2;-3] [1;2;4] 4 3 5 p 1 None) as (L & HL); simpl; try lia; try lra; try reflexivity.
  destruct (xyt_samples _ _ _ _ _ _ _ _ _ HL) as (a & s & H1 & H2 & H3 & H4 & _); simpl nth; try lra; [exact HE|].
  exists L, a. split; [apply (reachable_init id_solvers _ _ _ _ _ _ _ L [] HL); constructor|].
  split; [exact H1|]. intros i j k (Hi & Hj & Hk). unfold dim0, dim1, dim2 in *. rewrite H2 in *.
  rewrite H4 by assumption. apply Cmult_0_r.
Qed.

(** C13: the energy reported for a laser, after any history, is the documented sum ... *)
Theorem C13_energy_formula_xyt :
  forall S lo hi n0 n1 nt p nm nte L0 h a,
  laser_init Xyt lo hi [n0;n1;nt] p nm nte = Ok L0 ->
  snd (get_temporal_field (l_grid (lrun S L0 h))) = Ok a ->
  snd (compute_laser_energy Xyt (l_grid (lrun S L0 h))) = Ok (E_xyt lo hi n0 n1 nt (at3 a)) /\
  shp a = [n0;n1;nt].
Proof. exact c13_xyt. Qed.
Print Assumptions C13_energy_formula_xyt.
Theorem C13_energy_formula_rt :
  forall S lo hi np n1 nt p (M : nat) nte L0 h a,
  laser_init Rt lo hi np p (Z.of_nat M) nte = Ok L0 -> Forall no_resample h ->
  nth_error np 0 = Some n1 -> nth_error np 1 = Some nt ->
  snd (get_temporal_field (l_grid (lrun S L0 h))) = Ok a ->
  snd (compute_laser_energy Rt (l_grid (lrun S L0 h))) = Ok (E_rt lo hi (2 * M - 1) n1 nt (at3 a)) /\
  shp a = [(2 * M - 1)%nat; n1; nt] /\ (1 <= M)%nat.
Proof. exact c13_rt. Qed.
Print Assumptions C13_energy_formula_rt.
(** ... which is non-negative, quadratic, definite (xyt) and equal to the angular average (rt). *)
Theorem C13_nonneg :
  forall lo hi n0 n1 nt f, (2 <= n1)%nat -> (2 <= nt)%nat ->
  ((2 <= n0)%nat -> nth 0 lo 0 < nth 0 hi 0 -> nth 1 lo 0 < nth 1 hi 0 -> nth 2 lo 0 < nth 2 hi 0 ->
   0 <= E_xyt lo hi n0 n1 nt f) /\
  (0 <= nth 0 lo 0 -> nth 0 lo 0 < nth 0 hi 0 -> nth 1 lo 0 < nth 1 hi 0 -> 0 <= E_rt lo hi n0 n1 nt f).
Proof.
  intros lo hi n0 n1 nt f H1 H2. split.
  - intros H0 B0 B1 B2. exact (E_xyt_nonneg lo hi n0 n1 nt f H0 H1 H2 B0 B1 B2).
  - intros B0 B1 B2. exact (E_rt_nonneg lo hi n0 n1 nt f H1 H2 B0 B1 B2).
Qed.
Print Assumptions C13_nonneg.
Theorem C13_quadratic :
  forall lo hi n0 n1 nt f s,
  E_xyt lo hi n0 n1 nt (fun i j k => Cmult s (f i j k)) = Cmod s ^ 2 * E_xyt lo hi n0 n1 nt f /\
  E_rt lo hi n0 n1 nt (fun i j k => Cmult s (f i j k)) = Cmod s ^ 2 * E_rt lo hi n0 n1 nt f.
Proof. intros; split; [exact (E_xyt_scale lo hi n0 n1 nt f s)|exact (E_rt_scale lo hi n0 n1 nt f s)]. Qed.
Print Assumptions C13_quadratic.
Theorem C13_definite_xyt :
  forall lo hi n0 n1 nt f, (2 <= n0)%nat -> (2 <= n1)%nat -> (2 <= nt)%nat ->
  nth 0 lo 0 < nth 0 hi 0 -> nth 1 lo 0 < nth 1 hi 0 -> nth 2 lo 0 < nth 2 hi 0 ->
  (E_xyt lo hi n0 n1 nt f = 0 <->
   forall i j k, (i < n0)%nat -> (j < n1)%nat -> (k < nt)%nat -> f i j k = RtoC 0).
Proof. exact E_xyt_zero. Qed.
Print Assumptions C13_definite_xyt.
Theorem C13_angular_average :
  forall lo hi (M N n1 nt : nat) a, (1 <= M)%nat -> (2 * M - 1 <= N)%nat ->
  E_rt lo hi (2 * M - 1) n1 nt (at3 a) =
  / INR N * rsum N (fun q =>
     E_rt lo hi 1 n1 nt (fun _ j k => recon M (comp M a j k) (2 * PI / INR N * INR q))).
Proof. exact E_rt_average. Qed.
Print Assumptions C13_angular_average.
Example C13_nonvacuous : exists L a,
  laser_init Rt [0;-3] [2;4] [4;5]%nat ex_vortex 2 None = Ok L /\
  snd (get_temporal_field (l_grid L)) = Ok a /\ at3 a 1 1 0 = RtoC (2 / 3).
Proof.
  destruct (ex_rt ex_vortex None I) as (L & HL); [lia|]. exists L.
  destruct (rt_modes [0;-3] [2;4] [4;5]%nat 4 5 ex_vortex 2 None L 1 (fun m r t => if Z.eqb m 1 then RtoC r else RtoC 0) HL)
    as (a & s & H1 & _ & _ & H2 & H3); simpl nth; try reflexivity; try lra; try exact I; try lia.
  - intros; apply vortex_content.
  - exists a. split; [exact HL|split; [exact H1|]]. simpl in H3. subst s.
    pose proof (H2 1%Z 1%nat 0%nat ltac:(lia) ltac:(lia) ltac:(lia)) as H. change (mode_slot 2 1) with 1%nat in H.
    rewrite H. simpl. rewrite Cmult_1_l. unfold coord. f_equal. simpl. lra.
Qed.

(** C14 *)
Theorem C14_cell_volumes :
  forall lo hi np M b g n1 nt, grid_init Rt lo hi np (Some M) b = Ok g ->
  nth_error np 0 = Some n1 -> nth_error np 1 = Some nt ->
  let dr := spacing (nth 0 lo 0) (nth 0 hi 0) n1 in
  let dt := spacing (nth 1 lo 0) (nth 1 hi 0) nt in
  rsum n1 (cell_volume_rt g) =
    c_light * dt * PI * ((nth 0 hi 0 + dr / 2) ^ 2 - (nth 0 lo 0 - dr / 2) ^ 2) /\
  (forall j, (j < n1)%nat ->
     cell_volume_rt g j = 2 * PI * coord (nth 0 lo 0) (nth 0 hi 0) n1 j * dr * (c_light * dt)) /\
  (nth 0 lo 0 < nth 0 hi 0 -> nth 1 lo 0 < nth 1 hi 0 ->
   forall j, (j < n1)%nat -> (0 <= cell_volume_rt g j <-> 0 <= coord (nth 0 lo 0) (nth 0 hi 0) n1 j)).
Proof. exact c14. Qed.
Print Assumptions C14_cell_volumes.
Example C14_nonvacuous : exists g, grid_init Rt [0;-3] [2;4] [4;5]%nat (Some 2%Z) true = Ok g.
Proof. eexists; reflexivity. Qed.

(** C15 *)
Theorem C15_pointwise_xyt :
  forall S lo hi n0 n1 nt p nm nte L0 h o s,
  laser_init Xyt lo hi [n0;n1;nt] p nm nte = Ok L0 ->
  snd (get_spectral_field (l_grid (lrun S L0 h))) = Ok s ->
  exists L' s', apply_optics (lrun S L0 h) o = (L', Ok tt) /\
    snd (get_spectral_field (l_grid L')) = Ok s' /\ shp s' = [n0;n1;nt] /\
    same_except_field (lrun S L0 h) L' /\
    forall i j k, (i < n0)%nat -> (j < n1)%nat -> (k < nt)%nat ->
      at3 s' i j k = Cmult (at3 s i j k)
        (o (coord (nth 0 lo 0) (nth 0 hi 0) n0 i) (coord (nth 1 lo 0) (nth 1 hi 0) n1 j)
           (p_omega0 p + dft_omega nt (spacing (nth 2 lo 0) (nth 2 hi 0) nt) k) (p_omega0 p)).
Proof. exact c15_xyt. Qed.
Print Assumptions C15_pointwise_xyt.
Theorem C15_pointwise_rt :
  forall S lo hi np p nm nte L0 h o s,
  laser_init Rt lo hi np p nm nte = Ok L0 -> Forall user_op h -> clean S L0 h ->
  snd (get_spectral_field (l_grid (lrun S L0 h))) = Ok s ->
  exists L' s' nt, apply_optics (lrun S L0 h) o = (L', Ok tt) /\
    snd (get_spectral_field (l_grid L')) = Ok s' /\ shp s' = shp s /\ nth_error np 1 = Some nt /\ dim2 s = nt /\
    same_except_field (lrun S L0 h) L' /\
    forall i j k, inb s i j k ->
      at3 s' i j k = Cmult (at3 s i j k)
        (o (nth j (nth 0 (g_axes (l_grid (lrun S L0 h))) []) 0) 0
           (p_omega0 p + dft_omega nt (spacing (nth 1 lo 0) (nth 1 hi 0) nt) k) (p_omega0 p)).
Proof. exact c15_rt. Qed.
Print Assumptions C15_pointwise_rt.
Theorem C15_order_irrelevant :
  forall S L o1 o2, reachable S L ->
  exists L12 L21 s12 s21 t12 t21,
    apply_optics (fst (apply_optics L o1)) o2 = (L12, Ok tt) /\
    apply_optics (fst (apply_optics L o2)) o1 = (L21, Ok tt) /\
    snd (get_spectral_field (l_grid L12)) = Ok s12 /\ snd (get_spectral_field (l_grid L21)) = Ok s21 /\
    snd (get_temporal_field (l_grid L12)) = Ok t12 /\ snd (get_temporal_field (l_grid L21)) = Ok t21 /\
    arr_eq s12 s21 /\ arr_eq t12 t21.
Proof. exact c15_commute. Qed.
Print Assumptions C15_order_irrelevant.
Theorem C15_unit_element :
  forall S L o a s, reachable S L ->
  (forall x y w w0, o x y w w0 = RtoC 1) ->
  snd (get_temporal_field (l_grid L)) = Ok a -> snd (get_spectral_field (l_grid L)) = Ok s ->
  exists L' a' s', apply_optics L o = (L', Ok tt) /\
    snd (get_temporal_field (l_grid L')) = Ok a' /\ snd (get_spectral_field (l_grid L')) = Ok s' /\
    arr_eq a' a /\ arr_eq s' s.
Proof. exact c15_unit. Qed.
Print Assumptions C15_unit_element.
Example C15_nonvacuous : exists L0 s,
  laser_init Rt [0;-3] [2;4] [4;5]%nat ex_vortex 2 None = Ok L0 /\
  let h := [OpOptics (parabolic_mirror 2); OpPropagate 7 None None 0%nat] in
  clean id_solvers L0 h /\ Forall user_op h /\ reachable id_solvers (lrun id_solvers L0 h) /\
  snd (get_spectral_field (l_grid (lrun id_solvers L0 h))) = Ok s.
Proof.
  destruct (ex_rt ex_vortex None I) as (L & HL); [lia|]. exists L.
  assert (HR : reachable id_solvers (lrun id_solvers L [OpOptics (parabolic_mirror 2); OpPropagate 7 None None 0%nat]))
    by (apply (reachable_init _ _ _ _ _ _ _ _ _ _ HL); repeat constructor).
  destruct (reachable_read _ _ HR) as (a & s & _ & Hs & _). exists s.
  split; [exact HL|]. split; [simpl; auto|]. split; [repeat constructor|]. split; [exact HR|exact Hs].
Qed.

(** C16 *)
Theorem C16_phase_only_conserves :
  forall S L o, reachable S L -> (forall x y w w0, Cmod (o x y w w0) = 1) ->
  exists L', apply_optics L o = (L', Ok tt) /\
    exists e, snd (compute_laser_energy (l_dim L) (l_grid L)) = Ok e /\
              snd (compute_laser_energy (l_dim L') (l_grid L')) = Ok e.
Proof. exact c16_eq. Qed.
Print Assumptions C16_phase_only_conserves.
Theorem C16_aperture_never_increases :
  forall S L o, reachable S L -> (forall x y w w0, Cmod (o x y w w0) <= 1) ->
  (forall j, 0 <= cell_volume (l_dim L) (l_grid L) j) ->
  exists L', apply_optics L o = (L', Ok tt) /\
    exists e e', snd (compute_laser_energy (l_dim L) (l_grid L)) = Ok e /\
              snd (compute_laser_energy (l_dim L') (l_grid L')) = Ok e' /\ e' <= e.
Proof. exact c16_le. Qed.
Print Assumptions C16_aperture_never_increases.
Theorem C16_shipped_elements :
  forall x y w w0,
  (forall f, Cmod (parabolic_mirror f x y w w0) = 1) /\
  (forall gamma, Cmod (axicon gamma x y w w0) = 1) /\
  (forall gdd tod fod, Cmod (polynomial_spectral_phase gdd tod fod x y w w0) = 1) /\
  (forall f0 delta Rad, Cmod (axiparabola f0 delta Rad x y w w0) <= 1).
Proof.
  intros x y w w0. split; [|split; [|split]]; intros;
  [apply mirror_unit|apply axicon_unit|apply poly_unit|apply axiparabola_le].
Qed.
Print Assumptions C16_shipped_elements.
(** The volume hypothesis of C16_aperture_never_increases is met by every laser (no resampling)
    whose window is ordered and whose radii are non-negative. *)
Theorem C16_volumes_nonneg :
  forall S d lo hi np p nm nte L0 h,
  laser_init d lo hi np p nm nte = Ok L0 -> (d = Xyt \/ Forall no_resample h) ->
  (forall q, (q < ndims_of d)%nat -> nth q lo 0 < nth q hi 0) -> (d = Rt -> 0 <= nth 0 lo 0) ->
  forall j, 0 <= cell_volume (l_dim (lrun S L0 h)) (l_grid (lrun S L0 h)) j.
Proof. exact run_volumes_nonneg. Qed.
Print Assumptions C16_volumes_nonneg.
Example C16_nonvacuous : exists L0,
  laser_init Rt [0;-3] [2;4] [4;5]%nat ex_vortex 2 None = Ok L0 /\ reachable id_solvers L0 /\
  forall j, 0 <= cell_volume (l_dim L0) (l_grid L0) j.
Proof.
  destruct (ex_rt ex_vortex None I) as (L & HL); [lia|]. exists L.
  split; [exact HL|]. split; [apply (reachable_init id_solvers _ _ _ _ _ _ _ L [] HL); constructor|].
  apply (C16_volumes_nonneg id_solvers _ _ _ _ _ _ _ L [] HL); [right; constructor| |simpl; lra].
  intros [|[|q]] Hq; simpl in *; try lia; lra.
Qed.

(** C17 *)
Theorem C17_elements_symmetric :
  (forall f, rotationally_symmetric (parabolic_mirror f)) /\
  (forall gamma, rotationally_symmetric (axicon gamma)) /\
  (forall f0 delta Rad, rotationally_symmetric (axiparabola f0 delta Rad)) /\
  (forall gdd tod fod, rotationally_symmetric (polynomial_spectral_phase gdd tod fod)).
Proof. split; [exact sym_mirror|split; [exact sym_axicon|split; [exact sym_axiparabola|exact sym_poly]]]. Qed.
Print Assumptions C17_elements_symmetric.
Theorem C17_modewise_is_3d :
  forall S lo hi np p nm nte L0 h o s M,
  laser_init Rt lo hi np p nm nte = Ok L0 -> Forall user_op h -> clean S L0 h ->
  rotationally_symmetric o ->
  snd (get_spectral_field (l_grid (lrun S L0 h))) = Ok s -> dim0 s = (2 * M - 1)%nat ->
  exists L' s' nt, apply_optics (lrun S L0 h) o = (L', Ok tt) /\
    snd (get_spectral_field (l_grid L')) = Ok s' /\ shp s' = shp s /\ nth_error np 1 = Some nt /\
    forall j k theta, (j < dim1 s)%nat -> (k < dim2 s)%nat ->
      let r := nth j (nth 0 (g_axes (l_grid (lrun S L0 h))) []) 0 in
      recon M (comp M s' j k) theta =
      Cmult (recon M (comp M s j k) theta)
        (o (r * cos theta) (r * sin theta)
           (p_omega0 p + dft_omega nt (spacing (nth 1 lo 0) (nth 1 hi 0) nt) k) (p_omega0 p)).
Proof. exact c17. Qed.
Print Assumptions C17_modewise_is_3d.
Example C17_nonvacuous : exists L0 s,
  laser_init Rt [0;-3] [2;4] [4;5]%nat ex_vortex 2 None = Ok L0 /\
  clean id_solvers L0 [OpOptics (axicon 1)] /\
  snd (get_spectral_field (l_grid (lrun id_solvers L0 [OpOptics (axicon 1)]))) = Ok s.
Proof.
  destruct (ex_rt ex_vortex None I) as (L & HL); [lia|]. exists L.
  assert (HR : reachable id_solvers (lrun id_solvers L [OpOptics (axicon 1)]))
    by (apply (reachable_init _ _ _ _ _ _ _ _ _ _ HL); repeat constructor).
  destruct (reachable_read _ _ HR) as (a & s & _ & Hs & _). exists s.
  split; [exact HL|]. split; [simpl; auto|exact Hs].
Qed.

(** C18 *)
Theorem C18_mirrors :
  (forall f1 f2 f x y w w0, f1 <> 0 -> f2 <> 0 -> f <> 0 -> / f = / f1 + / f2 ->
   Cmult (parabolic_mirror f1 x y w w0) (parabolic_mirror f2 x y w w0) = parabolic_mirror f x y w w0) /\
  (forall f x y w w0, f <> 0 ->
   Cmult (parabolic_mirror f x y w w0) (parabolic_mirror (- f) x y w w0) = RtoC 1).
Proof. split; [exact mirrors_compose|exact mirrors_cancel]. Qed.
Print Assumptions C18_mirrors.
Theorem C18_spectral_phases :
  (forall g1 t1 f1 g2 t2 f2 x y w w0,
   Cmult (polynomial_spectral_phase g1 t1 f1 x y w w0) (polynomial_spectral_phase g2 t2 f2 x y w w0) =
   polynomial_spectral_phase (g1 + g2) (t1 + t2) (f1 + f2) x y w w0) /\
  (forall g t f x y w0, polynomial_spectral_phase g t f x y w0 w0 = RtoC 1).
Proof. split; [exact phases_add|exact phase_at_carrier]. Qed.
Print Assumptions C18_spectral_phases.
Theorem C18_axiparabola :
  (forall f0 de Rad x y w w0, 0 <= Rad -> Rad < sqrt (x ^ 2 + y ^ 2) ->
   axiparabola f0 de Rad x y w w0 = RtoC 0) /\
  (forall f0 Rad x y w w0, f0 <> 0 -> 0 <= Rad -> sqrt (x ^ 2 + y ^ 2) <= Rad ->
   axiparabola f0 0 Rad x y w w0 = parabolic_mirror f0 x y w w0).
Proof. split; [exact axiparabola_outside|exact axiparabola_inside_mirror]. Qed.
Print Assumptions C18_axiparabola.
Theorem C18_axicon :
  (forall ga w w0, axicon ga 0 0 w w0 = RtoC 1) /\
  (forall ga x y w w0, Cmult (axicon ga x y w w0) (axicon (- ga) x y w w0) = RtoC 1).
Proof. split; [exact axicon_on_axis|exact axicon_cancel]. Qed.
Print Assumptions C18_axicon.
(** The elements are not trivial: explicit phases (the documented formulas). *)
Theorem C18_phases :
  forall x y w w0,
  (forall f, parabolic_mirror f x y w w0 = cexp (0, - (w * (x ^ 2 + y ^ 2) / (2 * c_light * f)))) /\
  (forall ga, axicon ga x y w w0 = cexp (0, - (2 * w / c_light * sqrt (x ^ 2 + y ^ 2) * tan (ga / 2)))) /\
  (forall gdd tod fod, polynomial_spectral_phase gdd tod fod x y w w0 =
     cexp (0, gdd / 2 * (w - w0) ^ 2 + tod / 6 * (w - w0) ^ 3 + fod / 24 * (w - w0) ^ 4)) /\
  (forall f0 de Rad, 0 <= Rad -> sqrt (x ^ 2 + y ^ 2) <= Rad -> axiparabola f0 de Rad x y w w0 =
     let r := sqrt (x ^ 2 + y ^ 2) in
     cexp (0, - (2 * w / c_light * (r ^ 2 / (4 * f0) - de / (8 * f0 ^ 2 * Rad ^ 2) * r ^ 4
        + de * (Rad ^ 2 + 8 * f0 * de) / (96 * f0 ^ 4 * Rad ^ 4) * r ^ 6)))).
Proof. exact element_phases. Qed.
Print Assumptions C18_phases.
Example C18_nonvacuous : / (2 / 3) = / 1 + / 2 /\ parabolic_mirror 1 0 0 1 1 = RtoC 1.
Proof.
  split; [lra|]. unfold parabolic_mirror. rewrite <- cis_0. f_equal. unfold Rdiv. ring.
Qed.

(** C19 *)
Theorem C19_window :
  forall S d lo hi np p nm nte L h,
  laser_init d lo hi np p nm nte = Ok L -> (d = Xyt \/ Forall no_resample h) ->
  let g := l_grid (lrun S L h) in
  let tau := travelled S L h / c_light in
  let q := (ndims_of d - 1)%nat in
  exists nt, nth_error np q = Some nt /\ length (g_axes g) = ndims_of d /\
   nth q (g_lo g) 0 = nth q lo 0 + tau /\ nth q (g_hi g) 0 = nth q hi 0 + tau /\
   length (nth q (g_axes g) []) = nt /\
   (forall k, (k < nt)%nat ->
      axis_at g q k = coord (nth q lo 0) (nth q hi 0) nt k + tau /\
      axis_at g q k = coord (nth q (g_lo g) 0) (nth q (g_hi g) 0) nt k) /\
   nth q (g_dx g) 0 = spacing (nth q lo 0) (nth q hi 0) nt /\
   (forall a, (a < q)%nat -> exists n, nth_error np a = Some n /\
      nth a (g_lo g) 0 = nth a lo 0 /\ nth a (g_hi g) 0 = nth a hi 0 /\
      nth a (g_dx g) 0 = spacing (nth a lo 0) (nth a hi 0) n /\ length (nth a (g_axes g) []) = n /\
      forall i, (i < n)%nat -> axis_at g a i = coord (nth a lo 0) (nth a hi 0) n i).
Proof. exact window_plain. Qed.
Print Assumptions C19_window.
(** The time window alone, for every history, with resampling and with failing calls. *)
Theorem C19_time_window_all_histories :
  forall S L h, let g := l_grid L in let g' := l_grid (lrun S L h) in
  let tau := travelled S L h / c_light in
  last (g_lo g') 0 = last (g_lo g) 0 + tau /\ last (g_hi g') 0 = last (g_hi g) 0 + tau /\
  last (g_axes g') [] = map (fun t => t + tau) (last (g_axes g) []).
Proof.
  intros S L h. cbn zeta. pose proof (run_tinfo S L h) as H. unfold tinfo, tshift in H. cbn [fst snd] in H.
  injection H as H1 H2 H3. split; [exact H1|split; [exact H2|exact H3]].
Qed.
Print Assumptions C19_time_window_all_histories.
Example C19_nonvacuous : exists L0,
  laser_init Rt [0;-3] [2;4] [4;5]%nat ex_vortex 2 None = Ok L0 /\
  travelled id_solvers L0 [OpPropagate 7 None None 0%nat; OpNormalize (Some 1) KOther; OpPropagate 2 None None 0%nat] = 9.
Proof.
  destruct (ex_rt ex_vortex None I) as (L & HL); [lia|]. exists L. split; [exact HL|].
  exact (ex_travelled L HL).
Qed.
