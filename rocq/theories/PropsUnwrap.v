(** C87: n-dimensional phase unwrapping (phase_unwrap_nd) in get_frequency, field_to_envelope and FromOpenPMDProfile. *)
From Verif Require Import PyBase CSum NpFFT NumPy NpMath GridModel GridObs EnergyModel LaserModel LaserInv AnalysisModel AnalysisSpec LaserSpec DurationProofs CreateGridProofs
  EnergyProofs FromArrayModel OpenPMDModel OpenPMDProfileModel HilbertModel UnwrapModel UnwrapProofs.
Open Scope R_scope.

(** Without the option, and for envelopes, the functions are those of C35, C85, C75: scikit-image is never needed. *)
Theorem C87_not_needed :
  forall sk g d hb w lb ub hilb F md th ie fw pol,
  get_frequency_nd sk false g d hb w lb ub = get_frequency g d hb w lb ub /\
  (forall nd, g_isenv g = true -> get_frequency_nd sk nd g d hb w lb ub = get_frequency g d hb w lb ub) /\
  field_to_envelope_nd sk false hilb d g = field_to_envelope hilb d g /\
  from_openpmd_nd sk false hilb F md th ie fw pol = from_openpmd hilb F md th ie fw pol.
Proof. intros. repeat split. intros nd. apply nd_env. Qed.
Print Assumptions C87_not_needed.
(** scikit-image missing: AssertionError; nothing has changed. *)
Theorem C87_missing :
  forall g d f w lb ub hilb, tread g = Ok f -> g_isenv g = false ->
  snd (get_frequency_nd None true g d true w lb ub) = Err AssertionError /\
  snd (field_to_envelope_nd None true hilb d g) = Err AssertionError /\
  same_contents g (fst (field_to_envelope_nd None true hilb d g)).
Proof.
  intros g d f w lb ub hilb Hf He. split; [exact (nd_missing g d f w lb ub Hf He)|]. split; [exact (fte_missing hilb d g f Hf)|].
  exact (fte_failed None true hilb d g AssertionError (fte_missing hilb d g f Hf)).
Qed.
Print Assumptions C87_missing.
(** Whatever the unwrapping does: get_frequency only reads; field_to_envelope leaves the grid as it was when it raises. *)
Theorem C87_read_only :
  forall sk nd g d hb w lb ub hilb,
  same_contents g (fst (get_frequency_nd sk nd g d hb w lb ub)) /\
  (forall e, snd (field_to_envelope_nd sk nd hilb d g) = Err e -> same_contents g (fst (field_to_envelope_nd sk nd hilb d g))).
Proof. intros. split; [apply nd_read_only|intros e; apply fte_failed]. Qed.
Print Assumptions C87_read_only.
(** The local frequencies are within the bounds, for every unwrapping. *)
Theorem C87_bounds :
  forall sk g d hb w0 lb ub om c f, tread g = Ok f -> g_isenv g = false ->
  snd (get_frequency_nd sk true g d hb w0 lb ub) = Ok (om, c) -> 0 < c -> lb <= ub ->
  shp om = filter (fun n => negb (Nat.eqb n 1)) (shp f) /\
  forall i j k, exists w, at3 om i j k = RtoC w /\ lb * c <= w <= ub * c.
Proof. exact nd_bounds. Qed.
Print Assumptions C87_bounds.
(** If the unwrapping of the phases of the field gives, at every transverse point, a phase p0 - w t linear in time, then the central
    frequency is w and all local frequencies are w. *)
Theorem C87_linear :
  forall u g d w0 lb ub f w p0, tread g = Ok f -> g_isenv g = false -> d <> OtherDim -> (3 <= dim2 f)%nat ->
  (forall q, (S q < dim2 f)%nat -> vget (time_axis g) q < vget (time_axis g) (S q)) ->
  (forall a, (forall i j k, inb f i j k -> squeezed_entry f a i j k = RtoC (angle (at3 f i j k))) ->
     forall i j k, inb f i j k -> squeezed_entry f (u a) i j k = RtoC (p0 i j - w * vget (time_axis g) k)) ->
  rsum3 (dim0 f) (dim1 f) (dim2 f) (fun i j k => match d with Xyt => 1 | _ => vget (nth 0 (g_axes g) []) j end * Cmod (at3 f i j k)) <> 0 ->
  exists om, snd (get_frequency_nd (Some u) true g d true w0 lb ub) = Ok (om, w) /\ shp om = filter (fun n => negb (Nat.eqb n 1)) (shp f) /\
    (0 <= w -> lb <= 1 <= ub -> forall i j k, inb f i j k -> squeezed_entry f om i j k = RtoC w).
Proof. exact nd_linear. Qed.
Print Assumptions C87_linear.
(** The envelope reproduces the field, whatever the unwrapping. *)
Theorem C87_recover :
  forall sk nd d g f w, tread g = Ok f -> (forall i j k, inb f i j k -> Im (at3 f i j k) = 0) ->
  snd (field_to_envelope_nd sk nd scipy_hilbert d g) = Ok w ->
  let g' := fst (field_to_envelope_nd sk nd scipy_hilbert d g) in
  g_isenv g' = true /\ g_axes g' = g_axes g /\ g_lo g' = g_lo g /\ g_hi g' = g_hi g /\
  exists e, tread g' = Ok e /\ shp e = shp f /\
    forall i j k, inb f i j k -> RtoC (Re (Cmult (at3 e i j k) (cis (- (w * vget (time_axis g) k))))) = at3 f i j k.
Proof. exact c87_recover. Qed.
Print Assumptions C87_recover.
Theorem C87_amplitude :
  forall sk nd d g f w0 dt p A phi, tread g = Ok f ->
  (forall q, (q < dim2 f)%nat -> vget (time_axis g) q = vget (time_axis g) 0 + INR q * dt) -> dt <> 0 -> (0 < p)%nat -> (2 * p < dim2 f)%nat ->
  let w := 2 * PI * INR p / (INR (dim2 f) * dt) in
  (forall i j k, inb f i j k -> at3 f i j k = RtoC (A i j * cos (w * vget (time_axis g) k + phi i j))) ->
  snd (field_to_envelope_nd sk nd scipy_hilbert d g) = Ok w0 ->
  exists e, tread (fst (field_to_envelope_nd sk nd scipy_hilbert d g)) = Ok e /\ shp e = shp f /\ forall i j k, inb f i j k ->
    at3 e i j k = Cmult (RtoC (A i j)) (cis ((w0 - w) * vget (time_axis g) k - phi i j)) /\ Cmod (at3 e i j k) = Rabs (A i j).
Proof. exact c87_carrier. Qed.
Print Assumptions C87_amplitude.
(** FromOpenPMDProfile of an electric field raises with every unwrapping as well (see C75_real_refuted). *)
Theorem C87_profile_refuted :
  forall sk nd hilb a md theta fw pol, exists e, from_openpmd_nd sk nd hilb a md theta (Some false) fw pol = Err e.
Proof. exact c87_profile. Qed.
Print Assumptions C87_profile_refuted.

(** A field alternating in sign in time, and a correct unwrapping of it (values equal to the phases modulo 2 pi): frequency pi. *)
Example C87_nonvacuous : exists g f om,
  tread g = Ok f /\ g_isenv g = false /\ shp f = [2;2;3]%nat /\ (forall i j k, inb f i j k -> at3 f i j k = RtoC (cos (PI * INR k))) /\
  let u := fun a => mkArr (shp a) (dty a) (fun i j k => RtoC (0 - PI * INR k)) in
  (forall i j k, inb f i j k -> cis (Re (at3 (u f) i j k)) = cis (angle (at3 f i j k))) /\
  snd (get_frequency_nd (Some u) true g Xyt true None (/ 5) 5) = Ok (om, PI).
Proof.
  set (a := mkArr [2;2;3]%nat Float64 (fun i j k => RtoC (cos (PI * INR k)))).
  destruct (c37_create_xyt a [0;1] [0;1] [0;1;2] false uni2 uni2 uni3 eq_refl eq_refl) as (g & f & Hg & Gax & Ge & H1 & H2 & H3 & H4 & Hb & (B1 & B2 & B3)); [reflexivity|].
  assert (HT : time_axis g = [0;1;2]) by (unfold time_axis; rewrite Gax; reflexivity).
  assert (B1' : shp f = [2;2;3]%nat) by (rewrite <- B1; reflexivity); assert (Hin : forall i j k, inb f i j k <-> inb a i j k) by (intros; unfold inb, dim0, dim1, dim2; rewrite B1'; tauto).
  assert (Hv : forall i j k, inb f i j k -> at3 f i j k = RtoC (cos (PI * INR k))).
  { intros i j k H. rewrite <- B3 by (apply Hin; exact H). reflexivity. }
  assert (Ht : forall k, (k < 3)%nat -> vget (time_axis g) k = INR k).
  { intros k Hk. rewrite HT. destruct k as [|[|[|]]]; try lia; unfold vget; simpl; ring. }
  assert (D : dim0 f = 2%nat /\ dim1 f = 2%nat /\ dim2 f = 3%nat) by (unfold dim0, dim1, dim2; rewrite B1'; repeat split).
  destruct D as (D0 & D1 & D2).
  set (u := fun a => mkArr (shp a) (dty a) (fun i j k => RtoC (0 - PI * INR k))).
  assert (Ek : forall k, (k < 3)%nat -> cos (PI * INR k) = 1 \/ cos (PI * INR k) = -1).
  { intros k Hk. destruct k as [|[|[|]]]; try lia; simpl.
    - left. rewrite Rmult_0_r. apply cos_0.
    - right. rewrite Rmult_1_r. apply cos_PI.
    - left. replace (PI * (1 + 1)) with (2 * PI) by ring. apply cos_2PI. }
  destruct (C87_linear u g Xyt None (/ 5) 5 f PI (fun _ _ => 0) Hb) as (om & Hom & _); try discriminate.
  - exact Ge.
  - lia.
  - intros q Hq. rewrite !Ht by lia. rewrite S_INR. lra.
  - intros b _ i j k (Hi & Hj & Hk). unfold squeezed_entry. rewrite D0, D1. cbn [Nat.eqb]. unfold u; cbn [at3]. rewrite Ht by lia. reflexivity.
  - rewrite (rsum3_ext _ _ _ _ (fun _ _ _ => 1)).
    + rewrite D0, D1, D2. unfold rsum3. simpl. lra.
    + intros i j k Hi Hj Hk. rewrite Hv by (unfold inb; tauto). rewrite Cmod_R. destruct (Ek k ltac:(lia)) as [->| ->]; [rewrite Rabs_R1; ring|].
      rewrite Rabs_left by lra. ring.
  - exists g, f, om. split; [exact Hb|]. split; [exact Ge|]. split; [exact B1'|]. split; [exact Hv|]. cbn zeta. fold u. split; [|exact Hom].
    intros i j k H. rewrite Hv by exact H. destruct H as (_ & _ & Hk). rewrite D2 in Hk. unfold u; cbn [at3]. cbn [Re RtoC fst].
    assert (A1 : angle (RtoC 1) = 0).
    { unfold angle. rewrite Cmod_R, Rabs_R1. destruct (Reqb 1 0) eqn:E; [apply Reqb_true in E; lra|]. cbn [Im RtoC snd Re fst].
      destruct (Rleb 0 0) eqn:E'; [|apply Rleb_false in E'; lra]. replace (1 / 1) with 1 by field. apply acos_1. }
    assert (A2 : angle (RtoC (-1)) = PI).
    { unfold angle. rewrite Cmod_R, Rabs_left by lra. destruct (Reqb (- -1) 0) eqn:E; [apply Reqb_true in E; lra|]. cbn [Im RtoC snd Re fst].
      destruct (Rleb 0 0) eqn:E'; [|apply Rleb_false in E'; lra]. replace (-1 / - -1) with (- (1)) by field. rewrite acos_opp, acos_1. ring. }
    destruct k as [|[|[|]]]; try lia; simpl INR.
    + rewrite Rmult_0_r, cos_0, A1. f_equal. ring.
    + rewrite Rmult_1_r, cos_PI, A2. rewrite <- (cis_period (0 - PI) 1). f_equal. simpl. ring.
    + replace (PI * (1 + 1)) with (2 * PI) by ring. rewrite cos_2PI, A1. rewrite <- (cis_period (0 - 2 * PI) 1). f_equal. simpl. ring.
Qed.
