(** Proofs about phase_unwrap_nd (C87). *)
From Verif Require Import PyBase CSum NpFFT NumPy NpMath NpMathProofs GridModel GridObs EnergyModel LaserModel LaserInv AnalysisModel AnalysisSpec ReadOnlyProofs
  EnergyProofs FrequencyProofs FrequencyMean FromArrayModel OpenPMDModel OpenPMDProfileModel OpenPMDProfileProofs CreateGridProofs HilbertModel HilbertProofs UnwrapModel.
Open Scope R_scope.

Lemma nd_off sk g d hb w lb ub : get_frequency_nd sk false g d hb w lb ub = get_frequency g d hb w lb ub.
Proof. reflexivity. Qed.
Lemma fte_off sk hilb d g : field_to_envelope_nd sk false hilb d g = field_to_envelope hilb d g.
Proof. reflexivity. Qed.
Lemma fop_off sk hilb F md th ie fw pol : from_openpmd_nd sk false hilb F md th ie fw pol = from_openpmd hilb F md th ie fw pol.
Proof. reflexivity. Qed.
Lemma nd_env sk nd g d hb w lb ub : g_isenv g = true -> get_frequency_nd sk nd g d hb w lb ub = get_frequency g d hb w lb ub.
Proof.
  intros He. unfold get_frequency_nd, get_frequency, with_field. f_equal. destruct (snd (get_temporal_field g)); [|reflexivity].
  destruct (get_t_meta g) as (_&_&_&_&_&_&_&_&E9&_). rewrite E9, He. reflexivity.
Qed.
Lemma nd_field sk g d hb w lb ub f : tread g = Ok f -> g_isenv g = false ->
  snd (get_frequency_nd sk true g d hb w lb ub) = frequency_field_nd sk d (fst (get_temporal_field g)) f hb lb ub.
Proof.
  intros Hf He. unfold get_frequency_nd. rewrite (with_field_snd _ _ f Hf). destruct (get_t_meta g) as (_&_&_&_&_&_&_&_&E9&_). rewrite E9, He. reflexivity.
Qed.
Lemma nd_read_only sk nd g d hb w lb ub : same_contents g (fst (get_frequency_nd sk nd g d hb w lb ub)).
Proof. apply same_with_field. Qed.
Lemma get_t_tf g f : tread g = Ok f -> g_tf (fst (get_temporal_field g)) = f /\ g_tv (fst (get_temporal_field g)) = true.
Proof.
  unfold tread, get_temporal_field. destruct (g_tv g) eqn:V; cbn [fst snd]; [intros [= <-]; split; [reflexivity|exact V]|].
  destruct (g_sv g); [|discriminate]. cbn [fst snd]. intros [= <-]. split; reflexivity.
Qed.
(** field_to_envelope changes nothing when it raises. *)
Lemma fte_failed sk nd hilb d g e : snd (field_to_envelope_nd sk nd hilb d g) = Err e -> same_contents g (fst (field_to_envelope_nd sk nd hilb d g)).
Proof.
  intros H. unfold field_to_envelope_nd in *. destruct (g_isenv g) eqn:He; [apply same_refl|].
  change (snd (get_temporal_field g)) with (tread g) in *. destruct (tread g) as [f|e'] eqn:Hf; [|apply same_get_t].
  set (q := get_frequency_nd _ _ _ _ _ _ _ _) in *. destruct (snd q) as [(om, w)|e'].
  - exfalso. revert H. set (E := mkArr _ _ _). unfold set_temporal_field.
    assert (Q : shp (g_tf (set_is_envelope (fst q) true)) = shp f).
    { cbn [set_is_envelope g_tf astype amap shp]. destruct (get_t_tf g f Hf) as (A & B).
      unfold q, get_frequency_nd, with_field; cbn [fst]. unfold get_temporal_field at 1. rewrite B. cbn [fst]. rewrite A. reflexivity. }
    rewrite Q. assert (S : shape_eqb (shp E) (shp f) = true) by (apply shape_eqb_refl). rewrite S. cbn. discriminate.
  - cbn [fst]. eapply same_trans; [apply same_get_t|]. apply nd_read_only.
Qed.
Lemma nd_missing g d f w lb ub : tread g = Ok f -> g_isenv g = false -> snd (get_frequency_nd None true g d true w lb ub) = Err AssertionError.
Proof. intros Hf He. rewrite (nd_field _ _ _ _ _ _ _ f Hf He). unfold frequency_field_nd. destruct d; reflexivity. Qed.
Lemma fte_missing hilb d g f : tread g = Ok f -> snd (field_to_envelope_nd None true hilb d g) = Err AssertionError.
Proof.
  intros Hf. unfold field_to_envelope_nd. destruct (g_isenv g) eqn:He; [reflexivity|].
  change (snd (get_temporal_field g)) with (tread g). rewrite Hf.
  assert (T : tread (fst (get_temporal_field g)) = Ok f) by (rewrite tread_get_t; exact Hf).
  assert (E' : g_isenv (fst (get_temporal_field g)) = false) by (destruct (get_t_meta g) as (_&_&_&_&_&_&_&_&E9&_); congruence).
  rewrite (nd_missing _ d f None lb_default ub_default T E'). reflexivity.
Qed.
Lemma nd_bounds sk g d hb w0 lb ub om c f : tread g = Ok f -> g_isenv g = false ->
  snd (get_frequency_nd sk true g d hb w0 lb ub) = Ok (om, c) -> 0 < c -> lb <= ub ->
  shp om = filter (fun n => negb (Nat.eqb n 1)) (shp f) /\
  forall i j k, exists w, at3 om i j k = RtoC w /\ lb * c <= w <= ub * c.
Proof.
  intros Hf He H Hc Hb. rewrite (nd_field _ _ _ _ _ _ _ f Hf He) in H.
  assert (X : exists v, om = squeeze (real_arr (shp f) (fun i j k => clip_freq lb ub c (v i j k)))).
  { unfold frequency_field_nd in H. destruct d; try discriminate; destruct (negb hb); try discriminate; (destruct sk as [u|]; [|discriminate]);
    destruct (Nat.ltb (dim2 f) 3); try discriminate; destruct (average3 _ _ _ _ _) as [c'|]; cbn [bind] in H; try discriminate; injection H as <- <-; eexists; reflexivity. }
  destruct X as (v & ->). split; [reflexivity|]. intros i j k.
  destruct (squeeze_real (shp f) (fun i j k => clip_freq lb ub c (v i j k)) i j k) as (i' & j' & k' & ->).
  eexists. split; [reflexivity|]. apply clip_bounds; assumption.
Qed.
Lemma squeezed_at_entry f a i j k : squeezed_at f (at3 a) i j k = squeezed_entry f a i j k.
Proof. unfold squeezed_at, squeezed_entry. destruct (Nat.eqb (dim0 f) 1), (Nat.eqb (dim1 f) 1); reflexivity. Qed.
(** A phase advancing linearly in time at every transverse point: its slope is found. *)
Lemma nd_linear u g d w0 lb ub f w p0 : tread g = Ok f -> g_isenv g = false -> d <> OtherDim -> (3 <= dim2 f)%nat ->
  (forall q, (S q < dim2 f)%nat -> vget (time_axis g) q < vget (time_axis g) (S q)) ->
  (forall a, (forall i j k, inb f i j k -> squeezed_entry f a i j k = RtoC (angle (at3 f i j k))) ->
     forall i j k, inb f i j k -> squeezed_entry f (u a) i j k = RtoC (p0 i j - w * vget (time_axis g) k)) ->
  rsum3 (dim0 f) (dim1 f) (dim2 f) (fun i j k => match d with Xyt => 1 | _ => vget (nth 0 (g_axes g) []) j end * Cmod (at3 f i j k)) <> 0 ->
  exists om, snd (get_frequency_nd (Some u) true g d true w0 lb ub) = Ok (om, w) /\ shp om = filter (fun n => negb (Nat.eqb n 1)) (shp f) /\
    (0 <= w -> lb <= 1 <= ub -> forall i j k, inb f i j k -> squeezed_entry f om i j k = RtoC w).
Proof.
  intros Hf He Hd Hn Ht Hu HW. rewrite (nd_field _ _ _ _ _ _ _ f Hf He).
  assert (Ax : g_axes (fst (get_temporal_field g)) = g_axes g) by (destruct (get_t_meta g) as (_&_&_&E4&_); exact E4).
  set (g1 := fst (get_temporal_field g)) in *.
  assert (Ta : time_axis g1 = time_axis g) by (unfold time_axis; rewrite Ax; reflexivity).
  set (a := squeeze (real_arr (shp f) (fun i j k => angle (at3 f i j k)))).
  assert (Ho : forall i j k, inb f i j k -> nd_omega u g1 f i j k = w).
  { intros i j k (Hi & Hj & Hk). unfold nd_omega. apply (gradient_linear _ _ _ (- p0 i j) w); [exact Hn|exact Hk| |].
    - intros q Hq. rewrite Ta. apply Ht, Hq.
    - intros q Hq. unfold nd_phase. rewrite squeezed_at_entry. fold a. rewrite Hu; [|intros i' j' k' (Hi' & Hj' & _); apply squeeze_at; assumption|unfold inb; tauto].
      rewrite Ta. cbn [Re RtoC fst]. ring. }
  set (W := fun i j k => match d with Xyt => Cmod (at3 f i j k) | _ => vget (nth 0 (g_axes g1) []) j * Cmod (at3 f i j k) end).
  assert (EW : rsum3 (dim0 f) (dim1 f) (dim2 f) W <> 0).
  { intros H. apply HW. rewrite <- H. apply rsum3_ext. intros i j k _ _ _. unfold W. rewrite Ax. destruct d; ring. }
  assert (Av : average3 (dim0 f) (dim1 f) (dim2 f) (nd_omega u g1 f) W = Ok w).
  { unfold average3. destruct (Reqb (rsum3 _ _ _ W) 0) eqn:E; [apply Reqb_true in E; contradiction|]. f_equal.
    rewrite (rsum3_ext _ _ _ (fun i j k => nd_omega u g1 f i j k * W i j k) (fun i j k => w * W i j k)).
    - rewrite rsum3_scal. field. exact EW.
    - intros i j k Hi Hj Hk. rewrite Ho by (unfold inb; tauto). reflexivity. }
  unfold frequency_field_nd. assert (Hl : Nat.ltb (dim2 f) 3 = false) by (apply Nat.ltb_ge; exact Hn). 
  exists (squeeze (real_arr (shp f) (fun i j k => clip_freq lb ub w (nd_omega u g1 f i j k)))). split.
  - destruct d; [| |congruence]; cbn [negb]; rewrite Hl; fold W; (change (average3 (dim0 f) (dim1 f) (dim2 f) (nd_omega u g1 f) W) in Av || idtac);
      (match goal with |- context [average3 ?x ?y ?z ?o ?v] => change (average3 x y z o v) with (average3 x y z o W) end); rewrite Av; reflexivity.
  - split; [reflexivity|]. intros H0 Hb i j k Hin. pose proof Hin as (Hi & Hj & Hk). rewrite squeeze_at by assumption. rewrite Ho by exact Hin.
    f_equal. unfold clip_freq. rewrite Rmax_left by nra. rewrite Rmin_left by nra. reflexivity.
Qed.
(** field_to_envelope with any unwrapping *)
Lemma fte_nd_value sk nd hilb d g f w : tread g = Ok f -> snd (field_to_envelope_nd sk nd hilb d g) = Ok w ->
  let g' := fst (field_to_envelope_nd sk nd hilb d g) in
  g_isenv g' = true /\ g_axes g' = g_axes g /\ g_lo g' = g_lo g /\ g_hi g' = g_hi g /\ g_shape g' = g_shape g /\
  exists e, tread g' = Ok e /\ shp e = shp f /\
    forall i j k, at3 e i j k = Cmult (at3 (hilbert_transform hilb f) i j k) (cis (w * vget (time_axis g) k)).
Proof.
  intros Hf. unfold field_to_envelope_nd. destruct (g_isenv g); [discriminate|]. change (snd (get_temporal_field g)) with (tread g). rewrite Hf.
  set (q := get_frequency_nd _ _ _ _ _ _ _ _). destruct (snd q) as [(om, w')|]; [|discriminate].
  set (E := mkArr _ _ _). set (s := set_temporal_field _ E). destruct (snd s) as [[]|] eqn:Hs; [|discriminate]. cbn [fst snd]. intros H. injection H as ->.
  assert (Q : same_meta g (fst q)).
  { eapply same_meta_trans; [apply get_t_meta|]. unfold q, get_frequency_nd, with_field; cbn [fst]. apply get_t_meta. }
  destruct Q as (Q1 & Q2 & _ & Q4 & _ & _ & _ & Q8 & _).
  revert Hs. unfold s, set_temporal_field. destruct (shape_eqb (shp E) (shp (g_tf (set_is_envelope (fst q) true)))) eqn:Es; cbn [negb]; [|discriminate].
  apply shape_eqb_true in Es. destruct (negb _); [discriminate|]. intros _. cbn [fst].
  cbn [set_is_envelope with_t g_isenv g_axes g_lo g_hi g_shape]. rewrite Q1, Q2, Q4, Q8. do 5 (split; [reflexivity|]).
  eexists. split; [unfold tread, get_temporal_field; cbn [g_tv snd g_tf]; reflexivity|]. split; [symmetry; exact Es|]. intros i j k. reflexivity.
Qed.
Lemma c87_recover sk nd d g f w : tread g = Ok f -> (forall i j k, inb f i j k -> Im (at3 f i j k) = 0) ->
  snd (field_to_envelope_nd sk nd scipy_hilbert d g) = Ok w ->
  let g' := fst (field_to_envelope_nd sk nd scipy_hilbert d g) in
  g_isenv g' = true /\ g_axes g' = g_axes g /\ g_lo g' = g_lo g /\ g_hi g' = g_hi g /\
  exists e, tread g' = Ok e /\ shp e = shp f /\
    forall i j k, inb f i j k -> RtoC (Re (Cmult (at3 e i j k) (cis (- (w * vget (time_axis g) k))))) = at3 f i j k.
Proof.
  intros Hf Hr Hw g'. destruct (fte_nd_value sk nd scipy_hilbert d g f w Hf Hw) as (A1 & A2 & A3 & A4 & _ & e & He & Hs & Hv). fold g' in A1, A2, A3, A4, He.
  conj; try assumption. exists e. conj; try assumption. intros i j k Hin. rewrite Hv, <- Cmult_assoc, cis_mul_opp, Cmult_1_r. unfold inb in *.
  unfold hilbert_transform; cbn [at3]. rewrite hilbert_real.
  - f_equal. lia.
  - lia.
  - intros q Hq. apply Hr. lia.
Qed.
(** A carrier whose frequency the unwrapped phase has: the carrier is removed. *)
Lemma c87_carrier sk nd d g f w0 dt p A phi : tread g = Ok f ->
  (forall q, (q < dim2 f)%nat -> vget (time_axis g) q = vget (time_axis g) 0 + INR q * dt) -> dt <> 0 -> (0 < p)%nat -> (2 * p < dim2 f)%nat ->
  let w := 2 * PI * INR p / (INR (dim2 f) * dt) in
  (forall i j k, inb f i j k -> at3 f i j k = RtoC (A i j * cos (w * vget (time_axis g) k + phi i j))) ->
  snd (field_to_envelope_nd sk nd scipy_hilbert d g) = Ok w0 ->
  exists e, tread (fst (field_to_envelope_nd sk nd scipy_hilbert d g)) = Ok e /\ shp e = shp f /\ forall i j k, inb f i j k ->
    at3 e i j k = Cmult (RtoC (A i j)) (cis ((w0 - w) * vget (time_axis g) k - phi i j)) /\ Cmod (at3 e i j k) = Rabs (A i j).
Proof.
  intros Hf Ht Hdt H0 Hp w Hv Hw. destruct (fte_nd_value sk nd scipy_hilbert d g f w0 Hf Hw) as (_ & _ & _ & _ & _ & e & He & Hs & Hve).
  exists e. split; [exact He|]. split; [exact Hs|]. intros i j k Hin.
  assert (E : at3 e i j k = Cmult (RtoC (A i j)) (cis ((w0 - w) * vget (time_axis g) k - phi i j))).
  { rewrite Hve, (c85_carrier f (fun q => vget (time_axis g) q) dt p (A i j) (phi i j) i j k Ht H0 Hp Hdt Hin).
    - fold w. rewrite <- Cmult_assoc, <- cis_plus. f_equal. f_equal. ring.
    - intros q Hq. fold w. apply Hv. unfold inb in *. tauto. }
  split; [exact E|]. rewrite E, Cmod_mult, Cmod_cis, Rmult_1_r. apply Cmod_R.
Qed.
Lemma c87_profile sk nd hilb a md theta fw pol : exists e, from_openpmd_nd sk nd hilb a md theta (Some false) fw pol = Err e.
Proof.
  unfold from_openpmd_nd. destruct theta as [th|].
  - destruct (reorder_array_rt a md) as [fa|e] eqn:Er; cbn [bind]; [|eexists; reflexivity].
    assert (Sh : exists h nl, shp (fst fa) = [h; nl]).
    { unfold reorder_array_rt in Er. destruct (pyassert _); [|discriminate]. cbn [bind] in Er. cbn zeta in Er.
      repeat (match type of Er with (if ?c then _ else _) = _ => destruct c end); try discriminate; injection Er as <-; cbn [fst shp]; eauto. }
    destruct Sh as (h & nl & Sh). destruct (c37_create_rt (fst fa) (snd fa) h nl false Sh) as (e & ->). cbn [bind]. eexists. reflexivity.
  - destruct (reorder_array_xyt a md) as [fa|e] eqn:Er; cbn [bind]; [|eexists; reflexivity].
    destruct (create_grid Xyt (fst fa) (snd fa) false) as [g|e] eqn:Eg; cbn [bind]; [|eexists; reflexivity].
    destruct (create_xyt_shape _ _ _ _ Eg) as (V & Hs).
    cbn zeta. destruct (snd (field_to_envelope_nd sk nd hilb Xyt g)) as [w|e] eqn:Ef; cbn [bind]; [|eexists; reflexivity].
    assert (T : tread g = Ok (g_tf g)) by (unfold tread, get_temporal_field; rewrite V; reflexivity).
    destruct (fte_nd_value sk nd hilb Xyt g (g_tf g) w T Ef) as (_ & _ & _ & _ & _ & b & Hb & Sb & _).
    change (snd (get_temporal_field (fst (field_to_envelope_nd sk nd hilb Xyt g)))) with (tread (fst (field_to_envelope_nd sk nd hilb Xyt g))). rewrite Hb. cbn [bind].
    rewrite Hs in Sb.
    unfold first_slice. destruct (shp b) as [|[|n] s] eqn:Sb'; cbn [bind]; try (eexists; reflexivity).
    destruct (snd fa) as [|xs [|ys [|ts [|? ?]]]] eqn:Ea; try (eexists; reflexivity). cbn [fst snd].
    unfold from_array_xyt. destruct (negb (andb _ _)); [eexists; reflexivity|]. cbn [shp].
    destruct (shape_eqb s [length xs; length ys; length ts]) eqn:E; [|eexists; reflexivity]. exfalso. apply shape_eqb_true in E.
    subst s. cbn [map] in Sb. discriminate.
Qed.
