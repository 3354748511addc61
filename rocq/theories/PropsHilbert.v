(** C37 (axes of create_grid), C85 (field_to_envelope). *)
From Verif Require Import PyBase CSum NpFFT NumPy GridModel GridObs LaserModel LaserInv AnalysisModel AnalysisSpec LaserSpec DurationProofs CreateGridProofs
  HilbertModel HilbertProofs CreateAxesProofs.
Open Scope R_scope.

(** C37: data accepted by create_grid: the transverse axes of the grid are the given ones, which are uniform; the time axis is the
    uniform one with the same end points, equal to the given one up to 1e-8 s. *)
Theorem C37_axes_partial :
  forall a ax ay at_ isenv g, (2 <= length ax)%nat -> (2 <= length ay)%nat -> (2 <= length at_)%nat ->
  create_grid Xyt a [ax; ay; at_] isenv = Ok g ->
  exists t, g_axes g = [ax; ay; t] /\ uniform ax /\ uniform ay /\ t = linspace (vget at_ 0) (last at_ 0) (length at_) /\
    forall k, (k < length at_)%nat -> Rabs (vget t k - vget at_ k) <= / 10 ^ 8 + / 10 ^ 14 * Rabs (vget at_ k).
Proof. exact c37_axes. Qed.
Print Assumptions C37_axes_partial.
(** REFUTED: "the time axis of the grid is the one given": every time axis with |t| <= 5 ns, however non-uniform, passes the check
    and is replaced by the uniform axis with the same end points. *)
Theorem C37_time_axis_refuted :
  forall a ax ay at_ isenv, uniform ax -> uniform ay -> (2 <= length at_)%nat ->
  (forall k, (k < length at_)%nat -> Rabs (vget at_ k) <= / 2 * / 10 ^ 8) ->
  shp a = [length ax; length ay; length at_] -> dty a = dtype_of_env isenv ->
  exists g, create_grid Xyt a [ax; ay; at_] isenv = Ok g /\ g_axes g = [ax; ay; linspace (vget at_ 0) (last at_ 0) (length at_)].
Proof. exact c37_time_axis. Qed.
Print Assumptions C37_time_axis_refuted.
(** The samples at 0, 1 and 4 fs: the grid holds them as samples at 0, 2 and 4 fs. *)
Example C37_time_axis_example :
  let fs := / 10 ^ 15 in
  exists g, create_grid Xyt (zeros [2;2;3]%nat Complex128) [[0;1]; [0;1]; [0; fs; 4 * fs]] true = Ok g /\
    vget (time_axis g) 1 = 2 * fs /\ vget [0; fs; 4 * fs] 1 = fs /\ fs <> 2 * fs.
Proof.
  intros fs. assert (Hfs : 0 < fs) by (apply Rinv_0_lt_compat, pow_lt; lra).
  assert (Hsm : 4 * fs <= / 2 * / 10 ^ 8).
  { unfold fs. replace (10 ^ 15) with (10 ^ 8 * 10 ^ 7) by ring. rewrite Rinv_mult. assert (0 < / 10 ^ 8) by (apply Rinv_0_lt_compat, pow_lt; lra).
    assert (/ 10 ^ 7 <= / 8) by (apply Rinv_le_contravar; lra). nra. }
  destruct (C37_time_axis_refuted (zeros [2;2;3]%nat Complex128) [0;1] [0;1] [0; fs; 4 * fs] true uni2 uni2) as (g & Hg & Ha);
    try reflexivity; try (simpl; lia).
  { intros k Hk. simpl in Hk. destruct k as [|[|[|]]]; try lia; unfold vget; simpl nth; rewrite Rabs_pos_eq; lra. }
  exists g. split; [exact Hg|]. split; [|split; [reflexivity|lra]]. unfold time_axis. rewrite Ha. cbn [last]. rewrite linspace_at by (simpl; lia). unfold vget. simpl. field.
Qed.

(** C85: whatever the real field and the returned frequency w, the envelope that field_to_envelope stores reproduces the field:
    Re(envelope exp(-i w t)) is the field at every grid point; the grid is otherwise unchanged. *)
Theorem C85_recover :
  forall d g f w, tread g = Ok f -> (forall i j k, inb f i j k -> Im (at3 f i j k) = 0) ->
  snd (field_to_envelope scipy_hilbert d g) = Ok w ->
  let g' := fst (field_to_envelope scipy_hilbert d g) in
  g_isenv g' = true /\ g_axes g' = g_axes g /\ g_lo g' = g_lo g /\ g_hi g' = g_hi g /\
  exists e, tread g' = Ok e /\ shp e = shp f /\
    forall i j k, inb f i j k -> RtoC (Re (Cmult (at3 e i j k) (cis (- (w * vget (time_axis g) k))))) = at3 f i j k.
Proof. exact c85_recover. Qed.
Print Assumptions C85_recover.
(** C85: a carrier A(x,y) cos(w t + phi(x,y)) with a whole number p of periods in the window, less than half the number of samples:
    the stored array is A exp(-i phi) exp(i (w0 - w) t), w0 the returned frequency; its modulus is |A|. *)
Theorem C85_amplitude :
  forall d g f w0 dt p A phi, tread g = Ok f ->
  (forall q, (q < dim2 f)%nat -> vget (time_axis g) q = vget (time_axis g) 0 + INR q * dt) -> dt <> 0 -> (0 < p)%nat -> (2 * p < dim2 f)%nat ->
  let w := 2 * PI * INR p / (INR (dim2 f) * dt) in
  (forall i j k, inb f i j k -> at3 f i j k = RtoC (A i j * cos (w * vget (time_axis g) k + phi i j))) ->
  snd (field_to_envelope scipy_hilbert d g) = Ok w0 ->
  exists e, tread (fst (field_to_envelope scipy_hilbert d g)) = Ok e /\ shp e = shp f /\ forall i j k, inb f i j k ->
    at3 e i j k = Cmult (RtoC (A i j)) (cis ((w0 - w) * vget (time_axis g) k - phi i j)) /\ Cmod (at3 e i j k) = Rabs (A i j).
Proof. exact c85_envelope. Qed.
Print Assumptions C85_amplitude.
(** REFUTED: "the carrier is removed": for A(x,y) cos(w (t - t_mid)) the returned frequency is 0 and the envelope is the whole
    analytic signal A exp(-i w (t - t_mid)). *)
Theorem C85_carrier_refuted :
  forall ax ay at_ A p a, uniform ax -> uniform ay -> uniform at_ -> vget at_ 0 <> last at_ 0 ->
  (0 < p)%nat -> (2 * p < length at_)%nat ->
  shp a = [length ax; length ay; length at_] -> dty a = Float64 ->
  let w := 2 * PI * INR p / (INR (length at_) * (vget at_ 1 - vget at_ 0)) in
  let t k := vget at_ k - (vget at_ 0 + last at_ 0) / 2 in
  (forall i j k, at3 a i j k = RtoC (A i j * cos (w * t k))) -> some_nonzero a ->
  exists g e, create_grid Xyt a [ax; ay; at_] false = Ok g /\ snd (field_to_envelope scipy_hilbert Xyt g) = Ok 0 /\
    tread (fst (field_to_envelope scipy_hilbert Xyt g)) = Ok e /\ shp e = shp a /\
    forall i j k, inb a i j k -> at3 e i j k = Cmult (RtoC (A i j)) (cis (- (w * t k))).
Proof. exact c85_not_removed. Qed.
Print Assumptions C85_carrier_refuted.
(** One period of a cosine on three samples: field_to_envelope succeeds, and the envelope turns by 2 pi / 3 per sample. *)
Example C85_nonvacuous : exists g f e,
  tread g = Ok f /\ (forall i j k, inb f i j k -> Im (at3 f i j k) = 0) /\ (forall i j k, inb f i j k -> at3 f i j k = RtoC (1 * cos (2 * PI * INR 1 / (INR 3 * 1) * vget (time_axis g) k + - (2 * PI * INR 1 / (INR 3 * 1))))) /\
  (forall q, (q < 3)%nat -> vget (time_axis g) q = vget (time_axis g) 0 + INR q * 1) /\
  snd (field_to_envelope scipy_hilbert Xyt g) = Ok 0 /\ tread (fst (field_to_envelope scipy_hilbert Xyt g)) = Ok e /\
  at3 e 0 0 2 = cis (- (2 * PI / 3)) /\ at3 e 0 0 1 = RtoC 1.
Proof.
  set (w := 2 * PI * INR 1 / (INR 3 * 1)).
  set (a := mkArr [2;2;3]%nat Float64 (fun i j k => RtoC (1 * cos (w * (vget [0;1;2] k - (vget [0;1;2] 0 + last [0;1;2] 0) / 2))))).
  assert (Ew : 2 * PI * INR 1 / (INR (length [0;1;2]) * (vget [0;1;2] 1 - vget [0;1;2] 0)) = w) by (unfold w, vget; simpl; field).
  assert (Em : (vget [0;1;2] 0 + last [0;1;2] 0) / 2 = 1) by (unfold vget; simpl; field).
  destruct (C85_carrier_refuted [0;1] [0;1] [0;1;2] (fun _ _ => 1) 1 a uni2 uni2 uni3) as (g & e & Hg & Hw & He & Hs & Hv); try reflexivity; try (simpl; lia).
  { unfold vget; simpl; lra. }
  { intros i j k. rewrite Ew. reflexivity. }
  { exists 0%nat, 0%nat, 1%nat. split; [unfold inb, dim0, dim1, dim2; simpl; lia|]. unfold a; cbn [at3]. rewrite Em. unfold vget; simpl.
    replace (1 - 1) with 0 by ring. rewrite Rmult_0_r, cos_0. intros H. injection H. lra. }
  destruct (c37_create_xyt a [0;1] [0;1] [0;1;2] false uni2 uni2 uni3 eq_refl eq_refl) as (g1 & b & Hg1 & Gax & _ & _ & _ & _ & _ & Hb & (B1 & B2 & B3)); [reflexivity|].
  assert (g1 = g) by congruence. subst g1.
  assert (HT : time_axis g = [0;1;2]) by (unfold time_axis; rewrite Gax; reflexivity).
  assert (Hin : forall i j k, inb b i j k <-> inb a i j k) by (intros; unfold inb, dim0, dim1, dim2; rewrite B1; tauto).
  exists g, b, e. split; [exact Hb|]. split; [intros i j k H; rewrite <- B3 by (apply Hin; exact H); reflexivity|]. split.
  { intros i j k H. rewrite <- B3 by (apply Hin; exact H). unfold a; cbn [at3]. rewrite Em, HT. do 3 f_equal. ring. }
  split; [intros q Hq; rewrite HT; destruct q as [|[|[|]]]; try lia; unfold vget; simpl; ring|].
  split; [exact Hw|]. split; [exact He|]. rewrite !Hv by (unfold inb, dim0, dim1, dim2; simpl; lia). rewrite Ew, Em. split.
  - rewrite Cmult_1_l. f_equal. unfold w, vget; simpl. field.
  - rewrite Cmult_1_l. unfold vget; simpl. replace (- (w * (1 - 1))) with 0 by ring. apply cis_0.
Qed.
