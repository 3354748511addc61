(** Local and central frequency of chirped fields (C35). *)
From Verif Require Import PyBase CSum NpFFT NumPy NpMath NpMathProofs GridModel GridObs LaserSpec EnergyModel EnergyProofs LaserModel AnalysisModel AnalysisSpec FrequencyProofs.
Open Scope R_scope.

(** np.gradient with edge_order=2 is exact on quadratics, at the edges too, for any increasing axis. *)
Lemma gradient_quadratic n f x a b c k : (3 <= n)%nat -> (k < n)%nat ->
  (forall i, (S i < n)%nat -> x i < x (S i)) -> (forall i, (i < n)%nat -> f i = a + b * x i + c * (x i * x i) / 2) ->
  gradient2 lin3R n f x k = b + c * x k.
Proof.
  intros Hn Hk Hx Hf. unfold gradient2, lin3R.
  destruct (Nat.eqb_spec k 0) as [->|K0].
  - rewrite !Hf by lia. pose proof (Hx 0%nat ltac:(lia)). pose proof (Hx 1%nat ltac:(lia)). field. repeat split; lra.
  - destruct (Nat.eqb_spec k (n - 1)) as [->|K1].
    + rewrite !Hf by lia. pose proof (Hx (n - 3)%nat ltac:(lia)) as A. pose proof (Hx (n - 2)%nat ltac:(lia)) as B.
      replace (S (n - 3)) with (n - 2)%nat in A by lia. replace (S (n - 2)) with (n - 1)%nat in B by lia.
      field. repeat split; lra.
    + rewrite !Hf by lia. pose proof (Hx (k - 1)%nat ltac:(lia)) as A. pose proof (Hx k ltac:(lia)) as B.
      replace (S (k - 1)) with k in A by lia. field. repeat split; lra.
Qed.
(** Samples a e^{-i psi} with phase steps below pi: unwrapping recovers psi up to a constant. *)
Lemma unwrap_phase n (u : nat -> C) (a psi : nat -> R) :
  (forall q, (q < n)%nat -> 0 < a q /\ u q = Cmult (RtoC (a q)) (cis (- psi q))) ->
  (forall q, (S q < n)%nat -> Rabs (psi (S q) - psi q) < PI) ->
  forall k, (k < n)%nat -> unwrap (fun q => angle (u q)) k = angle (u 0%nat) + psi 0%nat - psi k.
Proof.
  intros Hu Hs k. induction k as [|k IH]; intros Hk; [rewrite unwrap_0; ring|].
  rewrite (unwrap_step (fun q => angle (u q)) k (psi k - psi (S k))).
  - rewrite IH by lia. ring.
  - specialize (Hs k ltac:(lia)). apply Rabs_def2 in Hs. lra.
  - rewrite cis_plus. destruct (Hu k ltac:(lia)) as (P0 & ->). destruct (Hu (S k) ltac:(lia)) as (P1 & ->).
    rewrite !cis_angle by assumption. rewrite <- cis_plus. f_equal. ring.
Qed.
Lemma local_omega_chirp g f w0 i j k (a : nat -> R) p0 delta beta :
  let t q := vget (time_axis g) q in
  let psi q := p0 + delta * t q + beta * (t q * t q) / 2 in
  (3 <= dim2 f)%nat -> (k < dim2 f)%nat ->
  (forall q, (S q < dim2 f)%nat -> t q < t (S q)) ->
  (forall q, (S q < dim2 f)%nat -> Rabs (psi (S q) - psi q) < PI) ->
  (forall q, (q < dim2 f)%nat -> 0 < a q /\ at3 f i j q = Cmult (RtoC (a q)) (cis (- psi q))) ->
  local_omega g f w0 i j k = w0 + delta + beta * t k.
Proof.
  intros t psi Hn Hk Ht Hs Hf. unfold local_omega. rewrite Rplus_assoc. f_equal.
  apply (gradient_quadratic (dim2 f) _ (fun q => vget (time_axis g) q) (p0 - (angle (at3 f i j 0) + psi 0%nat))); [exact Hn|exact Hk|exact Ht|].
  intros q Hq. rewrite (unwrap_phase (dim2 f) (fun q => at3 f i j q) a psi Hf Hs q Hq). unfold psi, t. field.
Qed.

(** What [clip_freq] returns when the two bounds are ordered. *)
Lemma clip_cases lb ub c v : lb * c <= ub * c ->
  (lb * c <= v <= ub * c -> clip_freq lb ub c v = v) /\ (v <= lb * c -> clip_freq lb ub c v = lb * c) /\ (ub * c <= v -> clip_freq lb ub c v = ub * c).
Proof.
  intros H. unfold clip_freq. repeat split; intros; unfold Rmin, Rmax; repeat destruct (Rle_dec _ _); lra.
Qed.

(** The average of values known wherever the weight is positive. *)
Lemma average_known n0 n1 n2 v w x : (forall i j k, (i < n0)%nat -> (j < n1)%nat -> (k < n2)%nat -> w i j k = 0 \/ v i j k = x i j k) ->
  rsum3 n0 n1 n2 w <> 0 -> average3 n0 n1 n2 v w = Ok (rsum3 n0 n1 n2 (fun i j k => x i j k * w i j k) / rsum3 n0 n1 n2 w).
Proof.
  intros H Hw. unfold average3. destruct (Reqb _ 0) eqn:E; [apply Reqb_true in E; tauto|]. f_equal. f_equal.
  apply rsum3_ext. intros i j k Hi Hj Hk. destruct (H i j k Hi Hj Hk) as [-> | ->]; ring.
Qed.

Lemma chirp_local g f w0 a p0 delta beta : (3 <= dim2 f)%nat ->
  (forall q, (S q < dim2 f)%nat -> vget (time_axis g) q < vget (time_axis g) (S q)) ->
  chirped f (vget (time_axis g)) a p0 delta beta ->
  forall i j k, (i < dim0 f)%nat -> (j < dim1 f)%nat -> (k < dim2 f)%nat ->
  Cmod (at3 f i j k) = a i j k /\ (a i j k = 0 \/ local_omega g f w0 i j k = w0 + delta i j + beta i j * vget (time_axis g) k).
Proof.
  intros Hn Ht Hc i j k Hi Hj Hk. destruct (Hc i j Hi Hj) as (Hs & Hf & Hd). split.
  - rewrite Hf, Cmod_mult, Cmod_cis, Rmult_1_r, Cmod_R by exact Hk. apply Rabs_pos_eq. destruct Hd as [D|D]; specialize (D k Hk); lra.
  - destruct Hd as [D|D]; [left; apply D, Hk|right].
    apply (local_omega_chirp g f w0 i j k (a i j) (p0 i j) (delta i j) (beta i j)); try assumption.
    intros q Hq. split; [apply D, Hq|apply Hf, Hq].
Qed.
Lemma c35_chirp g d hb f w0 lb ub a p0 delta beta : tread g = Ok f -> g_isenv g = true -> (3 <= dim2 f)%nat ->
  (forall q, (S q < dim2 f)%nat -> vget (time_axis g) q < vget (time_axis g) (S q)) ->
  chirped f (vget (time_axis g)) a p0 delta beta -> some_nonzero f ->
  let om0 i j k := w0 + delta i j + beta i j * vget (time_axis g) k in
  exists om c, snd (get_frequency g d hb (Some w0) lb ub) = Ok (om, c) /\ shp om = shp f /\
    c * rsum3 (dim0 f) (dim1 f) (dim2 f) a = rsum3 (dim0 f) (dim1 f) (dim2 f) (fun i j k => om0 i j k * a i j k) /\
    (lb * c <= ub * c -> forall i j k, inb f i j k -> a i j k <> 0 -> exists w, at3 om i j k = RtoC w /\
       (lb * c <= om0 i j k <= ub * c -> w = om0 i j k) /\ (om0 i j k <= lb * c -> w = lb * c) /\ (ub * c <= om0 i j k -> w = ub * c)).
Proof.
  intros Hf He Hn Ht Hc (i0 & j0 & k0 & H0 & Hz0) om0. rewrite (frequency_env_eq g f d hb _ lb ub Hf He). unfold frequency_env.
  destruct (Nat.ltb_spec (dim2 f) 3); [lia|].
  pose proof (chirp_local g f w0 a p0 delta beta Hn Ht Hc) as HL.
  assert (HP : 0 < rsum3 (dim0 f) (dim1 f) (dim2 f) (fun i j k => Cmod (at3 f i j k))).
  { unfold inb in H0. apply (rsum3_pos _ _ _ _ i0 j0 k0); try tauto; [intros; apply Cmod_ge_0|]. apply Cmod_neq0, Hz0. }
  assert (HA : rsum3 (dim0 f) (dim1 f) (dim2 f) (fun i j k => Cmod (at3 f i j k)) = rsum3 (dim0 f) (dim1 f) (dim2 f) a).
  { apply rsum3_ext. intros i j k Hi Hj Hk. apply (HL i j k Hi Hj Hk). }
  rewrite (average_known _ _ _ _ _ om0); [|intros i j k Hi Hj Hk; destruct (HL i j k Hi Hj Hk) as (-> & HH); exact HH|lra].
  cbn [bind]. do 2 eexists. split; [reflexivity|]. split; [reflexivity|]. rewrite HA. split.
  - unfold Rdiv. rewrite Rmult_assoc, Rinv_l by lra. rewrite Rmult_1_r. apply rsum3_ext. intros i j k Hi Hj Hk.
    rewrite (proj1 (HL i j k Hi Hj Hk)). reflexivity.
  - intros Hb i j k Hi Ha. unfold real_arr; cbn [at3]. eexists. split; [reflexivity|].
    unfold inb in Hi. destruct (HL i j k ltac:(tauto) ltac:(tauto) ltac:(tauto)) as (_ & [Z|E]); [tauto|]. rewrite E. apply clip_cases, Hb.
Qed.
Lemma squeeze_at f v i j k : (i < dim0 f)%nat -> (j < dim1 f)%nat ->
  squeezed_entry f (squeeze (real_arr (shp f) v)) i j k = RtoC (v i j k).
Proof.
  intros Hi Hj. unfold squeezed_entry, squeeze, real_arr, dim0, dim1 in *; cbn [at3 shp].
  destruct (Nat.eqb_spec (nth 0 (shp f) 0%nat) 1) as [A|A]; destruct (Nat.eqb_spec (nth 1 (shp f) 0%nat) 1) as [B|B];
    rewrite ?A, ?B in *; try (replace i with 0%nat by lia); try (replace j with 0%nat by lia); reflexivity.
Qed.
Lemma average_mean n0 n1 n2 v w x c : average3 n0 n1 n2 v w = Ok c ->
  (forall i j k, (i < n0)%nat -> (j < n1)%nat -> (k < n2)%nat -> v i j k = x i j k) ->
  rsum3 n0 n1 n2 w <> 0 /\ c * rsum3 n0 n1 n2 w = rsum3 n0 n1 n2 (fun i j k => x i j k * w i j k).
Proof.
  unfold average3. destruct (Reqb _ 0) eqn:E; [discriminate|]. apply Reqb_false in E. intros H Hx. apply (f_equal (fun r => match r with Ok z => z | Err _ => 0 end)) in H. cbn beta iota in H. subst c.
  split; [exact E|]. unfold Rdiv. rewrite Rmult_assoc, Rinv_l by exact E. rewrite Rmult_1_r.
  apply rsum3_ext. intros i j k Hi Hj Hk. rewrite Hx by assumption. reflexivity.
Qed.
Lemma clip_inside lb ub c v : lb * c < clip_freq lb ub c v < ub * c -> clip_freq lb ub c v = v.
Proof. unfold clip_freq, Rmin, Rmax. repeat destruct (Rle_dec _ _); intros; lra. Qed.
Lemma c35_mean g d hb w0 lb ub om c f : tread g = Ok f -> snd (get_frequency g d hb w0 lb ub) = Ok (om, c) ->
  let entry := if g_isenv g then at3 om else squeezed_entry f om in
  let W i j k := (if g_isenv g then 1 else match d with Rt => vget (nth 0 (g_axes g) []) j | _ => 1 end) * Cmod (at3 f i j k) in
  (forall i j k, inb f i j k -> exists w, entry i j k = RtoC w /\ lb * c < w < ub * c) ->
  rsum3 (dim0 f) (dim1 f) (dim2 f) W <> 0 /\
  c * rsum3 (dim0 f) (dim1 f) (dim2 f) W = rsum3 (dim0 f) (dim1 f) (dim2 f) (fun i j k => Re (entry i j k) * W i j k).
Proof.
  intros Hf H entry W Hin.
  assert (X : exists w v, average3 (dim0 f) (dim1 f) (dim2 f) v w = Ok c /\ (forall i j k, w i j k = W i j k) /\
     forall i j k, inb f i j k -> entry i j k = RtoC (clip_freq lb ub c (v i j k))).
  { unfold W, entry. destruct (g_isenv g) eqn:He.
    - rewrite (frequency_env_eq g f d hb w0 lb ub Hf He) in H. unfold frequency_env in H. destruct w0 as [w0|]; [|discriminate].
      destruct (Nat.ltb (dim2 f) 3); [discriminate|]. destruct (average3 _ _ _ _ _) as [c'|] eqn:Ha; cbn [bind] in H; [|discriminate].
      injection H as <- <-. do 2 eexists. split; [exact Ha|]. split; [intros; ring|]. intros i j k _. reflexivity.
    - rewrite (frequency_field_eq g f d hb w0 lb ub Hf He) in H. unfold frequency_field in H.
      destruct d; try discriminate; destruct (negb hb); try discriminate; (destruct (Nat.ltb (dim2 f) 3); [discriminate|]);
        (destruct (average3 _ _ _ _ _) as [c'|] eqn:Ha; cbn [bind] in H; [|discriminate]);
        injection H as <- <-; do 2 eexists; (split; [exact Ha|]); (split; [intros; ring|]); intros i j k (Hi & Hj & _); apply squeeze_at; assumption. }
  destruct X as (w & v & Ha & Hw & He).
  destruct (average_mean _ _ _ _ _ (fun i j k => Re (entry i j k)) c Ha) as (A & B).
  - intros i j k Hi Hj Hk. destruct (Hin i j k ltac:(unfold inb; tauto)) as (u & E & Hb). rewrite E. cbn [Re RtoC fst].
    rewrite He in E by (unfold inb; tauto). apply RtoC_inj in E. subst u. symmetry. apply clip_inside, Hb.
  - assert (E : forall h, rsum3 (dim0 f) (dim1 f) (dim2 f) (fun i j k => h i j k * w i j k) = rsum3 (dim0 f) (dim1 f) (dim2 f) (fun i j k => h i j k * W i j k)).
    { intros h. apply rsum3_ext. intros i j k _ _ _. rewrite Hw. reflexivity. }
    assert (E1 : rsum3 (dim0 f) (dim1 f) (dim2 f) w = rsum3 (dim0 f) (dim1 f) (dim2 f) W) by (apply rsum3_ext; intros; apply Hw).
    rewrite E in B. rewrite E1 in A, B. split; [exact A|exact B].
Qed.
