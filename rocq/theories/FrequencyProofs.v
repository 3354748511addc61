(** Local frequency, vector potential, envelope extraction. *)
From Verif Require Import PyBase CSum NpFFT NumPy NpMath NpMathProofs GridModel GridObs LaserSpec EnergyModel EnergyProofs LaserModel AnalysisModel AnalysisSpec.
Open Scope R_scope.

Lemma with_field_snd {A} g (k : grid -> ndarray -> res A) f : tread g = Ok f -> snd (with_field g k) = k (fst (get_temporal_field g)) f.
Proof. intros H. unfold with_field. cbn [snd]. change (snd (get_temporal_field g)) with (tread g). rewrite H. reflexivity. Qed.
Lemma local_omega_meta g g' f w i j k : g_axes g' = g_axes g -> local_omega g' f w i j k = local_omega g f w i j k.
Proof. intros H. unfold local_omega, time_axis. rewrite H. reflexivity. Qed.
Lemma frequency_env_eq g f d hb w0 lb ub : tread g = Ok f -> g_isenv g = true ->
  snd (get_frequency g d hb w0 lb ub) = frequency_env g f w0 lb ub.
Proof.
  intros H He. unfold get_frequency. rewrite (with_field_snd _ _ f H).
  destruct (get_t_meta g) as (_&_&_&E4&_&_&_&_&E9&_). rewrite E9, He.
  unfold frequency_env. destruct w0; [|reflexivity]. destruct (Nat.ltb (dim2 f) 3); [reflexivity|].
  unfold local_omega, time_axis. rewrite E4. reflexivity.
Qed.

(** ** Bounds *)
Lemma clip_bounds lb ub c w : 0 < c -> lb <= ub -> lb * c <= clip_freq lb ub c w <= ub * c.
Proof.
  intros Hc Hb. unfold clip_freq. assert (lb * c <= ub * c) by (apply Rmult_le_compat_r; lra).
  pose proof (Rmax_r w (lb * c)). split.
  - apply Rmin_glb; lra.
  - apply Rmin_r.
Qed.
Lemma clip_id lb ub c w : lb * c <= w <= ub * c -> clip_freq lb ub c w = w.
Proof. intros H. unfold clip_freq. rewrite Rmax_left by lra. apply Rmin_left. lra. Qed.
Lemma freq_shape_env g f w0 lb ub om c : frequency_env g f w0 lb ub = Ok (om, c) ->
  exists v, om = real_arr (shp f) (fun i j k => clip_freq lb ub c (v i j k)).
Proof.
  unfold frequency_env. destruct w0 as [w0|]; [|discriminate]. destruct (Nat.ltb (dim2 f) 3); [discriminate|].
  destruct (average3 _ _ _ _ _) as [c'|]; cbn [bind]; [|discriminate]. intros H. injection H as <- <-. eexists. reflexivity.
Qed.
Lemma freq_shape_field d g f hb lb ub om c : frequency_field d g f hb lb ub = Ok (om, c) ->
  exists v, om = squeeze (real_arr (shp f) (fun i j k => clip_freq lb ub c (v i j k))).
Proof.
  unfold frequency_field. destruct d; try discriminate; destruct (negb hb); try discriminate;
    destruct (Nat.ltb (dim2 f) 3); try discriminate;
    destruct (average3 _ _ _ _ _) as [c'|]; cbn [bind]; try discriminate; intros H; injection H as <- <-; eexists; reflexivity.
Qed.
Lemma squeeze_real s v i j k : exists i' j' k', at3 (squeeze (real_arr s v)) i j k = RtoC (v i' j' k').
Proof. unfold squeeze. cbn [at3]. destruct (Nat.eqb _ 1), (Nat.eqb _ 1); do 3 eexists; reflexivity. Qed.
Lemma c35_bounds g d hb w0 lb ub om c f : tread g = Ok f ->
  snd (get_frequency g d hb w0 lb ub) = Ok (om, c) -> 0 < c -> lb <= ub ->
  shp om = (if g_isenv g then shp f else filter (fun n => negb (Nat.eqb n 1)) (shp f)) /\
  forall i j k, exists w, at3 om i j k = RtoC w /\ lb * c <= w <= ub * c.
Proof.
  intros Hf H Hc Hb. unfold get_frequency in H. rewrite (with_field_snd _ _ f Hf) in H.
  destruct (get_t_meta g) as (_&_&_&_&_&_&_&_&E9&_). rewrite E9 in H. destruct (g_isenv g).
  - destruct (freq_shape_env _ _ _ _ _ _ _ H) as (v & ->). split; [reflexivity|]. intros i j k. eexists. split; [reflexivity|]. apply clip_bounds; assumption.
  - destruct (freq_shape_field _ _ _ _ _ _ _ _ H) as (v & ->). split; [reflexivity|]. intros i j k.
    destruct (squeeze_real (shp f) (fun i j k => clip_freq lb ub c (v i j k)) i j k) as (i' & j' & k' & ->).
    eexists. split; [reflexivity|]. apply clip_bounds; assumption.
Qed.

(** ** Monochromatic envelopes *)
Lemma Cmult_integral x y : Cmult x y = RtoC 0 -> x = RtoC 0 \/ y = RtoC 0.
Proof.
  intros H. destruct (Ceq_dec x (RtoC 0)) as [E|E]; [tauto|]. destruct (Ceq_dec y (RtoC 0)) as [F|F]; [tauto|].
  exfalso. exact (Cmult_neq_0 x y E F H).
Qed.
Lemma cis_angle_neq0 z : z <> RtoC 0 -> cis (angle z) = Cdiv z (RtoC (Cmod z)).
Proof.
  intros Hz. pose proof (angle_polar z) as H. pose proof (Cmod_gt_0 z) as (G & _). specialize (G Hz).
  rewrite <- H at 2. field. apply RtoC_neq0. lra.
Qed.
Lemma cis_angle_mult z w : z <> RtoC 0 -> w <> RtoC 0 -> cis (angle (Cmult z w)) = cis (angle z + angle w).
Proof.
  intros Hz Hw. rewrite cis_plus, !cis_angle_neq0, Cmod_mult; [|exact Hw|exact Hz|].
  - rewrite RtoC_mult. field. split; apply RtoC_neq0; apply Rgt_not_eq, Cmod_gt_0; assumption.
  - intros H. apply Cmult_integral in H. tauto.
Qed.
Lemma Cmod_neq0 z : z <> RtoC 0 -> 0 < Cmod z.
Proof. intros H. apply Cmod_gt_0, H. Qed.
Lemma local_omega_mono g f w0 delta dt A i j k : (3 <= dim2 f)%nat -> (k < dim2 f)%nat ->
  (forall q, (S q < dim2 f)%nat -> vget (time_axis g) (S q) - vget (time_axis g) q = dt) ->
  0 < dt -> Rabs delta * dt < PI -> A <> RtoC 0 ->
  (forall q, (q < dim2 f)%nat -> at3 f i j q = Cmult A (cis (- (delta * vget (time_axis g) q)))) ->
  local_omega g f w0 i j k = w0 + delta.
Proof.
  intros Hn Hk Ht Hdt Hd HA Hf. unfold local_omega.
  set (x := fun q => vget (time_axis g) q) in *.
  assert (Hs : - PI < - (delta * dt) < PI).
  { assert (Rabs (delta * dt) < PI) by (rewrite Rabs_mult, (Rabs_pos_eq dt) by lra; exact Hd). apply Rabs_def2 in H. lra. }
  assert (Hst : forall q, (S q < dim2 f)%nat -> cis (angle (at3 f i j (S q))) = cis (angle (at3 f i j q) + - (delta * dt))).
  { intros q Hq. rewrite !Hf by lia. rewrite cis_plus, !cis_angle_neq0.
    - rewrite !Cmod_mult, !Cmod_cis, !Rmult_1_r.
      replace (- (delta * x (S q))) with (- (delta * x q) + - (delta * dt)) by (rewrite <- (Ht q Hq); unfold x; ring).
      rewrite cis_plus. unfold Cdiv. ring.
    - intros H. apply Cmult_integral in H. destruct H as [H|H]; [tauto|]. eapply cis_neq0, H.
    - intros H. apply Cmult_integral in H. destruct H as [H|H]; [tauto|]. eapply cis_neq0, H. }
  assert (Hx : forall q, (q < dim2 f)%nat -> x q = x 0%nat + INR q * dt).
  { intros q. induction q as [|q IH]; intros Hq; [simpl; ring|]. rewrite S_INR. specialize (IH ltac:(lia)). pose proof (Ht q ltac:(lia)).
    apply Rminus_diag_uniq. unfold x in *. cbv beta in *. revert H IH. generalize (vget (time_axis g) (S q)) (vget (time_axis g) q) (vget (time_axis g) 0) (INR q). intros a b c n H1 H2. replace a with (b + dt) by lra. rewrite H2. ring. }
  f_equal. apply (gradient_linear (dim2 f) _ x (- angle (at3 f i j 0) - delta * x 0%nat) delta); [exact Hn|exact Hk| |].
  - intros q Hq. apply Rminus_gt_0_lt. rewrite (Ht q Hq). exact Hdt.
  - intros q Hq. rewrite (unwrap_linear (fun q => angle (at3 f i j q)) (- (delta * dt)) (dim2 f) Hs Hst q Hq), (Hx q Hq). ring.
Qed.

Lemma rsum3_pos n0 n1 n2 f i j k : (forall i j k, 0 <= f i j k) -> (i < n0)%nat -> (j < n1)%nat -> (k < n2)%nat -> 0 < f i j k -> 0 < rsum3 n0 n1 n2 f.
Proof.
  intros Hp Hi Hj Hk H. destruct (Rle_lt_or_eq_dec 0 (rsum3 n0 n1 n2 f)) as [L|E]; [apply rsum3_nonneg; intros; apply Hp|exact L|].
  symmetry in E. exfalso. pose proof (rsum3_zero n0 n1 n2 f ltac:(intros; apply Hp) E i j k Hi Hj Hk). lra.
Qed.

Lemma c35_mono g d hb f w0 lb ub delta dt A : tread g = Ok f -> g_isenv g = true -> (3 <= dim2 f)%nat ->
  (forall q, (S q < dim2 f)%nat -> vget (time_axis g) (S q) - vget (time_axis g) q = dt) -> 0 < dt ->
  Rabs delta * dt < PI ->
  (forall i j k, inb f i j k -> at3 f i j k = Cmult (A i j) (cis (- (delta * vget (time_axis g) k)))) ->
  (exists i j, (i < dim0 f)%nat /\ (j < dim1 f)%nat /\ A i j <> RtoC 0) ->
  exists om, snd (get_frequency g d hb (Some w0) lb ub) = Ok (om, w0 + delta) /\ shp om = shp f /\
    (0 <= w0 + delta -> lb <= 1 <= ub -> forall i j k, inb f i j k -> A i j <> RtoC 0 -> at3 om i j k = RtoC (w0 + delta)).
Proof.
  intros Hf He Hn Ht Hdt Hd HA (i0 & j0 & Hi0 & Hj0 & HA0). rewrite (frequency_env_eq g f d hb _ lb ub Hf He).
  assert (HL : forall i j k, inb f i j k -> A i j <> RtoC 0 -> local_omega g f w0 i j k = w0 + delta).
  { intros i j k H HAij. unfold inb in H. apply (local_omega_mono g f w0 delta dt (A i j)); try assumption; try apply H.
    intros q Hq. apply HA. unfold inb. tauto. }
  assert (Hav : average3 (dim0 f) (dim1 f) (dim2 f) (local_omega g f w0) (fun i j k => Cmod (at3 f i j k)) = Ok (w0 + delta)).
  { unfold average3. assert (HP : 0 < rsum3 (dim0 f) (dim1 f) (dim2 f) (fun i j k => Cmod (at3 f i j k))).
    { apply (rsum3_pos _ _ _ _ i0 j0 0%nat); try assumption; try lia; [intros; apply Cmod_ge_0|].
      rewrite HA by (unfold inb; repeat split; assumption || lia). rewrite Cmod_mult, Cmod_cis, Rmult_1_r. apply Cmod_neq0, HA0. }
    destruct (Reqb _ 0) eqn:E; [apply Reqb_true in E; lra|]. f_equal.
    rewrite (rsum3_ext _ _ _ _ (fun i j k => (w0 + delta) * Cmod (at3 f i j k))).
    - rewrite rsum3_scal. field. lra.
    - intros i j k Hi Hj Hk. destruct (Ceq_dec (A i j) (RtoC 0)) as [Z|NZ].
      + assert (E0 : at3 f i j k = RtoC 0) by (rewrite HA, Z by (unfold inb; tauto); ring). rewrite E0, Cmod_0. ring.
      + rewrite HL by (unfold inb; tauto). reflexivity. }
  unfold frequency_env. destruct (Nat.ltb_spec (dim2 f) 3); [lia|]. rewrite Hav. cbn [bind]. eexists. split; [reflexivity|].
  split; [reflexivity|]. intros Hw Hb i j k Hin Hne. unfold real_arr; cbn [at3]. f_equal. rewrite HL by assumption. apply clip_id.
  split; nra.
Qed.
(** Where the envelope vanishes the local frequency is the carrier (clipped). *)
Lemma local_omega_const g f w0 i j k a : (3 <= dim2 f)%nat -> (k < dim2 f)%nat ->
  (forall q, (S q < dim2 f)%nat -> vget (time_axis g) q < vget (time_axis g) (S q)) ->
  (forall q, (q < dim2 f)%nat -> at3 f i j q = a) -> local_omega g f w0 i j k = w0.
Proof.
  intros Hn Hk Ht Hz. unfold local_omega. rewrite (gradient_linear (dim2 f) _ (fun q => vget (time_axis g) q) (- angle a) 0 k Hn Hk Ht); [ring|].
  intros q Hq. rewrite (unwrap_linear _ 0 (dim2 f)); [rewrite Hz by lia; ring| | |exact Hq].
  - pose proof PI_RGT_0. lra.
  - intros p Hp. rewrite Rplus_0_r, !Hz by lia. reflexivity.
Qed.

(** ** Unwrapped phases of rotated samples *)
Lemma gradient_shift n f g x c k : (3 <= n)%nat -> (k < n)%nat -> (forall i, (S i < n)%nat -> x i < x (S i)) ->
  (forall i, (i < n)%nat -> g i = f i + c) -> gradient2 lin3R n g x k = gradient2 lin3R n f x k.
Proof.
  intros Hn Hk Hx Hg. unfold gradient2, lin3R.
  destruct (Nat.eqb_spec k 0) as [->|K0].
  - rewrite !Hg by lia. pose proof (Hx 0%nat ltac:(lia)). pose proof (Hx 1%nat ltac:(lia)). field. repeat split; lra.
  - destruct (Nat.eqb_spec k (n - 1)) as [->|K1].
    + rewrite !Hg by lia. pose proof (Hx (n - 3)%nat ltac:(lia)) as A. pose proof (Hx (n - 2)%nat ltac:(lia)) as B.
      replace (S (n - 3)) with (n - 2)%nat in A by lia. replace (S (n - 2)) with (n - 1)%nat in B by lia.
      field. repeat split; lra.
    + rewrite !Hg by lia. pose proof (Hx (k - 1)%nat ltac:(lia)) as A. pose proof (Hx k ltac:(lia)) as B.
      replace (S (k - 1)) with k in A by lia. field. repeat split; lra.
Qed.
Lemma phase_step u v : u <> RtoC 0 -> v <> RtoC 0 -> not_opposite u v ->
  exists s, - PI < s < PI /\ cis (angle v) = cis (angle u + s).
Proof.
  intros Hu Hv Hop. exists (angle (Cdiv v u)).
  assert (Hq : Cdiv v u <> RtoC 0).
  { intros H. apply Hv. replace v with (Cmult (Cdiv v u) u) by (field; exact Hu). rewrite H. ring. }
  split.
  - destruct (angle_range (Cdiv v u)) as (A & B). split; [exact A|].
    destruct (Rle_lt_or_eq_dec _ _ B) as [L|E]; [exact L|exfalso].
    pose proof (angle_polar (Cdiv v u)) as P. rewrite E, cis_PI in P.
    apply (Hop (Cmod (Cdiv v u))); [apply Cmod_neq0, Hq|].
    transitivity (Cmult (Cdiv v u) u); [field; exact Hu|]. rewrite <- P at 1. assert (E1 : RtoC (-1) = Copp (RtoC 1)) by (unfold RtoC, Copp; cbn [fst snd]; f_equal; ring). rewrite E1. ring.
  - rewrite <- cis_angle_mult by assumption. f_equal. f_equal. field. exact Hu.
Qed.
Lemma unwrap_rotated n (u a : nat -> C) phi : (1 <= n)%nat ->
  (forall q, (q < n)%nat -> u q <> RtoC 0) -> (forall q, (S q < n)%nat -> not_opposite (u q) (u (S q))) ->
  (forall q, (q < n)%nat -> exists r, 0 < r /\ a q = Cmult (Cmult (RtoC r) (cis phi)) (u q)) ->
  exists c, forall q, (q < n)%nat -> unwrap (fun q => angle (a q)) q = unwrap (fun q => angle (u q)) q + c.
Proof.
  intros Hn Hu Ho Ha. exists (angle (a 0%nat) - angle (u 0%nat)). intros q. induction q as [|q IH]; intros Hq.
  - rewrite !unwrap_0. ring.
  - destruct (phase_step (u q) (u (S q))) as (s & Hs & Hc); [apply Hu; lia|apply Hu; lia|apply Ho; lia|].
    assert (R : forall p, (p < n)%nat -> cis (angle (a p)) = Cmult (cis phi) (cis (angle (u p)))).
    { intros p Hp. destruct (Ha p Hp) as (r & Hr & ->).
      assert (N1 : Cmult (RtoC r) (cis phi) <> RtoC 0).
      { intros H. apply Cmult_integral in H. destruct H as [H|H]; [revert H; apply RtoC_neq0; lra|eapply cis_neq0, H]. }
      rewrite cis_angle_mult; [|exact N1|apply Hu, Hp]. rewrite cis_plus, cis_angle by exact Hr. reflexivity. }
    rewrite (unwrap_step (fun q => angle (u q)) q s Hs Hc).
    rewrite (unwrap_step (fun q => angle (a q)) q s Hs).
    + rewrite IH by lia. ring.
    + rewrite cis_plus, !R, Hc by lia. rewrite cis_plus. ring.
Qed.

(** ** C36 *)
Lemma average_bounds n0 n1 n2 v w c lo hi : average3 n0 n1 n2 v w = Ok c -> (forall i j k, 0 <= w i j k) ->
  (forall i j k, (i < n0)%nat -> (j < n1)%nat -> (k < n2)%nat -> lo <= v i j k <= hi) -> lo <= c <= hi.
Proof.
  unfold average3. destruct (Reqb _ 0) eqn:E; [discriminate|]. apply Reqb_false in E. intros H Hw Hv. injection H as <-.
  assert (P : 0 < rsum3 n0 n1 n2 w) by (pose proof (rsum3_nonneg n0 n1 n2 w ltac:(intros; apply Hw)); lra).
  assert (A : rsum3 n0 n1 n2 (fun i j k => lo * w i j k) <= rsum3 n0 n1 n2 (fun i j k => v i j k * w i j k)).
  { apply rsum3_le. intros i j k Hi Hj Hk. apply Rmult_le_compat_r; [apply Hw|apply Hv; assumption]. }
  assert (B : rsum3 n0 n1 n2 (fun i j k => v i j k * w i j k) <= rsum3 n0 n1 n2 (fun i j k => hi * w i j k)).
  { apply rsum3_le. intros i j k Hi Hj Hk. apply Rmult_le_compat_r; [apply Hw|apply Hv; assumption]. }
  rewrite rsum3_scal in A, B.
  split; apply (Rmult_le_reg_r (rsum3 n0 n1 n2 w)); try exact P; unfold Rdiv; rewrite Rmult_assoc, Rinv_l by lra; lra.
Qed.
Lemma c36 g g' f w0 W : tread g = Ok f -> g_isenv g = true -> same_meta g g' -> (3 <= dim2 f)%nat -> some_nonzero f ->
  (forall q, (S q < dim2 f)%nat -> vget (time_axis g) q < vget (time_axis g) (S q)) ->
  phase_ok f -> 0 < W ->
  (forall i j k, inb f i j k -> W <= local_omega g f w0 i j k <= 5 * W) ->
  exists a, snd (field_to_vector_potential g w0) = Ok a /\ shp a = shp f /\
    (forall a', arr_eq a a' -> tread g' = Ok a' ->
     exists f', snd (vector_potential_to_field g' w0 false) = Ok f' /\ arr_eq f' (mkArr (shp f) Complex128 (at3 f))).
Proof.
  intros Hf He Hm Hn (i0 & j0 & k0 & H0 & Hz0) Ht Hph HW Hom.
  assert (Hm' := Hm). destruct Hm' as (_&_&_&E4&_&_&_&_&E9&_).
  assert (Hpos : 0 < rsum3 (dim0 f) (dim1 f) (dim2 f) (fun i j k => Cmod (at3 f i j k))).
  { unfold inb in H0. apply (rsum3_pos _ _ _ _ i0 j0 k0); try tauto; [intros; apply Cmod_ge_0|]. apply Cmod_neq0, Hz0. }
  set (om := local_omega g f w0) in *.
  assert (X : exists c, average3 (dim0 f) (dim1 f) (dim2 f) om (fun i j k => Cmod (at3 f i j k)) = Ok c).
  { unfold average3. destruct (Reqb _ 0) eqn:E; [apply Reqb_true in E; lra|]. eexists; reflexivity. }
  destruct X as (c & Hc).
  assert (Hcb : W <= c <= 5 * W).
  { apply (average_bounds _ _ _ _ _ _ _ _ Hc); [intros; apply Cmod_ge_0|]. intros i j k Hi Hj Hk. apply Hom. unfold inb. tauto. }
  set (oma := real_arr (shp f) (fun i j k => clip_freq lb_default ub_default c (om i j k))).
  assert (Hfr : forall d, snd (get_frequency g d false (Some w0) lb_default ub_default) = Ok (oma, c)).
  { intros d. rewrite (frequency_env_eq g f d false (Some w0) _ _ Hf He). unfold frequency_env.
    destruct (Nat.ltb_spec (dim2 f) 3); [lia|]. fold om. rewrite Hc. reflexivity. }
  assert (Hoa : forall i j k, inb f i j k -> at3 oma i j k = RtoC (om i j k)).
  { intros i j k H. unfold oma, real_arr; cbn [at3]. f_equal. apply clip_id. specialize (Hom i j k H). unfold lb_default, ub_default. lra. }
  exists (vecpot_of f oma). split.
  { unfold field_to_vector_potential. rewrite He. cbn [negb]. rewrite (Hfr OtherDim).
    apply (with_field_snd (fst (get_frequency g OtherDim false (Some w0) lb_default ub_default)) (fun _ f => Ok (vecpot_of f oma)) f).
    unfold get_frequency, with_field. cbn [fst]. rewrite tread_get_t. exact Hf. }
  split; [reflexivity|]. intros a' (S1 & S2 & S3) Ha'.
  assert (D : shp a' = shp f) by (rewrite <- S1; reflexivity).
  assert (D0 : dim0 a' = dim0 f) by (unfold dim0; rewrite D; reflexivity).
  assert (D1 : dim1 a' = dim1 f) by (unfold dim1; rewrite D; reflexivity).
  assert (D2 : dim2 a' = dim2 f) by (unfold dim2; rewrite D; reflexivity).
  pose proof e_charge_pos as Pe. pose proof m_e_pos as Pm. pose proof c_light_pos as Pc.
  assert (Hrel : forall i j k, inb f i j k -> exists r, 0 < r /\ r = e_charge / (m_e * om i j k * c_light) /\
            at3 a' i j k = Cmult (Cmult (RtoC r) (cis (- (PI / 2)))) (at3 f i j k)).
  { intros i j k H. pose proof (Hom i j k H) as Hb. exists (e_charge / (m_e * om i j k * c_light)).
    assert (Q : 0 < m_e * om i j k * c_light) by (apply Rmult_lt_0_compat; [apply Rmult_lt_0_compat|]; lra).
    split; [apply Rdiv_lt_0_compat; lra|]. split; [reflexivity|].
    rewrite <- S3 by (unfold inb in *; exact H). unfold vecpot_of; cbn [at3]. rewrite (Hoa i j k H).
    rewrite <- !RtoC_mult, RtoC_div by lra.
    assert (Ec : cis (- (PI / 2)) = Copp Ci) by (unfold cis, Copp, Ci; cbn [fst snd]; rewrite cos_neg, sin_neg, cos_PI2, sin_PI2; f_equal; ring).
    rewrite Ec. field. apply RtoC_neq0. lra. }
  assert (Hlo : forall i j k, inb f i j k -> local_omega g' a' w0 i j k = om i j k).
  { intros i j k H. rewrite (local_omega_meta g g') by exact E4. assert (H' := H). unfold inb in H'. destruct H' as (Hi & Hj & Hk).
    destruct (Hph i j Hi Hj) as [Hz|Hnz].
    - unfold om. rewrite (local_omega_const g f w0 i j k (RtoC 0)) by assumption.
      apply (local_omega_const g a' w0 i j k (RtoC 0)); rewrite ?D2; try assumption. intros q Hq.
      destruct (Hrel i j q ltac:(unfold inb; tauto)) as (r & _ & _ & ->). rewrite Hz by exact Hq. ring.
    - unfold om, local_omega. rewrite D2. f_equal.
      destruct (unwrap_rotated (dim2 f) (fun q => at3 f i j q) (fun q => at3 a' i j q) (- (PI / 2)) ltac:(lia)) as (cc & Hcc).
      + intros q Hq. apply (Hnz q Hq).
      + intros q Hq. apply (Hnz q); lia.
      + intros q Hq. destruct (Hrel i j q ltac:(unfold inb; tauto)) as (r & Hr & _ & E). exists r. split; assumption.
      + apply (gradient_shift (dim2 f) _ _ _ (- cc) k Hn Hk Ht). intros q Hq. rewrite (Hcc q Hq). ring. }
  assert (Y : exists c', average3 (dim0 a') (dim1 a') (dim2 a') (local_omega g' a' w0) (fun i j k => Cmod (at3 a' i j k)) = Ok c').
  { unfold average3. destruct (Reqb _ 0) eqn:E; [|eexists; reflexivity]. exfalso. apply Reqb_true in E.
    assert (0 < rsum3 (dim0 a') (dim1 a') (dim2 a') (fun i j k => Cmod (at3 a' i j k))); [|lra].
    rewrite D0, D1, D2. unfold inb in H0. apply (rsum3_pos _ _ _ _ i0 j0 k0); try tauto; [intros; apply Cmod_ge_0|].
    destruct (Hrel i0 j0 k0 H0) as (r & Hr & _ & ->). rewrite !Cmod_mult, Cmod_cis, Cmod_R, Rabs_pos_eq by lra.
    pose proof (Cmod_neq0 _ Hz0). apply Rmult_lt_0_compat; lra. }
  destruct Y as (c' & Hc').
  assert (Hcb' : W <= c' <= 5 * W).
  { apply (average_bounds _ _ _ _ _ _ _ _ Hc'); [intros; apply Cmod_ge_0|]. rewrite D0, D1, D2. intros i j k Hi Hj Hk.
    rewrite Hlo by (unfold inb; tauto). apply Hom. unfold inb. tauto. }
  unfold vector_potential_to_field. rewrite E9, He. cbn [negb]. change (snd (get_temporal_field g')) with (tread g'). rewrite Ha'.
  assert (Hfr' : snd (get_frequency (fst (get_temporal_field g')) OtherDim false (Some w0) lb_default ub_default)
     = Ok (real_arr (shp a') (fun i j k => clip_freq lb_default ub_default c' (local_omega g' a' w0 i j k)), c')).
  { destruct (get_t_meta g') as (_&_&_&F4&_&_&_&_&F9&_).
    rewrite (frequency_env_eq _ a' OtherDim false (Some w0)); [|rewrite tread_get_t; exact Ha'|rewrite F9, E9; exact He].
    unfold frequency_env. destruct (Nat.ltb_spec (dim2 a') 3); [lia|].
    assert (EE : local_omega (fst (get_temporal_field g')) a' w0 = local_omega g' a' w0).
    { unfold local_omega, time_axis. rewrite F4. reflexivity. }
    rewrite EE, Hc'. reflexivity. }
  rewrite Hfr'. eexists. split; [reflexivity|]. split; [exact D|]. split; [reflexivity|].
  intros i j k H. cbn [at3 real_arr]. unfold dim0, dim1, dim2 in H; cbn [shp] in H. rewrite D in H.
  assert (HI : inb f i j k) by exact H.
  rewrite Hlo by exact HI. rewrite clip_id by (specialize (Hom i j k HI); unfold lb_default, ub_default; lra).
  destruct (Hrel i j k HI) as (r & Hr & Er & ->). subst r. pose proof (Hom i j k HI) as Hb.
  assert (Q : 0 < m_e * om i j k * c_light) by (apply Rmult_lt_0_compat; [apply Rmult_lt_0_compat|]; lra).
  assert (Ec : cis (- (PI / 2)) = Copp Ci) by (unfold cis, Copp, Ci; cbn [fst snd]; rewrite cos_neg, sin_neg, cos_PI2, sin_PI2; f_equal; ring).
  rewrite Ec. rewrite RtoC_div by lra. rewrite !RtoC_mult.
  assert (Eci : Cmult Ci (Copp Ci) = RtoC 1) by (unfold Cmult, Copp, Ci, RtoC; cbn [fst snd]; f_equal; ring).
  transitivity (Cmult (Cmult Ci (Copp Ci)) (at3 f i j k)).
  - field. repeat split; apply RtoC_neq0; lra.
  - rewrite Eci. ring.
Qed.
Lemma classic_nonzero f : some_nonzero f \/ forall i j k, inb f i j k -> at3 f i j k = RtoC 0.
Proof.
  destruct (Classical_Prop.classic (some_nonzero f)) as [H|H]; [left; exact H|right]. intros i j k Hi.
  destruct (Ceq_dec (at3 f i j k) (RtoC 0)) as [E|E]; [exact E|]. exfalso. apply H. exists i, j, k. auto.
Qed.
(** The same with the hypothesis stated on what get_frequency returns: strictly inside the default
    bounds (so nothing was clipped) and within a factor 5 of each other. *)
Lemma c36_api g g' f w0 W om c : tread g = Ok f -> g_isenv g = true -> same_meta g g' ->
  (forall q, (S q < dim2 f)%nat -> vget (time_axis g) q < vget (time_axis g) (S q)) ->
  phase_ok f -> 0 < W ->
  snd (get_frequency g OtherDim false (Some w0) (/ 5) 5) = Ok (om, c) ->
  (forall i j k, inb f i j k -> exists w, at3 om i j k = RtoC w /\ / 5 * c < w < 5 * c /\ W <= w <= 5 * W) ->
  exists a, snd (field_to_vector_potential g w0) = Ok a /\ shp a = shp f /\
    (forall a', arr_eq a a' -> tread g' = Ok a' ->
     exists f', snd (vector_potential_to_field g' w0 false) = Ok f' /\ arr_eq f' (mkArr (shp f) Complex128 (at3 f))).
Proof.
  intros Hf He Hm Ht Hph HW Hfr Hin. rewrite (frequency_env_eq g f _ _ _ _ _ Hf He) in Hfr. unfold frequency_env in Hfr.
  destruct (Nat.ltb_spec (dim2 f) 3) as [|Hn]; [discriminate|].
  destruct (average3 _ _ _ _ _) as [c'|] eqn:Ha; cbn [bind] in Hfr; [|discriminate]. injection Hfr as <- <-.
  apply (c36 g g' f w0 W); try assumption.
  - unfold average3 in Ha. destruct (Reqb _ 0) eqn:E; [discriminate|]. apply Reqb_false in E.
    destruct (classic_nonzero f) as [H|H]; [exact H|].
    exfalso. apply E. rewrite (rsum3_ext _ _ _ _ (fun _ _ _ => 0 * 0)); [rewrite rsum3_scal; ring|].
    intros i j k Hi Hj Hk. rewrite H by (unfold inb; tauto). rewrite Cmod_0. ring.
  - intros i j k H. destruct (Hin i j k H) as (w & Hw & Hc & HWb). unfold real_arr in Hw; cbn [at3] in Hw.
    apply RtoC_inj in Hw. unfold clip_freq in Hw. revert Hw. unfold Rmin, Rmax. repeat destruct (Rle_dec _ _); intros; lra.
Qed.

(** ** C37: a real field *)
Lemma angle_real z : Im z = 0 -> angle z = 0 \/ angle z = PI.
Proof.
  intros H. destruct z as (x, y). simpl in H. subst y. destruct (Rle_dec 0 x) as [L|L].
  - left. destruct (Req_EM_T x 0) as [->|N].
    + unfold angle. destruct (Reqb _ 0) eqn:E; [reflexivity|]. apply Reqb_false in E. exfalso. apply E. apply Cmod_0.
    + replace ((x, 0) : C) with (Cmult (RtoC x) (cis 0)) by (rewrite cis_0; unfold Cmult, RtoC; cbn [fst snd]; f_equal; ring).
      apply angle_unique; [lra|]. pose proof PI_RGT_0. lra.
  - right. replace ((x, 0) : C) with (Cmult (RtoC (- x)) (cis PI)) by (rewrite cis_PI; unfold Cmult, RtoC; cbn [fst snd]; f_equal; ring).
    apply angle_unique; [lra|]. pose proof PI_RGT_0. lra.
Qed.
Lemma unwrap_real (u : nat -> C) n : (forall q, (q < n)%nat -> Im (u q) = 0) -> forall k, (k < n)%nat ->
  unwrap (fun q => angle (u q)) k = angle (u k).
Proof.
  intros H k Hk. unfold unwrap. rewrite (rsum_ext k _ (fun _ => 0)); [rewrite rsum_0; ring|].
  intros q Hq. pose proof PI_RGT_0 as HP.
  assert (D : forall x, x = 0 \/ x = PI \/ x = - PI -> unwrap_correct x = 0).
  { intros x [->|[->| ->]]; unfold unwrap_correct.
    - rewrite Rabs_R0. destruct (Rltb 0 PI) eqn:E; [reflexivity|]. apply Rltb_false in E. lra.
    - destruct (Rltb (Rabs PI) PI) eqn:E; [reflexivity|].
      replace (PI + PI) with (0 + 2 * PI * IZR 1) by (simpl; ring). rewrite np_mod_plus, np_mod_id by lra.
      replace (0 - PI) with (- PI) by ring. rewrite (proj2 (Reqb_true (- PI) (- PI)) eq_refl), (proj2 (Rltb_true 0 PI) HP). cbn [andb]. ring.
    - destruct (Rltb (Rabs (- PI)) PI) eqn:E; [reflexivity|]. replace (- PI + PI) with 0 by ring. rewrite np_mod_id by lra.
      replace (0 - PI) with (- PI) by ring. rewrite (proj2 (Rltb_false 0 (- PI))) by lra. rewrite Bool.andb_false_r. ring. }
  apply D. destruct (angle_real (u q) (H q ltac:(lia))) as [-> | ->]; destruct (angle_real (u (S q)) (H (S q) ltac:(lia))) as [-> | ->]; lra.
Qed.
Lemma gradient_ext n f g x k : (3 <= n)%nat -> (k < n)%nat -> (forall q, (q < n)%nat -> f q = g q) ->
  gradient2 lin3R n f x k = gradient2 lin3R n g x k.
Proof.
  intros Hn Hk H. unfold gradient2. destruct (Nat.eqb_spec k 0); [rewrite !H by lia; reflexivity|].
  destruct (Nat.eqb_spec k (n - 1)); rewrite !H by lia; reflexivity.
Qed.
(** The gradient of even samples on a uniform axis is odd. *)
Lemma gradient_even n f x dt k : (3 <= n)%nat -> (k < n)%nat -> dt <> 0 ->
  (forall q, (S q < n)%nat -> x (S q) - x q = dt) -> (forall q, (q < n)%nat -> f (n - 1 - q)%nat = f q) ->
  gradient2 lin3R n f x (n - 1 - k) = - gradient2 lin3R n f x k.
Proof.
  intros Hn Hk Hd Hx Hf. unfold gradient2, lin3R.
  destruct (Nat.eqb_spec k 0) as [->|K0].
  - destruct (Nat.eqb_spec (n - 1 - 0) 0); [lia|]. destruct (Nat.eqb_spec (n - 1 - 0) (n - 1)); [|lia].
    replace (x (n - 2)%nat - x (n - 3)%nat) with dt by (rewrite <- (Hx (n - 3)%nat) by lia; f_equal; f_equal; lia).
    replace (x (n - 1)%nat - x (n - 2)%nat) with dt by (rewrite <- (Hx (n - 2)%nat) by lia; f_equal; f_equal; lia).
    rewrite (Hx 0%nat), (Hx 1%nat) by lia.
    rewrite <- (Hf 0%nat), <- (Hf 1%nat), <- (Hf 2%nat) by lia.
    replace (n - 1 - 0)%nat with (n - 1)%nat by lia. replace (n - 1 - 1)%nat with (n - 2)%nat by lia. replace (n - 1 - 2)%nat with (n - 3)%nat by lia.
    field. lra.
  - destruct (Nat.eqb_spec k (n - 1)) as [K1|K1].
    + destruct (Nat.eqb_spec (n - 1 - k) 0); [|lia].
      replace (x (n - 2)%nat - x (n - 3)%nat) with dt by (rewrite <- (Hx (n - 3)%nat) by lia; f_equal; f_equal; lia).
      replace (x (n - 1)%nat - x (n - 2)%nat) with dt by (rewrite <- (Hx (n - 2)%nat) by lia; f_equal; f_equal; lia).
      rewrite (Hx 0%nat), (Hx 1%nat) by lia.
      rewrite <- (Hf 0%nat), <- (Hf 1%nat), <- (Hf 2%nat) by lia.
      replace (n - 1 - 0)%nat with (n - 1)%nat by lia. replace (n - 1 - 1)%nat with (n - 2)%nat by lia. replace (n - 1 - 2)%nat with (n - 3)%nat by lia.
      field. lra.
    + destruct (Nat.eqb_spec (n - 1 - k) 0); [lia|]. destruct (Nat.eqb_spec (n - 1 - k) (n - 1)); [lia|].
      replace (x (n - 1 - k)%nat - x (n - 1 - k - 1)%nat) with dt by (rewrite <- (Hx (n - 1 - k - 1)%nat) by lia; f_equal; f_equal; lia).
      rewrite (Hx (n - 1 - k)%nat) by lia.
      replace (x k - x (k - 1)%nat) with dt by (rewrite <- (Hx (k - 1)%nat) by lia; f_equal; f_equal; lia).
      rewrite (Hx k) by lia.
      rewrite <- (Hf (k - 1)%nat), <- (Hf k), <- (Hf (S k)) by lia.
      replace (n - 1 - (k - 1))%nat with (S (n - 1 - k)) by lia. replace (n - 1 - S k)%nat with (n - 1 - k - 1)%nat by lia.
      field. lra.
Qed.
Lemma rsum3_rev n0 n1 n2 f : rsum3 n0 n1 n2 (fun i j k => f i j (n2 - 1 - k)%nat) = rsum3 n0 n1 n2 f.
Proof. unfold rsum3. apply rsum_ext. intros i _. apply rsum_ext. intros j _. apply rsum_rev. Qed.

Lemma real_even_zero g f dt w : (3 <= dim2 f)%nat -> dt <> 0 ->
  (forall q, (S q < dim2 f)%nat -> vget (time_axis g) (S q) - vget (time_axis g) q = dt) ->
  (forall i j k, inb f i j k -> Im (at3 f i j k) = 0) ->
  (forall i j k, inb f i j k -> at3 f i j (dim2 f - 1 - k) = at3 f i j k) ->
  (forall i j k, inb f i j k -> w i j (dim2 f - 1 - k)%nat = w i j k) ->
  rsum3 (dim0 f) (dim1 f) (dim2 f) (fun i j k => local_omega g f 0 i j k * w i j k) = 0.
Proof.
  intros Hn Hd Ht Hr He Hw. set (F := fun i j k => local_omega g f 0 i j k * w i j k).
  assert (HF : rsum3 (dim0 f) (dim1 f) (dim2 f) F = - rsum3 (dim0 f) (dim1 f) (dim2 f) F).
  { rewrite <- (rsum3_rev _ _ _ F) at 1. rewrite <- (Rmult_1_l (rsum3 _ _ _ F)), Ropp_mult_distr_l, <- rsum3_scal.
    apply rsum3_ext. intros i j k Hi Hj Hk. unfold F. rewrite Hw by (unfold inb; tauto).
    assert (E : local_omega g f 0 i j (dim2 f - 1 - k) = - local_omega g f 0 i j k).
    { unfold local_omega. rewrite !Rplus_0_l.
      assert (X : forall p, (p < dim2 f)%nat ->
        gradient2 lin3R (dim2 f) (fun q => - unwrap (fun q => angle (at3 f i j q)) q) (fun q => vget (time_axis g) q) p =
        gradient2 lin3R (dim2 f) (fun q => - angle (at3 f i j q)) (fun q => vget (time_axis g) q) p).
      { intros p Hp. apply gradient_ext; [exact Hn|exact Hp|]. intros q Hq. f_equal.
        apply (unwrap_real (fun q => at3 f i j q) (dim2 f)); [intros p' Hp'; apply Hr; unfold inb; tauto|exact Hq]. }
      rewrite !X by lia.
      apply (gradient_even (dim2 f) _ _ dt); try assumption.
      intros q Hq. rewrite He by (unfold inb; tauto). reflexivity. }
    rewrite E. ring. }
  lra.
Qed.
Lemma frequency_field_eq g f d hb w0 lb ub : tread g = Ok f -> g_isenv g = false ->
  snd (get_frequency g d hb w0 lb ub) = frequency_field d g f hb lb ub.
Proof.
  intros H He. unfold get_frequency. rewrite (with_field_snd _ _ f H).
  destruct (get_t_meta g) as (_&_&_&E4&_&_&_&_&E9&_). rewrite E9, He.
  unfold frequency_field. destruct d; try reflexivity; destruct (negb hb); try reflexivity; destruct (Nat.ltb (dim2 f) 3); try reflexivity;
    unfold local_omega, time_axis; rewrite E4; reflexivity.
Qed.
Lemma c37_zero hilb d g f dt : tread g = Ok f -> g_isenv g = false -> (3 <= dim2 f)%nat -> dt <> 0 ->
  (forall q, (S q < dim2 f)%nat -> vget (time_axis g) (S q) - vget (time_axis g) q = dt) ->
  (forall i j k, inb f i j k -> Im (at3 f i j k) = 0) ->
  (forall i j k, inb f i j k -> at3 f i j (dim2 f - 1 - k) = at3 f i j k) ->
  forall w, snd (field_to_envelope hilb d g) = Ok w -> w = 0.
Proof.
  intros Hf He Hn Hd Ht Hr Hev w H. unfold field_to_envelope in H. rewrite He in H.
  change (snd (get_temporal_field g)) with (tread g) in H. rewrite Hf in H.
  destruct (get_t_meta g) as (_&_&_&E4&_&_&_&_&E9&_).
  rewrite (frequency_field_eq (fst (get_temporal_field g)) f) in H; [|rewrite tread_get_t; exact Hf|rewrite E9; exact He].
  set (g1 := fst (get_temporal_field g)) in *.
  assert (T : time_axis g1 = time_axis g) by (unfold time_axis; rewrite E4; reflexivity).
  assert (Z : forall x, frequency_field d g1 f true lb_default ub_default = Ok x -> snd x = 0).
  { intros (om, c) Hx. unfold frequency_field in Hx. destruct d; try discriminate; cbn [negb] in Hx;
    (destruct (Nat.ltb_spec (dim2 f) 3); [lia|]); unfold average3 in Hx; destruct (Reqb _ 0); cbn [bind] in Hx; try discriminate;
    injection Hx as _ <-; cbn [snd];
    rewrite (real_even_zero g1 f dt); try assumption; try (rewrite T; assumption); try (unfold Rdiv; ring);
    intros i j k Hi; rewrite Hev by assumption; reflexivity. }
  destruct (frequency_field d g1 f true lb_default ub_default) as [(om, c)|e] eqn:Hx; [|discriminate].
  specialize (Z _ eq_refl). cbn [snd] in Z. subst c.
  cbn zeta in H. destruct (snd (set_temporal_field _ _)); [|discriminate]. cbn [snd] in H. injection H as <-. reflexivity.
Qed.
