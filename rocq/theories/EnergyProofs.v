(** Proofs about energies and normalization. *)
From Verif Require Import PyBase CSum NpFFT FFTProofs NumPy GridModel GridSpec GridProofs LaserSpec GridObs EnergyModel.
Open Scope R_scope.

(** ** Triple sums *)
Lemma rsum3_ext n0 n1 n2 f g :
  (forall i j k, (i < n0)%nat -> (j < n1)%nat -> (k < n2)%nat -> f i j k = g i j k) ->
  rsum3 n0 n1 n2 f = rsum3 n0 n1 n2 g.
Proof.
  intros H. unfold rsum3. apply rsum_ext; intros i Hi. apply rsum_ext; intros j Hj.
  apply rsum_ext; intros k Hk. auto.
Qed.
Lemma rsum3_scal n0 n1 n2 s f : rsum3 n0 n1 n2 (fun i j k => s * f i j k) = s * rsum3 n0 n1 n2 f.
Proof.
  unfold rsum3. rewrite <- rsum_scal_l. apply rsum_ext; intros i _.
  rewrite <- rsum_scal_l. apply rsum_ext; intros j _. rewrite <- rsum_scal_l. reflexivity.
Qed.
Lemma rsum3_nonneg n0 n1 n2 f :
  (forall i j k, (i < n0)%nat -> (j < n1)%nat -> (k < n2)%nat -> 0 <= f i j k) ->
  0 <= rsum3 n0 n1 n2 f.
Proof.
  intros H. unfold rsum3. repeat (apply rsum_nonneg; intros). auto.
Qed.
Lemma rsum3_le n0 n1 n2 f g :
  (forall i j k, (i < n0)%nat -> (j < n1)%nat -> (k < n2)%nat -> f i j k <= g i j k) ->
  rsum3 n0 n1 n2 f <= rsum3 n0 n1 n2 g.
Proof. intros H. unfold rsum3. repeat (apply rsum_le; intros). auto. Qed.
Lemma rsum3_zero n0 n1 n2 f :
  (forall i j k, (i < n0)%nat -> (j < n1)%nat -> (k < n2)%nat -> 0 <= f i j k) ->
  rsum3 n0 n1 n2 f = 0 ->
  forall i j k, (i < n0)%nat -> (j < n1)%nat -> (k < n2)%nat -> f i j k = 0.
Proof.
  intros H H0 i j k Hi Hj Hk.
  assert (A : rsum n1 (fun j => rsum n2 (fun k => f i j k)) = 0).
  { refine (rsum_nonneg_zero n0 (fun i => rsum n1 (fun j => rsum n2 (fun k => f i j k))) _ H0 i Hi).
    intros; repeat (apply rsum_nonneg; intros). auto. }
  assert (B : rsum n2 (fun k => f i j k) = 0).
  { refine (rsum_nonneg_zero n1 (fun j => rsum n2 (fun k => f i j k)) _ A j Hj).
    intros; repeat (apply rsum_nonneg; intros). auto. }
  refine (rsum_nonneg_zero n2 (fun k => f i j k) _ B k Hk). intros; auto.
Qed.

Lemma Cmod_sq z : Cmod z ^ 2 = Cnorm2 z.
Proof. rewrite Cnorm2_Cmod; ring. Qed.

Definition env_factor (g : grid) : R := if g_isenv g then / 2 else 1.
Lemma env_factor_pos g : 0 < env_factor g.
Proof. unfold env_factor; destruct (g_isenv g); lra. Qed.

Lemma energy_of_eq d g a :
  energy_of d g a = env_factor g * eps0 *
    rsum3 (dim0 a) (dim1 a) (dim2 a) (fun i j k => cell_volume d g j * Cnorm2 (at3 a i j k)).
Proof.
  unfold energy_of, env_factor.
  rewrite (rsum3_ext _ _ _ _ (fun i j k => eps0 * (cell_volume d g j * Cnorm2 (at3 a i j k))))
    by (intros; rewrite Cmod_sq; ring).
  rewrite rsum3_scal. destruct (g_isenv g); ring.
Qed.

Lemma energy_of_meta d g g' a : same_meta g g' -> energy_of d g' a = energy_of d g a.
Proof.
  intros (H1 & H2 & H3 & H4 & H5 & H6 & H7 & H8 & H9 & H10). rewrite !energy_of_eq.
  assert (Hc : forall j, cell_volume d g' j = cell_volume d g j)
    by (intros j; destruct d; unfold cell_volume, cell_volume_xyt, cell_volume_rt; rewrite ?H4, ?H5; reflexivity).
  unfold env_factor; rewrite H9. f_equal. apply rsum3_ext; intros; rewrite Hc; reflexivity.
Qed.

Lemma energy_of_arr_eq d g a b : arr_eq a b -> energy_of d g a = energy_of d g b.
Proof.
  intros (HS & HD & HE). rewrite !energy_of_eq. unfold dim0, dim1, dim2. rewrite <- HS. f_equal.
  apply rsum3_ext; intros. rewrite HE; [reflexivity|]. unfold inb; auto.
Qed.

Lemma energy_scaled d g s a b : is_scaled s a b -> energy_of d g b = Cmod s ^ 2 * energy_of d g a.
Proof.
  intros (HS & HD & HE). rewrite !energy_of_eq. unfold dim0, dim1, dim2. rewrite HS.
  rewrite (rsum3_ext _ _ _ _ (fun i j k => Cmod s ^ 2 * (cell_volume d g j * Cnorm2 (at3 a i j k)))).
  - rewrite rsum3_scal; ring.
  - intros i j k Hi Hj Hk. rewrite HE by (unfold inb; auto). rewrite Cnorm2_mult, Cmod_sq. ring.
Qed.

Definition vol_nonneg (d : pydim) (g : grid) (n : nat) : Prop :=
  forall j, (j < n)%nat -> 0 <= cell_volume d g j.

Lemma energy_nonneg d g a : vol_nonneg d g (dim1 a) -> 0 <= energy_of d g a.
Proof.
  intros Hv. rewrite energy_of_eq. apply Rmult_le_pos.
  - apply Rmult_le_pos; apply Rlt_le; [apply env_factor_pos|apply eps0_pos].
  - apply rsum3_nonneg; intros. apply Rmult_le_pos; [auto|apply Cnorm2_nonneg].
Qed.

Lemma energy_zero_iff d g a : (forall j, (j < dim1 a)%nat -> 0 < cell_volume d g j) ->
  (energy_of d g a = 0 <-> forall i j k, inb a i j k -> at3 a i j k = RtoC 0).
Proof.
  intros Hv. rewrite energy_of_eq.
  pose proof (env_factor_pos g) as He. pose proof eps0_pos as H0.
  split.
  - intros H i j k (Hi & Hj & Hk).
    assert (Hz : rsum3 (dim0 a) (dim1 a) (dim2 a)
                  (fun i j k => cell_volume d g j * Cnorm2 (at3 a i j k)) = 0).
    { apply Rmult_integral in H. destruct H as [H|H]; [|exact H].
      apply Rmult_integral in H. destruct H; lra. }
    assert (Hk0 : cell_volume d g j * Cnorm2 (at3 a i j k) = 0).
    { refine (rsum3_zero _ _ _ (fun i j k => cell_volume d g j * Cnorm2 (at3 a i j k)) _ Hz i j k Hi Hj Hk).
      intros. apply Rmult_le_pos; [apply Rlt_le, Hv; assumption|apply Cnorm2_nonneg]. }
    apply Rmult_integral in Hk0. destruct Hk0 as [Hk0|Hk0].
    + specialize (Hv j Hj). lra.
    + apply Cnorm2_eq_0, Hk0.
  - intros H. rewrite (rsum3_ext _ _ _ _ (fun _ _ _ => 0 * 0)).
    + rewrite rsum3_scal. ring.
    + intros. rewrite H by (unfold inb; auto). rewrite Cnorm2_0. ring.
Qed.

(** ** Cell volumes (C14) *)
Lemma cell_volume_rt_eq g j :
  cell_volume_rt g j = 2 * PI * vget (nth 0 (g_axes g) []) j * vget (g_dx g) 0 * (lastR (g_dx g) * c_light).
Proof. unfold cell_volume_rt. field. Qed.

Lemma cell_volumes_tile g n :
  (forall j, (S j < n)%nat -> vget (nth 0 (g_axes g) []) (S j) - vget (nth 0 (g_axes g) []) j = vget (g_dx g) 0) ->
  (1 <= n)%nat ->
  rsum n (cell_volume_rt g) =
  PI * ((vget (nth 0 (g_axes g) []) (n - 1) + / 2 * vget (g_dx g) 0) ^ 2
        - (vget (nth 0 (g_axes g) []) 0 - / 2 * vget (g_dx g) 0) ^ 2) * (lastR (g_dx g) * c_light).
Proof.
  intros H Hn. destruct n as [|n]; [lia|]. replace (S n - 1)%nat with n by lia.
  set (r := fun j => vget (nth 0 (g_axes g) []) j) in *. set (dr := vget (g_dx g) 0) in *.
  induction n as [|n IH].
  - simpl. unfold cell_volume_rt. fold dr. fold (r 0%nat). ring.
  - change (rsum (S (S n)) (cell_volume_rt g)) with (rsum (S n) (cell_volume_rt g) + cell_volume_rt g (S n)).
    rewrite IH by (try lia; intros; apply H; lia).
    assert (Hr : r (S n) - r n = dr) by (apply H; lia).
    unfold cell_volume_rt. fold dr. fold (r (S n)). fold (r n). fold (r 0%nat).
    replace (r n) with (r (S n) - dr) by lra. field.
Qed.

(** ** rmaxl *)
Lemma rmaxl_ge l x : In x l -> x <= rmaxl l.
Proof.
  induction l as [|a l IH]; [intros []|]. intros [->|H].
  - destruct l; simpl; [lra|apply Rmax_l].
  - destruct l as [|b l]; [destruct H|]. eapply Rle_trans; [apply IH, H|]. apply Rmax_r.
Qed.
Lemma rmaxl_in l : l <> [] -> In (rmaxl l) l.
Proof.
  induction l as [|a l IH]; [congruence|]. intros _. destruct l as [|b l]; [left; reflexivity|].
  change (rmaxl (a :: b :: l)) with (Rmax a (rmaxl (b :: l))).
  unfold Rmax. destruct (Rle_dec a (rmaxl (b :: l))); [right; apply IH; discriminate|left; reflexivity].
Qed.
Lemma in_flat3 {A} n0 n1 n2 (f : nat -> nat -> nat -> A) x :
  In x (flat3 n0 n1 n2 f) <-> exists i j k, (i < n0)%nat /\ (j < n1)%nat /\ (k < n2)%nat /\ x = f i j k.
Proof.
  unfold flat3. rewrite in_flat_map. split.
  - intros (i & Hi & H). apply in_flat_map in H. destruct H as (j & Hj & H).
    apply in_map_iff in H. destruct H as (k & <- & Hk). apply in_seq in Hi, Hj, Hk.
    exists i, j, k. repeat split; lia.
  - intros (i & j & k & Hi & Hj & Hk & ->). exists i. split; [apply in_seq; lia|].
    apply in_flat_map. exists j. split; [apply in_seq; lia|].
    apply in_map_iff. exists k. split; [reflexivity|apply in_seq; lia].
Qed.

(** [m] is the maximum of the values f i j k over the array's range. *)

Lemma flat3_is_max a f : (0 < dim0 a)%nat -> (0 < dim1 a)%nat -> (0 < dim2 a)%nat ->
  is_max3 a f (rmaxl (flat3 (dim0 a) (dim1 a) (dim2 a) f)).
Proof.
  intros H0 H1 H2. split.
  - intros i j k (Hi & Hj & Hk). apply rmaxl_ge. apply in_flat3. exists i, j, k; auto.
  - assert (Hin : In (rmaxl (flat3 (dim0 a) (dim1 a) (dim2 a) f)) (flat3 (dim0 a) (dim1 a) (dim2 a) f)).
    { apply rmaxl_in. intros E.
      assert (HI : In (f 0%nat 0%nat 0%nat) (flat3 (dim0 a) (dim1 a) (dim2 a) f))
        by (apply in_flat3; exists 0%nat, 0%nat, 0%nat; auto).
      rewrite E in HI. destruct HI. }
    apply in_flat3 in Hin. destruct Hin as (i & j & k & Hi & Hj & Hk & E).
    exists i, j, k. split; [unfold inb; auto|auto].
Qed.
Lemma is_max3_unique a f m m' : is_max3 a f m -> is_max3 a f m' -> m = m'.
Proof.
  intros (H1 & i & j & k & Hi & E) (H2 & i' & j' & k' & Hi' & E').
  specialize (H1 _ _ _ Hi'). specialize (H2 _ _ _ Hi). lra.
Qed.

(** ** Normalization *)
Lemma scale_is_scaled s a : is_scaled (RtoC s) a (scale_arr s a).
Proof. repeat split. Qed.

Lemma compute_energy_eq d g a : tread g = Ok a ->
  snd (compute_laser_energy d g) = Ok (energy_of d g a) /\
  fst (compute_laser_energy d g) = fst (get_temporal_field g).
Proof.
  intros H. unfold compute_laser_energy. unfold tread in H. rewrite H. simpl. split; [|reflexivity].
  rewrite (energy_of_meta d g _ a (get_t_meta g)). reflexivity.
Qed.

(** Set back a scaled copy of the field just read. *)
Lemma rescale g a s : Wf g -> tread g = Ok a ->
  let r := set_temporal_field (fst (get_temporal_field g)) (scale_arr s a) in
  snd r = Ok tt /\ Wf (fst r) /\ same_meta g (fst r) /\ tread (fst r) = Ok (scale_arr s a).
Proof.
  intros HW Ha r. destruct (tread_shape g a HW Ha) as (S1 & D1).
  pose proof (get_t_Wf g HW) as HW1. pose proof (get_t_meta g) as HM.
  destruct (set_t_ok (fst (get_temporal_field g)) (scale_arr s a) HW1) as (H1 & H2 & _).
  - simpl. destruct HM as (_ & _ & _ & _ & _ & _ & _ & E & _). rewrite E. exact S1.
  - exact D1.
  - split; [exact H1|]. split; [apply set_t_Wf, HW1|]. split; [|exact H2].
    eapply same_meta_trans; [exact HM|apply set_t_meta].
Qed.

Lemma normalize_energy_spec d g a E : Wf g -> tread g = Ok a -> 0 < energy_of d g a -> 0 <= E ->
  exists g' s b, normalize_energy d (Some E) g = (g', Ok tt) /\ Wf g' /\ same_meta g g' /\
    0 <= s /\ s = sqrt (E / energy_of d g a) /\
    tread g' = Ok b /\ is_scaled (RtoC s) a b /\ snd (compute_laser_energy d g') = Ok E.
Proof.
  intros HW Ha Hpos HE. set (cur := energy_of d g a) in *.
  set (s := sqrt (E / cur)).
  destruct (compute_energy_eq d g a Ha) as (C1 & C2).
  pose proof (tread_get_t g) as HT. rewrite Ha in HT.
  destruct (rescale (fst (get_temporal_field g)) a s (get_t_Wf g HW) HT) as (R1 & R2 & R3 & R4).
  set (g' := fst (set_temporal_field (fst (get_temporal_field (fst (get_temporal_field g)))) (scale_arr s a))) in *.
  assert (HM : same_meta g g') by (eapply same_meta_trans; [apply get_t_meta|exact R3]).
  exists g', s, (scale_arr s a).
  assert (Hs : 0 <= s) by apply sqrt_pos.
  assert (Hn : normalize_energy d (Some E) g = (g', Ok tt)).
  { unfold normalize_energy. rewrite C1, C2.
    assert (Hf : Reqb cur 0 = false) by (apply Reqb_false; lra).
    fold cur. rewrite Hf. unfold tread in HT. rewrite HT. cbn [fst snd].
    fold s. destruct (set_temporal_field _ _) as [gg rr] eqn:Es. cbn [snd fst] in *.
    rewrite R1. reflexivity. }
  split; [exact Hn|]. split; [exact R2|]. split; [exact HM|].
  split; [exact Hs|]. split; [reflexivity|]. split; [exact R4|]. split; [apply scale_is_scaled|].
  destruct (compute_energy_eq d g' _ R4) as (E1 & _). rewrite E1. f_equal.
  rewrite (energy_of_meta d g g' _ HM).
  rewrite (energy_scaled d g (RtoC s) a _ (scale_is_scaled s a)). fold cur.
  rewrite Cmod_R, pow2_abs. unfold s. rewrite pow2_sqrt; [field; lra|].
  apply Rmult_le_pos; [exact HE|]. apply Rlt_le, Rinv_0_lt_compat, Hpos.
Qed.

Lemma normalize_energy_zero d g a E : Wf g -> tread g = Ok a -> energy_of d g a = 0 ->
  exists g', normalize_energy d (Some E) g = (g', Ok tt) /\ Wf g' /\ same_meta g g' /\
             tread g' = tread g /\ sread g' = sread g.
Proof.
  intros HW Ha H0. destruct (compute_energy_eq d g a Ha) as (C1 & C2).
  exists (fst (get_temporal_field g)). unfold normalize_energy. rewrite C1, C2, H0.
  rewrite (proj2 (Reqb_true 0 0) eq_refl).
  split; [reflexivity|]. split; [apply get_t_Wf, HW|]. split; [apply get_t_meta|].
  split; [apply tread_get_t|apply sread_get_t].
Qed.

Lemma normalize_none d g k : k <> KOther -> normalize_grid d None k g = (g, Ok tt).
Proof. destruct k; try reflexivity; congruence. Qed.
Lemma normalize_other d v g : normalize_grid d v KOther g = (g, Err ValueError).
Proof. reflexivity. Qed.


Lemma is_max_scaled a b s m : 0 <= s -> is_scaled (RtoC s) a b ->
  is_max3 a (fun i j k => Cmod (at3 a i j k)) m -> is_max3 b (fun i j k => Cmod (at3 b i j k)) (s * m).
Proof.
  intros Hs (HS & _ & HE) (H1 & i & j & k & Hi & E).
  assert (Hin : forall i j k, inb b i j k <-> inb a i j k)
    by (intros; unfold inb, dim0, dim1, dim2; rewrite HS; tauto).
  split.
  - intros i' j' k' Hi'. apply Hin in Hi'. rewrite (HE _ _ _ Hi').
    rewrite Cmod_mult, Cmod_R, Rabs_right by lra.
    apply Rmult_le_compat_l; [exact Hs|]. apply H1, Hi'.
  - exists i, j, k. split; [apply Hin, Hi|]. rewrite (HE _ _ _ Hi).
    rewrite Cmod_mult, Cmod_R, Rabs_right by lra. rewrite E. reflexivity.
Qed.

Lemma normalize_field_spec g a A : Wf g -> tread g = Ok a -> nonempty a -> 0 <= A ->
  (exists i j k, inb a i j k /\ at3 a i j k <> RtoC 0) ->
  exists g' s b, normalize_peak_field_amplitude (Some A) g = (g', Ok tt) /\ Wf g' /\ same_meta g g' /\
    0 <= s /\ tread g' = Ok b /\ is_scaled (RtoC s) a b /\
    is_max3 b (fun i j k => Cmod (at3 b i j k)) A.
Proof.
  intros HW Ha (N0 & N1 & N2) HA (i & j & k & Hi & Hne).
  pose proof (flat3_is_max a (fun i j k => Cmod (at3 a i j k)) N0 N1 N2) as Hmax.
  fold (abs_max a) in Hmax.
  assert (Hpos : 0 < abs_max a).
  { destruct Hmax as (H1 & _). specialize (H1 i j k Hi).
    pose proof (Cmod_gt_0 (at3 a i j k)) as Hg. apply Hg in Hne. lra. }
  set (s := A / abs_max a).
  destruct (rescale g a s HW Ha) as (R1 & R2 & R3 & R4).
  exists (fst (set_temporal_field (fst (get_temporal_field g)) (scale_arr s a))), s, (scale_arr s a).
  assert (Hs : 0 <= s)
    by (apply Rmult_le_pos; [exact HA|apply Rlt_le, Rinv_0_lt_compat, Hpos]).
  split.
  { unfold normalize_peak_field_amplitude. unfold tread in Ha. rewrite Ha.
    assert (Hf : Reqb (abs_max a) 0 = false) by (apply Reqb_false; lra). rewrite Hf. fold s.
    destruct (set_temporal_field _ _) as [gg rr] eqn:Es. cbn [snd fst] in *. rewrite R1. reflexivity. }
  split; [exact R2|]. split; [exact R3|]. split; [exact Hs|]. split; [exact R4|].
  split; [apply scale_is_scaled|].
  replace A with (s * abs_max a) by (unfold s; field; lra).
  apply (is_max_scaled a _ s _ Hs (scale_is_scaled s a) Hmax).
Qed.

Lemma all_zero_max a (f : nat -> nat -> nat -> R) :
  (forall i j k, inb a i j k -> f i j k = 0) ->
  rmaxl (flat3 (dim0 a) (dim1 a) (dim2 a) f) = 0.
Proof.
  intros H. destruct (flat3 (dim0 a) (dim1 a) (dim2 a) f) as [|x l] eqn:E; [reflexivity|].
  assert (Hin : In (rmaxl (x :: l)) (x :: l)) by (apply rmaxl_in; discriminate).
  rewrite <- E in Hin at 2. apply in_flat3 in Hin. destruct Hin as (i & j & k & Hi & Hj & Hk & ->).
  apply H; unfold inb; auto.
Qed.

(** All kinds are no-ops on an all-zero field. *)
Lemma normalize_zero_noop d g a v k : Wf g -> tread g = Ok a ->
  (forall i j k, inb a i j k -> at3 a i j k = RtoC 0) -> k <> KOther ->
  exists g', normalize_grid d v k g = (g', Ok tt) /\ Wf g' /\ same_meta g g' /\
             tread g' = tread g /\ sread g' = sread g.
Proof.
  intros HW Ha Hz Hk.
  destruct v as [v|]; [|rewrite (normalize_none d g k Hk); exists g; repeat split; try apply HW; reflexivity].
  destruct k; try congruence; simpl.
  - apply (normalize_energy_zero d g a v HW Ha).
    rewrite energy_of_eq. rewrite (rsum3_ext _ _ _ _ (fun _ _ _ => 0 * 0)).
    + rewrite rsum3_scal; ring.
    + intros. rewrite Hz by (unfold inb; auto). rewrite Cnorm2_0; ring.
  - unfold normalize_peak_field_amplitude. unfold tread in Ha. rewrite Ha.
    assert (E : abs_max a = 0) by (apply all_zero_max; intros; rewrite Hz by assumption; apply Cmod_0).
    rewrite E, (proj2 (Reqb_true 0 0) eq_refl).
    exists (fst (get_temporal_field g)). split; [reflexivity|]. split; [apply get_t_Wf, HW|].
    split; [apply get_t_meta|]. split; [apply tread_get_t|apply sread_get_t].
  - unfold normalize_peak_intensity. unfold tread in Ha. rewrite Ha.
    match goal with |- context [Reqb ?m 0] => assert (E : m = 0) end.
    { apply all_zero_max; intros; rewrite Hz by assumption.
      replace (Cmult (RtoC (eps0 / 2 * c_light)) (Cmult (RtoC 0) (RtoC 0))) with (RtoC 0) by ring.
      apply Cmod_0. }
    rewrite E, (proj2 (Reqb_true 0 0) eq_refl).
    exists (fst (get_temporal_field g)). split; [reflexivity|]. split; [apply get_t_Wf, HW|].
    split; [apply get_t_meta|]. split; [apply tread_get_t|apply sread_get_t].
Qed.

(** C11: normalize_peak_intensity always fails on a non-zero field. *)
Lemma normalize_intensity_fails g a I : Wf g -> g_shape g <> [] -> tread g = Ok a -> nonempty a ->
  (exists i j k, inb a i j k /\ at3 a i j k <> RtoC 0) ->
  exists g', normalize_peak_intensity (Some I) g = (g', Err AssertionError) /\
             tread g' = tread g /\ sread g' = sread g.
Proof.
  intros HW Hsh Ha (N0 & N1 & N2) (i & j & k & Hi & Hne).
  destruct (tread_shape g a HW Ha) as (S1 & D1).
  unfold normalize_peak_intensity. pose proof Ha as Ha'. unfold tread in Ha'. rewrite Ha'.
  set (f := fun i j k => Cmod (Cmult (RtoC (eps0 / 2 * c_light)) (Cmult (at3 a i j k) (at3 a i j k)))).
  destruct (flat3_is_max a f N0 N1 N2) as (H1 & _).
  assert (Hpos : 0 < rmaxl (flat3 (dim0 a) (dim1 a) (dim2 a) f)).
  { specialize (H1 i j k Hi). unfold f in H1 at 1. rewrite !Cmod_mult, Cmod_R in H1.
    apply Cmod_gt_0 in Hne. pose proof eps0_pos. pose proof c_light_pos.
    assert (0 < Rabs (eps0 / 2 * c_light)) by (apply Rabs_pos_lt; apply Rgt_not_eq; apply Rmult_lt_0_compat; lra).
    assert (0 < Rabs (eps0 / 2 * c_light) * (Cmod (at3 a i j k) * Cmod (at3 a i j k)))
      by (apply Rmult_lt_0_compat; [assumption|apply Rmult_lt_0_compat; assumption]).
    lra. }
  assert (Hf : Reqb (rmaxl (flat3 (dim0 a) (dim1 a) (dim2 a) f)) 0 = false) by (apply Reqb_false; lra).
  rewrite Hf. exists (fst (get_temporal_field g)). split; [|split; [apply tread_get_t|apply sread_get_t]].
  unfold set_temporal_field.
  destruct (get_t_Wf g HW) as (_ & _ & E & _).
  destruct (get_t_meta g) as (_ & _ & _ & _ & _ & _ & _ & E' & _). rewrite E, E'.
  assert (Hs : shape_eqb (shp (np_float_scalar (sqrt (I / rmaxl (flat3 (dim0 a) (dim1 a) (dim2 a) f))))) (g_shape g) = false).
  { apply shape_eqb_false. simpl. congruence. }
  rewrite Hs. reflexivity.
Qed.

(** ** Spectral form of the energy *)
Lemma energy_spectral d g s : (0 < dim2 s)%nat ->
  energy_of d g (np_fft_last s) = env_factor g * eps0 * INR (dim2 s) *
    rsum3 (dim0 s) (dim1 s) (dim2 s) (fun i j k => cell_volume d g j * Cnorm2 (at3 s i j k)).
Proof.
  intros HN. rewrite energy_of_eq. unfold rsum3, np_fft_last, dim0, dim1; simpl.
  change (dim2 {| shp := shp s; dty := Complex128;
     at3 := fun i j k => fft1 (dim2 s) (fun q => at3 s i j q) k |}) with (dim2 s).
  rewrite !Rmult_assoc. f_equal. f_equal. rewrite <- rsum_scal_l. apply rsum_ext; intros i _.
  rewrite <- rsum_scal_l. apply rsum_ext; intros j _.
  rewrite rsum_scal_l, parseval_fft by exact HN. rewrite rsum_scal_l. ring.
Qed.
