From Verif Require Import PyBase CSum NpFFT FFTProofs NumPy GridModel GridSpec GridProofs GridObs EnergyModel LaserSpec LaserModel LaserOps LaserInv LaserStepProofs PropagateProofs HistoryProofs LtiSpec.
Open Scope R_scope.

Definition delta (i j : nat) : C := if Nat.eqb i j then RtoC 1 else RtoC 0.
Lemma delta_same i : delta i i = RtoC 1. Proof. unfold delta; rewrite Nat.eqb_refl; reflexivity. Qed.
Lemma delta_diff i j : i <> j -> delta i j = RtoC 0.
Proof. intros H; unfold delta. destruct (Nat.eqb_spec i j); [contradiction|reflexivity]. Qed.
Lemma csum_delta n i f : (i < n)%nat -> csum n (fun q => Cmult (delta i q) (f q)) = f i.
Proof.
  intros H. rewrite (csum_single n _ i H).
  - rewrite delta_same. ring.
  - intros q _ Hq. rewrite delta_diff by auto. ring.
Qed.

(** ** Kernel algebra *)
Definition kid : kernel := fun i j i' j' _ => Cmult (delta i i') (delta j j').
Definition kmul (c : nat -> nat -> nat -> C) (T : kernel) : kernel := fun i j i' j' k => Cmult (c i j k) (T i j i' j' k).
Definition kcomp (m0 m1 : nat) (T2 T1 : kernel) : kernel :=
  fun i j i' j' k => csum m0 (fun a => csum m1 (fun b => Cmult (T2 i j a b k) (T1 a b i' j' k))).
Lemma kid_diag : mode_diagonal kid.
Proof. intros i j i' j' k H. unfold kid. rewrite delta_diff by auto. ring. Qed.
Lemma kmul_diag c T : mode_diagonal T -> mode_diagonal (kmul c T).
Proof. intros H i j i' j' k Hi. unfold kmul. rewrite H by auto. ring. Qed.
Lemma kcomp_diag m0 m1 T2 T1 : mode_diagonal T2 -> mode_diagonal T1 -> mode_diagonal (kcomp m0 m1 T2 T1).
Proof.
  intros H2 H1 i j i' j' k Hi. unfold kcomp. apply csum_zero; intros a _. apply csum_zero; intros b _.
  destruct (Nat.eq_dec i a) as [<-|Ha]; [rewrite (H1 i) by auto|rewrite H2 by auto]; ring.
Qed.
Lemma kid_apply n0 n1 s i j k : (i < n0)%nat -> (j < n1)%nat -> kapply n0 n1 kid s i j k = s i j k.
Proof.
  intros Hi Hj. unfold kapply, kid.
  rewrite (csum_ext n0 _ (fun i' => Cmult (delta i i') (csum n1 (fun j' => Cmult (delta j j') (s i' j' k))))).
  - rewrite csum_delta by exact Hi. apply (csum_delta n1 j (fun j' => s i j' k)), Hj.
  - intros i' _. rewrite <- csum_scal_l. apply csum_ext; intros; ring.
Qed.
Lemma kmul_apply n0 n1 c T s i j k : kapply n0 n1 (kmul c T) s i j k = Cmult (c i j k) (kapply n0 n1 T s i j k).
Proof.
  unfold kapply, kmul. rewrite <- csum_scal_l. apply csum_ext; intros i' _.
  rewrite <- csum_scal_l. apply csum_ext; intros; ring.
Qed.
Lemma kapply_ext n0 n1 T s s' i j k :
  (forall i' j', (i' < n0)%nat -> (j' < n1)%nat -> s i' j' k = s' i' j' k) -> kapply n0 n1 T s i j k = kapply n0 n1 T s' i j k.
Proof. intros H. unfold kapply. apply csum_ext; intros i' Hi. apply csum_ext; intros j' Hj. rewrite H by assumption; reflexivity. Qed.
Lemma kcomp_apply n0 n1 m0 m1 T2 T1 s i j k :
  kapply n0 n1 (kcomp m0 m1 T2 T1) s i j k = kapply m0 m1 T2 (kapply n0 n1 T1 s) i j k.
Proof.
  unfold kapply, kcomp.
  transitivity (csum n0 (fun i' => csum n1 (fun j' => csum m0 (fun a => csum m1 (fun b => Cmult (Cmult (T2 i j a b k) (T1 a b i' j' k)) (s i' j' k)))))).
  { apply csum_ext; intros i' _. apply csum_ext; intros j' _. rewrite <- csum_scal_r. apply csum_ext; intros a _. rewrite <- csum_scal_r. reflexivity. }
  transitivity (csum m0 (fun a => csum m1 (fun b => csum n0 (fun i' => csum n1 (fun j' => Cmult (Cmult (T2 i j a b k) (T1 a b i' j' k)) (s i' j' k)))))).
  - transitivity (csum n0 (fun i' => csum m0 (fun a => csum n1 (fun j' => csum m1 (fun b => Cmult (Cmult (T2 i j a b k) (T1 a b i' j' k)) (s i' j' k)))))).
    { apply csum_ext; intros i' _. apply csum_swap. }
    rewrite csum_swap. apply csum_ext; intros a _.
    transitivity (csum n0 (fun i' => csum m1 (fun b => csum n1 (fun j' => Cmult (Cmult (T2 i j a b k) (T1 a b i' j' k)) (s i' j' k))))).
    { apply csum_ext; intros i' _. apply csum_swap. }
    apply csum_swap.
  - apply csum_ext; intros a _. apply csum_ext; intros b _. rewrite <- csum_scal_l. apply csum_ext; intros i' _.
    rewrite <- csum_scal_l. apply csum_ext; intros; ring.
Qed.
Lemma kapply_lin n0 n1 T a b s t i j k :
  kapply n0 n1 T (fun i j k => Cplus (Cmult a (s i j k)) (Cmult b (t i j k))) i j k =
  Cplus (Cmult a (kapply n0 n1 T s i j k)) (Cmult b (kapply n0 n1 T t i j k)).
Proof.
  unfold kapply. rewrite <- !csum_scal_l, <- csum_plus. apply csum_ext; intros i' _.
  rewrite <- !csum_scal_l, <- csum_plus. apply csum_ext; intros; ring.
Qed.
Lemma kapply_diag n0 n1 T s i j k : mode_diagonal T -> (i < n0)%nat ->
  kapply n0 n1 T s i j k = csum n1 (fun j' => Cmult (T i j i j' k) (s i j' k)).
Proof.
  intros H Hi. unfold kapply. rewrite (csum_single n0 _ i Hi); [reflexivity|].
  intros i' _ Hne. apply csum_zero; intros j' _. rewrite H by auto. ring.
Qed.

(** ** Solvers as kernels *)
Lemma solver_rt_sum S p n (c : nat -> nat -> C) (x : nat -> nat -> nat -> C) d k j : linear_solver S ->
  (k < length (rp_k p))%nat -> (j < out_points p)%nat ->
  step_rt S p (fun k j => csum n (fun q => Cmult (c q k) (x q k j))) d k j = csum n (fun q => Cmult (c q k) (step_rt S p (x q) d k j)).
Proof.
  intros HS Hk Hj. induction n as [|n IH].
  - rewrite (ls_rt S HS p (fun _ => RtoC 0) (fun _ => RtoC 0) (fun _ _ => RtoC 0) (fun _ _ => RtoC 0)); try assumption.
    + simpl. ring.
    + intros. simpl. ring.
  - rewrite (ls_rt S HS p (fun _ => RtoC 1) (c n) (fun k j => csum n (fun q => Cmult (c q k) (x q k j))) (x n)); try assumption.
    + rewrite IH. simpl. ring.
    + intros. simpl. ring.
Qed.
Lemma solver_rt_ext S p x w d k j : linear_solver S ->
  (forall k j, (k < length (rp_k p))%nat -> (j < length (rp_r p))%nat -> w k j = x k j) ->
  (k < length (rp_k p))%nat -> (j < out_points p)%nat -> step_rt S p w d k j = step_rt S p x d k j.
Proof.
  intros HS H Hk Hj. rewrite (ls_rt S HS p (fun _ => RtoC 1) (fun _ => RtoC 0) x x w d); try assumption; [ring|].
  intros. rewrite H by assumption. ring.
Qed.
Lemma solver_rt_kernel S p s d k j : linear_solver S -> (k < length (rp_k p))%nat -> (j < out_points p)%nat ->
  step_rt S p s d k j =
  csum (length (rp_r p)) (fun q => Cmult (step_rt S p (fun _ jj => delta jj q) d k j) (s k q)).
Proof.
  intros HS Hk Hj.
  rewrite (solver_rt_ext S p (fun k j => csum (length (rp_r p)) (fun q => Cmult (s k q) (delta j q))) s); try assumption.
  - rewrite (solver_rt_sum S p _ (fun q k => s k q) (fun q _ jj => delta jj q)) by assumption.
    apply csum_ext; intros; ring.
  - intros k' j' _ Hj'. rewrite <- (csum_delta (length (rp_r p)) j' (s k') Hj') at 1. apply csum_ext; intros; ring.
Qed.
Lemma solver_xy_sum S p n (c : nat -> nat -> C) (x : nat -> nat -> nat -> nat -> C) d k i j : linear_solver S ->
  (k < length (fp_k p))%nat -> (i < snd (fp_x p))%nat -> (j < snd (fp_y p))%nat ->
  step_xyt S p (fun k i j => csum n (fun q => Cmult (c q k) (x q k i j))) d k i j = csum n (fun q => Cmult (c q k) (step_xyt S p (x q) d k i j)).
Proof.
  intros HS Hk Hi Hj. induction n as [|n IH].
  - rewrite (ls_xy S HS p (fun _ => RtoC 0) (fun _ => RtoC 0) (fun _ _ _ => RtoC 0) (fun _ _ _ => RtoC 0)); try assumption.
    + simpl. ring.
    + intros. simpl. ring.
  - rewrite (ls_xy S HS p (fun _ => RtoC 1) (c n) (fun k i j => csum n (fun q => Cmult (c q k) (x q k i j))) (x n)); try assumption.
    + rewrite IH. simpl. ring.
    + intros. simpl. ring.
Qed.
Lemma solver_xy_ext S p x w d k i j : linear_solver S ->
  (forall k i j, (k < length (fp_k p))%nat -> (i < snd (fp_x p))%nat -> (j < snd (fp_y p))%nat -> w k i j = x k i j) ->
  (k < length (fp_k p))%nat -> (i < snd (fp_x p))%nat -> (j < snd (fp_y p))%nat -> step_xyt S p w d k i j = step_xyt S p x d k i j.
Proof.
  intros HS H Hk Hi Hj. rewrite (ls_xy S HS p (fun _ => RtoC 1) (fun _ => RtoC 0) x x w d); try assumption; [ring|].
  intros. rewrite H by assumption. ring.
Qed.
Lemma solver_xy_kernel S p s d k i j : linear_solver S ->
  (k < length (fp_k p))%nat -> (i < snd (fp_x p))%nat -> (j < snd (fp_y p))%nat ->
  step_xyt S p s d k i j =
  csum (snd (fp_x p)) (fun u => csum (snd (fp_y p)) (fun v =>
    Cmult (step_xyt S p (fun _ ii jj => Cmult (delta ii u) (delta jj v)) d k i j) (s k u v))).
Proof.
  intros HS Hk Hi Hj. set (nx := snd (fp_x p)) in *. set (ny := snd (fp_y p)) in *.
  rewrite (solver_xy_ext S p (fun k i j => csum nx (fun u => Cmult (RtoC 1) (csum ny (fun v => Cmult (s k u v) (Cmult (delta i u) (delta j v)))))) s); try assumption.
  - rewrite (solver_xy_sum S p nx (fun _ _ => RtoC 1) (fun u k i j => csum ny (fun v => Cmult (s k u v) (Cmult (delta i u) (delta j v))))) by assumption.
    apply csum_ext; intros u _.
    rewrite (solver_xy_sum S p ny (fun v k => s k u v) (fun v _ ii jj => Cmult (delta ii u) (delta jj v))) by assumption.
    rewrite Cmult_1_l. apply csum_ext; intros; ring.
  - intros k' i' j' _ Hi' Hj'.
    rewrite (csum_ext nx _ (fun u => Cmult (delta i' u) (csum ny (fun v => Cmult (delta j' v) (s k' u v))))).
    + rewrite csum_delta by exact Hi'. symmetry. apply (csum_delta ny j' (fun v => s k' i' v)), Hj'.
    + intros u _. rewrite Cmult_1_l, <- csum_scal_l. apply csum_ext; intros; ring.
Qed.

(** ** The absorbing layer *)
Definition absorb_code (d : pydim) (nr : option pynum) (n0 n1 : nat) : res unit :=
  match nr with
  | None => Ok tt
  | Some PyOther => Err AssertionError
  | Some (PyInt z) =>
      if Z.leb z 0 then Err AssertionError
      else match d with
      | Rt => if Nat.ltb n1 (Z.to_nat z) then Err ValueError else Ok tt
      | _ => if Nat.ltb n0 (Z.to_nat z) then Err ValueError else if Nat.ltb n1 (Z.to_nat z) then Err ValueError else Ok tt
      end
  end.
Definition absorb_fac (d : pydim) (nr : option pynum) (n0 n1 i j : nat) : C :=
  match nr with
  | Some (PyInt z) =>
      let n := Z.to_nat z in
      match d with
      | Rt => RtoC (absorb_hi n n1 j)
      | _ => Cmult (Cmult (RtoC (absorb_hi n n0 i)) (RtoC (absorb_lo n i))) (Cmult (RtoC (absorb_hi n n1 j)) (RtoC (absorb_lo n j)))
      end
  | _ => RtoC 1
  end.
Lemma absorb_form d nr g n0 n1 nt s : CohG g -> g_shape g = [n0; n1; nt] -> sread g = Ok s ->
  snd (absorb_boundary d nr g) = absorb_code d nr n0 n1 /\
  (absorb_code d nr n0 n1 = Ok tt -> exists s1, sread (fst (absorb_boundary d nr g)) = Ok s1 /\
     forall i j k, (i < n0)%nat -> (j < n1)%nat -> (k < nt)%nat -> at3 s1 i j k = Cmult (absorb_fac d nr n0 n1 i j) (at3 s i j k)).
Proof.
  intros HG Hsh Hs. unfold absorb_boundary, absorb_code, absorb_fac.
  destruct nr as [[z|]|].
  2: { split; [reflexivity|discriminate]. }
  2: { split; [reflexivity|]. intros _. exists s. split; [exact Hs|]. intros; ring. }
  destruct (Z.leb z 0); [split; [reflexivity|discriminate]|].
  destruct (sread_tread_ok _ _ (proj1 HG) Hs) as (a & Ha).
  rewrite get_t_eq; cbn [fst snd]. rewrite Ha.
  destruct (tread_shape _ _ (proj1 HG) Ha) as (S3 & S4).
  pose proof (get_t_Coh _ HG) as HG1. pose proof (get_t_meta g) as HM.
  assert (Hset : forall f F, shp f = shp a -> dty f = dty a ->
     (forall i j k, at3 f i j k = Cmult (F i j) (at3 a i j k)) ->
     snd (set_temporal_field (fst (get_temporal_field g)) f) = Ok tt /\
     exists s1, sread (fst (set_temporal_field (fst (get_temporal_field g)) f)) = Ok s1 /\
     forall i j k, (i < n0)%nat -> (j < n1)%nat -> (k < nt)%nat -> at3 s1 i j k = Cmult (F i j) (at3 s i j k)).
  { intros f F F1 F2 F3.
    destruct (set_t_ok (fst (get_temporal_field g)) f (proj1 HG1)) as (H1 & H2 & H3).
    { rewrite F1, S3. symmetry. apply HM. }
    { congruence. }
    split; [exact H1|].
    destruct (tread_sread_ok _ _ (proj1 (set_t_Coh _ f HG1)) H2) as (s1 & Hs1). exists s1. split; [exact Hs1|].
    intros i j k Hi Hj Hk.
    destruct (reads_idft _ _ _ (set_t_Coh _ f HG1) H2 Hs1) as (Q1 & _ & Q2).
    destruct (reads_idft _ _ _ HG Ha Hs) as (P1 & _ & P2).
    assert (B : forall q, shp q = [n0; n1; nt] -> inb q i j k).
    { intros q Hq. unfold inb, dim0, dim1, dim2. rewrite Hq. simpl. auto. }
    assert (Ea : shp a = [n0; n1; nt]) by (rewrite S3; exact Hsh).
    assert (E1 : shp s1 = [n0; n1; nt]) by (rewrite Q1; cbn [np_ifft_last shp]; rewrite F1; exact Ea).
    assert (E0 : shp s = [n0; n1; nt]) by (rewrite P1; cbn [np_ifft_last shp]; exact Ea).
    rewrite (Q2 i j k (B _ E1)), (P2 i j k (B _ E0)). cbn [np_ifft_last at3].
    assert (Ed : dim2 f = dim2 a) by (unfold dim2; rewrite F1; reflexivity). rewrite Ed.
    rewrite <- ifft1_scal. apply ifft1_ext. intros q _. apply F3. }
  assert (D0 : dim0 a = n0) by (unfold dim0; rewrite S3, Hsh; reflexivity).
  assert (D1 : dim1 a = n1) by (unfold dim1; rewrite S3, Hsh; reflexivity).
  unfold absorb_field. rewrite D0, D1. destruct d.
  - destruct (Nat.ltb n1 (Z.to_nat z)); cbn [fst snd]; [split; [reflexivity|discriminate]|].
    destruct (Hset (mkArr (shp a) (dty a) (fun i j k => Cmult (at3 a i j k) (RtoC (absorb_hi (Z.to_nat z) n1 j))))
      (fun _ j => RtoC (absorb_hi (Z.to_nat z) n1 j))) as (H1 & H2); try reflexivity; [intros; simpl; ring|].
    split; [exact H1|]. intros _. exact H2.
  - destruct (Nat.ltb n0 (Z.to_nat z)); cbn [fst snd]; [split; [reflexivity|discriminate]|].
    destruct (Nat.ltb n1 (Z.to_nat z)); cbn [fst snd]; [split; [reflexivity|discriminate]|].
    match goal with |- context [set_temporal_field _ ?f] => destruct (Hset f
      (fun i j => Cmult (Cmult (RtoC (absorb_hi (Z.to_nat z) n0 i)) (RtoC (absorb_lo (Z.to_nat z) i))) (Cmult (RtoC (absorb_hi (Z.to_nat z) n1 j)) (RtoC (absorb_lo (Z.to_nat z) j)))))
      as (H1 & H2); try reflexivity; [intros; simpl; ring|] end.
    split; [exact H1|]. intros _. exact H2.
  - destruct (Nat.ltb n0 (Z.to_nat z)); cbn [fst snd]; [split; [reflexivity|discriminate]|].
    destruct (Nat.ltb n1 (Z.to_nat z)); cbn [fst snd]; [split; [reflexivity|discriminate]|].
    match goal with |- context [set_temporal_field _ ?f] => destruct (Hset f
      (fun i j => Cmult (Cmult (RtoC (absorb_hi (Z.to_nat z) n0 i)) (RtoC (absorb_lo (Z.to_nat z) i))) (Cmult (RtoC (absorb_hi (Z.to_nat z) n1 j)) (RtoC (absorb_lo (Z.to_nat z) j)))))
      as (H1 & H2); try reflexivity; [intros; simpl; ring|] end.
    split; [exact H1|]. intros _. exact H2.
Qed.

(** ** Parallel lasers: the same geometry up to a shift of the time axis, the same carrier and the
    same solver cache; the fields may differ. *)
Record Par (D : R) (L L' : laser) (n0 n1 nt : nat) : Prop := mkPar {
  pa_inv : Inv L n0 n1 nt;
  pa_inv' : Inv L' n0 n1 nt;
  pa_dim : l_dim L' = l_dim L;
  pa_om : l_omega L' = l_omega L;
  pa_w0 : p_omega0 (l_prof L') = p_omega0 (l_prof L);
  pa_prop : l_prop L' = l_prop L;
  pa_meta : same_meta (shift_domain (l_grid L) D) (l_grid L')
}.
Lemma Par_refl L n0 n1 nt : Inv L n0 n1 nt -> Par 0 L L n0 n1 nt.
Proof.
  intros H. constructor; try assumption; try reflexivity. rewrite (shift_0 _ _ _ _ _ (i_shape _ _ _ _ H)). apply same_meta_refl.
Qed.
Lemma Par_fresh D L L' n0 n1 nt b : Par D L L' n0 n1 nt -> fresh_prop L' b = fresh_prop L b.
Proof.
  intros [H1 H2 H3 H4 H5 H6 H7]. pose proof (i_shape _ _ _ _ H1) as HS.
  apply fresh_prop_ext; try assumption; [exists D; exact H7|apply (gs_lo _ _ _ _ _ HS)|apply (gs_hi _ _ _ _ _ HS)|apply (gs_axes _ _ _ _ _ HS)|apply (i_dim _ _ _ _ H1)].
Qed.
Lemma Par_used D L L' n0 n1 nt b : Par D L L' n0 n1 nt -> used_prop L' b = used_prop L b.
Proof. intros H. unfold used_prop. rewrite (pa_prop _ _ _ _ _ _ H). destruct (l_prop L); [reflexivity|apply (Par_fresh _ _ _ _ _ _ _ H)]. Qed.
Lemma used_is_fresh L n0 n1 nt b : Inv L n0 n1 nt -> exists b', used_prop L b = fresh_prop L b'.
Proof. intros H. unfold used_prop. destruct (i_prop _ _ _ _ H) as [Hp|(b' & Hp)]; rewrite Hp; eauto. Qed.
(** The transverse axes of parallel lasers. *)
Lemma Par_axis D L L' n0 n1 nt q : Par D L L' n0 n1 nt -> (S q < ndims_of (l_dim L))%nat ->
  nth q (g_axes (l_grid L')) [] = nth q (g_axes (l_grid L)) [].
Proof.
  intros [H1 H2 H3 H4 H5 H6 H7] Hq. destruct H7 as (_ & _ & _ & H7 & _). rewrite H7.
  cbn [shift_domain with_domain g_axes]. apply set_last_nth. rewrite (gs_axes _ _ _ _ _ (i_shape _ _ _ _ H1)). exact Hq.
Qed.

(** Kernel of one solver step on the whole field. *)
Definition kprop (S : solvers) (p : prop_attr) (dist : R) : kernel :=
  match p with
  | PropRt ps => fun i j i' j' k =>
      if Nat.eqb i i' then match nth_error ps i with
        | Some p => step_rt S p (fun _ jj => delta jj j') dist k j
        | None => RtoC 0 end
      else RtoC 0
  | PropXyt p => fun i j i' j' k => step_xyt S p (fun _ ii jj => Cmult (delta ii i') (delta jj j')) dist k i j
  end.
Lemma kprop_diag S ps dist : mode_diagonal (kprop S (PropRt ps) dist).
Proof. intros i j i' j' k H. simpl. destruct (Nat.eqb_spec i i'); [contradiction|reflexivity]. Qed.
Lemma kprop_rt S r om rn modes b s dist n0 i j k : linear_solver S ->
  (k < length om)%nat -> (j < match rn with None => length r | Some l => length l end)%nat -> (i < n0)%nat ->
  step_mode S (build_rt r om rn modes b) s dist i j k =
  kapply n0 (length r) (kprop S (PropRt (build_rt r om rn modes b)) dist) (at3 s) i j k.
Proof.
  intros HS Hk Hj Hi. rewrite kapply_diag by (assumption || apply kprop_diag).
  unfold step_mode. simpl. rewrite Nat.eqb_refl.
  destruct (nth_error (build_rt r om rn modes b) i) as [p|] eqn:E.
  - assert (Hp : exists m, p = mkRtProp r (map (fun w => w / c_light) om) rn m b).
    { unfold build_rt in E. rewrite nth_error_map in E. destruct (nth_error modes i) as [m|]; [|discriminate]. injection E as <-. eauto. }
    destruct Hp as (m & ->). rewrite solver_rt_kernel; [reflexivity|assumption| |]; cbn; [rewrite map_length; exact Hk|exact Hj].
  - symmetry. apply csum_zero; intros; ring.
Qed.
Lemma stepped_kernel S L n0 n1 nt b s dist i j k : linear_solver S -> Inv L n0 n1 nt ->
  (i < n0)%nat -> (j < n1)%nat -> (k < nt)%nat ->
  at3 (stepped S (fresh_prop L b) s dist) i j k = kapply n0 n1 (kprop S (fresh_prop L b) dist) (at3 s) i j k.
Proof.
  intros HS HI Hi Hj Hk. pose proof (i_shape _ _ _ _ HI) as GS. pose proof (i_omega _ _ _ _ HI) as Hom.
  unfold stepped, fresh_prop. cbn [at3]. destruct (i_dim _ _ _ _ HI) as [Ed|Ed]; rewrite Ed in *.
  - destruct (gs_rt _ _ _ _ _ GS eq_refl) as (M & _ & _ & _ & _ & _ & Hr).
    rewrite (kprop_rt S _ _ _ _ _ s dist n0); try assumption.
    + rewrite Hr. reflexivity.
    + rewrite Hom; exact Hk.
    + rewrite Hr; exact Hj.
  - rewrite solver_xy_kernel; try assumption.
    + unfold kapply, build_xyt. cbn [fp_x fp_y snd kprop]. rewrite (gs_shape _ _ _ _ _ GS). reflexivity.
    + cbn. rewrite map_length, Hom. exact Hk.
    + cbn. rewrite (gs_shape _ _ _ _ _ GS). exact Hi.
    + cbn. rewrite (gs_shape _ _ _ _ _ GS). exact Hj.
Qed.
