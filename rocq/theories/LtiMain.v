From Verif Require Import PyBase CSum NpFFT FFTProofs NumPy GridModel GridSpec GridProofs GridObs EnergyModel EnergyProofs LaserSpec LaserModel LaserOps LaserInv LaserStepProofs PropagateProofs HistoryProofs FromArrayModel ProfileModel LtiSpec LtiProofs LtiStep.
Open Scope R_scope.

Lemma linspace_later a b tau n : linspace (a + tau) (b + tau) n = map (fun t => t + tau) (linspace a b n).
Proof.
  unfold linspace. destruct n as [|[|n]]; [reflexivity|reflexivity|]. rewrite map_map. apply map_ext. intros i.
  replace (b + tau - (a + tau)) with (b - a) by ring. ring.
Qed.
Lemma shift_axis tau (l : list R) : map (fun t => t + tau * c_light / c_light) l = map (fun t => t + tau) l.
Proof. apply map_ext. intros t. field. apply Rgt_not_eq, c_light_pos. Qed.
Lemma tau_c tau : tau * c_light / c_light = tau.
Proof. field. apply Rgt_not_eq, c_light_pos. Qed.

(** The grid of a shifted time window is the shifted grid. *)
Lemma grid_init_later d lo hi np nm tau g g' :
  grid_init d lo hi np nm true = Ok g -> grid_init d (later tau lo) (later tau hi) np nm true = Ok g' ->
  same_meta (shift_domain g (tau * c_light)) g'.
Proof.
  intros H H'.
  assert (Hex : exists g, grid_init d lo hi np nm true = Ok g) by eauto.
  apply grid_init_ok_iff in Hex. destruct Hex as (Hd & Hlo & Hhi & Hn & _).
  assert (Hax : forall a b n A, linspace a b n <> [] -> nth_error (linspace a b n) 1 = Some A -> nth_error (linspace (a + tau) (b + tau) n) 1 = Some (A + tau)).
  { intros a b n A _ HA. rewrite linspace_later, nth_error_map, HA. reflexivity. }
  assert (Hl0 : forall a b n A, nth_error (linspace a b n) 1 = Some A -> vget (linspace (a + tau) (b + tau) n) 0 = vget (linspace a b n) 0 + tau).
  { intros a b n A HA. rewrite linspace_later. unfold vget. destruct (linspace a b n); [discriminate|reflexivity]. }
  destruct d; [| |congruence]; simpl ndims_of in *.
  - destruct lo as [|a [|b [|? ?]]]; try discriminate. destruct hi as [|A [|B [|? ?]]]; try discriminate.
    unfold grid_init in H, H'. cbn [later removelast last app length Nat.eqb pyassert bind build_axes vget nth] in H, H'.
    destruct (Hn 0%nat ltac:(lia)) as (n0 & N0 & _). destruct (Hn 1%nat ltac:(lia)) as (n1 & N1 & _).
    rewrite N0, N1 in H, H'. cbn [bind] in H, H'.
    destruct (nth_error (linspace a A n0) 1) as [x0|] eqn:E0; [|destruct (nth_error (linspace b B n1) 1); discriminate].
    destruct (nth_error (linspace b B n1) 1) as [x1|] eqn:E1; [|discriminate].
    assert (Hne : linspace b B n1 <> []) by (intros Hz; rewrite Hz in E1; cbn in E1; discriminate E1).
    rewrite (Hax b B n1 x1 Hne E1) in H'. cbn [bind fst snd] in H, H'.
    destruct nm as [M|]; [|discriminate]. destruct (Z.ltb (2 * M - 1) 0); [discriminate|].
    injection H as <-. injection H' as <-.
    unfold same_meta, shift_domain, with_domain, time_axis, lastR, set_last.
    cbn [g_lo g_hi g_npoints g_axes g_dx g_nmodes g_modes g_shape g_isenv g_dtype removelast last app].
    rewrite tau_c, <- linspace_later, (Hl0 b B n1 x1 E1).
    repeat split. f_equal. f_equal. ring.
  - destruct lo as [|a [|b [|c [|? ?]]]]; try discriminate. destruct hi as [|A [|B [|C [|? ?]]]]; try discriminate.
    unfold grid_init in H, H'. cbn [later removelast last app length Nat.eqb pyassert bind build_axes vget nth] in H, H'.
    destruct (Hn 0%nat ltac:(lia)) as (n0 & N0 & _). destruct (Hn 1%nat ltac:(lia)) as (n1 & N1 & _). destruct (Hn 2%nat ltac:(lia)) as (n2 & N2 & _).
    rewrite N0, N1, N2 in H, H'. cbn [bind] in H, H'.
    destruct (nth_error (linspace a A n0) 1) as [x0|] eqn:E0; [|destruct (nth_error (linspace b B n1) 1), (nth_error (linspace c C n2) 1); discriminate].
    destruct (nth_error (linspace b B n1) 1) as [x1|] eqn:E1; [|destruct (nth_error (linspace c C n2) 1); discriminate].
    destruct (nth_error (linspace c C n2) 1) as [x2|] eqn:E2; [|discriminate].
    assert (Hne : linspace c C n2 <> []) by (intros Hz; rewrite Hz in E2; cbn in E2; discriminate E2).
    rewrite (Hax c C n2 x2 Hne E2) in H'. cbn [bind fst snd] in H, H'.
    injection H as <-. injection H' as <-.
    unfold same_meta, shift_domain, with_domain, time_axis, lastR, set_last.
    cbn [g_lo g_hi g_npoints g_axes g_dx g_nmodes g_modes g_shape g_isenv g_dtype removelast last app].
    rewrite tau_c, <- linspace_later, (Hl0 c C n2 x2 E2).
    repeat split. do 3 f_equal. ring.
Qed.
Lemma shift_dx g D : g_dx (shift_domain g D) = g_dx g. Proof. reflexivity. Qed.
Lemma later_0 l : l <> [] -> later 0 l = l.
Proof. intros H. unfold later. rewrite Rplus_0_r. symmetry. apply app_removelast_last, H. Qed.


(** Axes after the same history started on a later window. *)
Lemma Par_axes D L L' n0 n1 nt tau : Par D L L' n0 n1 nt -> D = tau * c_light ->
  axes_later tau (g_axes (l_grid L)) (g_axes (l_grid L')).
Proof.
  intros HP ->. destruct (pa_meta _ _ _ _ _ _ HP) as (_ & _ & _ & Z & _). unfold axes_later. rewrite Z.
  cbn [shift_domain with_domain g_axes]. rewrite shift_axis. reflexivity.
Qed.

Lemma init_par d lo hi np p p' nm nte tau L L' n0 n1 nt :
  laser_init d lo hi np p nm nte = Ok L -> laser_init d (later tau lo) (later tau hi) np p' nm nte = Ok L' ->
  p_omega0 p' = p_omega0 p -> Inv L n0 n1 nt ->
  Par (tau * c_light) L L' n0 n1 nt.
Proof.
  intros H H' Hw HI.
  destruct (laser_init_Inv _ _ _ _ _ _ _ _ H) as (g & a0 & a1 & at' & A1 & A2 & A3 & A4 & A5 & A6 & A7 & A8 & A9 & A10).
  destruct (laser_init_Inv _ _ _ _ _ _ _ _ H') as (g' & n0' & n1' & nt' & B1 & B2 & B3 & B4 & B5 & B6 & B7 & B8 & B9 & B10).
  pose proof (grid_init_later _ _ _ _ _ _ _ _ A1 B1) as HM.
  assert (Hsh : g_shape g' = g_shape g) by (destruct HM as (_ & _ & _ & _ & _ & _ & _ & Z & _); exact Z).
  assert (Hdx : g_dx g' = g_dx g) by (destruct HM as (_ & _ & _ & _ & Z & _); exact Z).
  assert (E : [a0; a1; at'] = [n0; n1; nt]).
  { rewrite <- (gs_shape _ _ _ _ _ (i_shape _ _ _ _ A10)), <- (gs_shape _ _ _ _ _ (i_shape _ _ _ _ HI)). reflexivity. }
  injection E as -> -> ->.
  rewrite (gs_shape _ _ _ _ _ A9), (gs_shape _ _ _ _ _ B9) in Hsh. injection Hsh as -> -> ->.
  constructor; try assumption; try congruence.
  - rewrite A5, B5, Hw. unfold omega_axis. rewrite Hdx, (gs_shape _ _ _ _ _ A9), (gs_shape _ _ _ _ _ B9). reflexivity.
  - eapply same_meta_trans; [apply shift_same_meta, same_meta_sym, A2|].
    eapply same_meta_trans; [exact HM|exact B2].
Qed.

Lemma Inv_reads K a b c : Inv K a b c ->
  exists t s, tread (l_grid K) = Ok t /\ shp t = [a; b; c] /\ sread (l_grid K) = Ok s /\ shp s = [a; b; c].
Proof.
  intros HK. pose proof (i_coh _ _ _ _ HK) as HG. pose proof (gs_shape _ _ _ _ _ (i_shape _ _ _ _ HK)) as Hsh.
  destruct (i_read _ _ _ _ HK) as (t & Ht). destruct (tread_sread_ok _ _ (proj1 HG) Ht) as (s & Hs).
  destruct (tread_shape _ _ (proj1 HG) Ht) as (Et & _). destruct (sread_shape _ _ (proj1 HG) Hs) as (Es & _).
  exists t, s. conj; congruence.
Qed.

(** The transfer kernel of a history. *)
Theorem c93_transfer S d lo hi np p nm nte L h : linear_solver S ->
  laser_init d lo hi np p nm nte = Ok L -> Forall linear_op h -> clean S L h ->
  exists n0 n1 nt m0 m1 T, (d = Rt -> mode_diagonal T) /\
    forall tau p' L', p_omega0 p' = p_omega0 p -> laser_init d (later tau lo) (later tau hi) np p' nm nte = Ok L' ->
      clean S L' h /\ outcomes S L' h = outcomes S L h /\
      axes_later tau (g_axes (l_grid (lrun S L h))) (g_axes (l_grid (lrun S L' h))) /\
      exists s s', snd (get_spectral_field (l_grid L')) = Ok s /\ shp s = [n0; n1; nt] /\
        snd (get_spectral_field (l_grid (lrun S L' h))) = Ok s' /\ shp s' = [m0; m1; nt] /\
        forall i j k, (i < m0)%nat -> (j < m1)%nat -> (k < nt)%nat -> at3 s' i j k = kapply n0 n1 T (at3 s) i j k.
Proof.
  intros HS H Hl Hc.
  destruct (laser_init_Inv _ _ _ _ _ _ _ _ H) as (g & n0 & n1 & nt & A1 & A2 & A3 & A4 & A5 & A6 & A7 & A8 & A9 & A10).
  destruct (lti_run S h HS Hl L n0 n1 nt A10 Hc) as (m0 & m1 & T & HT & HR).
  exists n0, n1, nt, m0, m1, T. split; [intros Ed; apply HT; congruence|].
  intros tau p' L' Hw H'. pose proof (init_par _ _ _ _ _ _ _ _ _ _ _ _ _ _ H H' Hw A10) as HP.
  destruct (HR _ L' HP) as (R1 & R2 & R3 & R4). split; [exact R3|]. split; [exact R2|]. split; [exact (Par_axes _ _ _ _ _ _ _ R1 eq_refl)|].
  destruct (Inv_reads _ _ _ _ (pa_inv' _ _ _ _ _ _ HP)) as (t & s & _ & _ & Hs & Es).
  destruct (Inv_reads _ _ _ _ (pa_inv' _ _ _ _ _ _ R1)) as (t' & s' & _ & _ & Hs' & Es').
  exists s, s'. conj; try assumption. intros i j k Hi Hj Hk. apply (R4 s s' Hs Hs'); assumption.
Qed.

(** Parallel reads: temporal from spectral. *)
Lemma spectral_zero_like K n0 n1 nt a s i j k : Inv K n0 n1 nt -> tread (l_grid K) = Ok a -> sread (l_grid K) = Ok s ->
  (i < n0)%nat -> (j < n1)%nat -> (k < nt)%nat ->
  at3 a i j k = fft1 nt (fun q => at3 s i j q) k /\ at3 s i j k = ifft1 nt (fun q => at3 a i j q) k.
Proof.
  intros HK Ha Hs Hi Hj Hk. pose proof (i_coh _ _ _ _ HK) as HG. pose proof (gs_shape _ _ _ _ _ (i_shape _ _ _ _ HK)) as Hsh.
  destruct (tread_shape _ _ (proj1 HG) Ha) as (Ea & _). destruct (sread_shape _ _ (proj1 HG) Hs) as (Es & _). rewrite Hsh in Ea, Es.
  destruct (reads_dft _ _ _ HG Ha Hs) as (_ & _ & F1). destruct (reads_idft _ _ _ HG Ha Hs) as (_ & _ & F2).
  assert (B : forall q, shp q = [n0; n1; nt] -> inb q i j k).
  { intros q Hq. unfold inb, dim0, dim1, dim2. rewrite Hq. simpl. auto. }
  rewrite (F1 i j k (B _ Ea)), (F2 i j k (B _ Es)). cbn [np_fft_last np_ifft_last at3]. unfold dim2. rewrite Ea, Es. split; reflexivity.
Qed.

(** The field a constructor stores, when no energy is requested. *)
Definition init_arr (d : pydim) (g : grid) (p : profile) (nm : Z) (nte : option Z) : ndarray :=
  match d with
  | Rt => take_modes (np_ifft_first (sample_rt g p (Z.to_nat (match nte with None => (2 * nm - 1)%Z | Some n => n end)))) nm
  | _ => sample_xyt g p
  end.
Lemma no_energy_id p : p_energy p = None -> no_energy p = p.
Proof. destruct p; simpl; intros ->; reflexivity. Qed.
Lemma init_field d lo hi np p nm nte L : laser_init d lo hi np p nm nte = Ok L -> p_energy p = None ->
  exists g, grid_init d lo hi np (Some nm) true = Ok g /\ tread (l_grid L) = Ok (init_arr d g p nm nte).
Proof.
  intros H HE. rewrite <- (no_energy_id p HE) in H. destruct d.
  - destruct (laser_init_rt_raw _ _ _ _ _ _ _ H) as (g & n1 & nt & N & A1 & _ & A3 & _ & _ & _ & _ & A8 & _).
    exists g. split; [exact A1|]. rewrite A8, A3. reflexivity.
  - destruct (laser_init_xyt_raw _ _ _ _ _ _ _ H) as (g & n0 & n1 & nt & A1 & _ & _ & _ & _ & _ & _ & A8 & _).
    exists g. split; [exact A1|]. exact A8.
  - discriminate.
Qed.
(** ... is a linear functional of the profile, evaluated on the axes. *)
Definition init_lin (d : pydim) (g : grid) (nm : Z) (nte : option Z) (f : R -> R -> R -> C) (i j k : nat) : C :=
  match d with
  | Rt =>
      let N := Z.to_nat (match nte with None => (2 * nm - 1)%Z | Some n => n end) in
      let n1 := Nat.min (Z.to_nat nm) N in
      let i' := if Nat.ltb i n1 then i else (py_slice_start N (- nm + 1) + (i - n1))%nat in
      ifft1 N (fun a => f (axis_at g 0 j * cos (2 * PI / INR N * INR a)) (axis_at g 0 j * sin (2 * PI / INR N * INR a)) (axis_at g 1 k)) i'
  | _ => f (axis_at g 0 i) (axis_at g 1 j) (axis_at g 2 k)
  end.
Lemma init_arr_lin d g p nm nte i j k : at3 (init_arr d g p nm nte) i j k = init_lin d g nm nte (p_eval p) i j k.
Proof.
  unfold init_arr, init_lin. destruct d; [|reflexivity|reflexivity].
  unfold take_modes. cbn [at3]. unfold dim0. cbn [np_ifft_first sample_rt shp at3 nth].
  destruct (Nat.ltb i _); reflexivity.
Qed.
Lemma init_lin_comb d g nm nte a b f f1 f2 i j k :
  (forall x y t, f x y t = Cplus (Cmult a (f1 x y t)) (Cmult b (f2 x y t))) ->
  init_lin d g nm nte f i j k = Cplus (Cmult a (init_lin d g nm nte f1 i j k)) (Cmult b (init_lin d g nm nte f2 i j k)).
Proof.
  intros H. unfold init_lin. destruct d; [|apply H|apply H]. cbn zeta.
  rewrite <- !ifft1_scal, <- ifft1_plus. apply ifft1_ext. intros q _. apply H.
Qed.
Lemma init_lin_later d g g' nm nte tau f f' n0 n1 nt i j k : d <> OtherDim -> GShape d g n0 n1 nt ->
  same_meta (shift_domain g (tau * c_light)) g' -> (k < nt)%nat ->
  (forall x y t, f' x y t = f x y (t - tau)) -> init_lin d g' nm nte f' i j k = init_lin d g nm nte f i j k.
Proof.
  intros Hd GS HM Hk H.
  assert (Hax : g_axes g' = set_last (g_axes g) (map (fun t => t + tau) (time_axis g))).
  { destruct HM as (_ & _ & _ & Z & _). rewrite Z. cbn [shift_domain with_domain g_axes]. rewrite shift_axis. reflexivity. }
  pose proof (gs_axes _ _ _ _ _ GS) as La. pose proof (gs_tax _ _ _ _ _ GS) as Lt.
  assert (Hlast : axis_at g' (ndims_of d - 1) k = axis_at g (ndims_of d - 1) k + tau).
  { unfold axis_at. rewrite Hax. set (l2 := map (fun t => t + tau) (time_axis g)).
    replace (nth (ndims_of d - 1) (set_last (g_axes g) l2) []) with (nth (length (set_last (g_axes g) l2) - 1) (set_last (g_axes g) l2) []).
    - rewrite <- last_nth, set_last_last. unfold l2. rewrite <- La, <- last_nth. change (last (g_axes g) []) with (time_axis g).
      unfold vget. rewrite (nth_indep _ 0 (0 + tau)) by (rewrite map_length; lia). apply (map_nth (fun t => t + tau)).
    - rewrite set_last_length by (rewrite La; destruct d; simpl; lia). rewrite La. reflexivity. }
  assert (Hq : forall q u, (S q < ndims_of d)%nat -> axis_at g' q u = axis_at g q u).
  { intros q u Hq. unfold axis_at. rewrite Hax, set_last_nth by (rewrite La; exact Hq). reflexivity. }
  unfold init_lin. destruct d; simpl ndims_of in *; simpl in Hlast; [| |congruence].
  - cbn zeta. apply ifft1_ext. intros q _. rewrite H, (Hq 0%nat j) by lia. rewrite Hlast. f_equal. ring.
  - rewrite H, (Hq 0%nat i), (Hq 1%nat j) by lia. rewrite Hlast. f_equal. ring.
Qed.


(** The three lasers of a superposition, after the same calls. *)
Theorem c93_superposition S d lo hi np p q r nm nte Lp Lq Lr (a b : C) h : linear_solver S ->
  p_energy p = None -> p_energy q = None -> p_energy r = None ->
  p_omega0 q = p_omega0 p -> p_omega0 r = p_omega0 p ->
  (forall x y t, p_eval r x y t = Cplus (Cmult a (p_eval p x y t)) (Cmult b (p_eval q x y t))) ->
  laser_init d lo hi np p nm nte = Ok Lp -> laser_init d lo hi np q nm nte = Ok Lq -> laser_init d lo hi np r nm nte = Ok Lr ->
  Forall linear_op h -> clean S Lp h ->
  outcomes S Lq h = outcomes S Lp h /\ outcomes S Lr h = outcomes S Lp h /\
  g_axes (l_grid (lrun S Lq h)) = g_axes (l_grid (lrun S Lp h)) /\ g_axes (l_grid (lrun S Lr h)) = g_axes (l_grid (lrun S Lp h)) /\
  exists m0 m1 nt fp fq fr,
    snd (get_temporal_field (l_grid (lrun S Lp h))) = Ok fp /\ shp fp = [m0; m1; nt] /\
    snd (get_temporal_field (l_grid (lrun S Lq h))) = Ok fq /\ shp fq = [m0; m1; nt] /\
    snd (get_temporal_field (l_grid (lrun S Lr h))) = Ok fr /\ shp fr = [m0; m1; nt] /\
    forall i j k, (i < m0)%nat -> (j < m1)%nat -> (k < nt)%nat ->
      at3 fr i j k = Cplus (Cmult a (at3 fp i j k)) (Cmult b (at3 fq i j k)).
Proof.
  intros HS Ep Eq Er Wq Wr Hev Hp Hq Hr Hl Hc.
  destruct (laser_init_Inv _ _ _ _ _ _ _ _ Hp) as (g & n0 & n1 & nt & A1 & _ & _ & _ & _ & _ & _ & _ & A9 & A10).
  destruct (lti_run S h HS Hl Lp n0 n1 nt A10 Hc) as (m0 & m1 & T & _ & HR).
  assert (Hdim : length lo = ndims_of d /\ length hi = ndims_of d).
  { assert (Hex : exists g, grid_init d lo hi np (Some nm) true = Ok g) by eauto. apply grid_init_ok_iff in Hex. tauto. }
  assert (Hne : lo <> [] /\ hi <> []).
  { destruct (ndims_S d) as (n & Hn). rewrite Hn in Hdim. destruct Hdim as (X & Y). split; intros Z; rewrite Z in *; discriminate. }
  destruct Hne as (N1 & N2).
  assert (HPar : forall p' L', p_energy p' = None -> p_omega0 p' = p_omega0 p -> laser_init d lo hi np p' nm nte = Ok L' ->
     exists t s t' s', Par 0 Lp L' n0 n1 nt /\ Par 0 (lrun S Lp h) (lrun S L' h) m0 m1 nt /\ outcomes S L' h = outcomes S Lp h /\
       tread (l_grid L') = Ok t /\ sread (l_grid L') = Ok s /\ tread (l_grid (lrun S L' h)) = Ok t' /\ shp t' = [m0; m1; nt] /\ sread (l_grid (lrun S L' h)) = Ok s' /\
       (forall i j k, at3 t i j k = init_lin d g nm nte (p_eval p') i j k) /\
       (forall i j k, (i < m0)%nat -> (j < m1)%nat -> (k < nt)%nat -> at3 s' i j k = kapply n0 n1 T (at3 s) i j k)).
  { intros p' L' He Hw H'. pose proof H' as H0. rewrite <- (later_0 lo N1), <- (later_0 hi N2) in H'.
    pose proof (init_par _ _ _ _ _ _ _ _ _ _ _ _ _ _ Hp H' Hw A10) as HP. rewrite Rmult_0_l in HP.
    destruct (HR _ L' HP) as (R1 & R2 & R3 & R4).
    destruct (Inv_reads _ _ _ _ (pa_inv' _ _ _ _ _ _ HP)) as (t & s & Ht & Et & Hs & Es).
    destruct (Inv_reads _ _ _ _ (pa_inv' _ _ _ _ _ _ R1)) as (t' & s' & Ht' & Et' & Hs' & Es').
    exists t, s, t', s'. conj; try assumption.
    - destruct (init_field _ _ _ _ _ _ _ _ H0 He) as (g2 & G1 & G2). rewrite A1 in G1. injection G1 as <-.
      rewrite Ht in G2. injection G2 as ->. intros i j k. apply init_arr_lin.
    - intros i j k Hi Hj Hk. apply (R4 s s' Hs Hs'); assumption. }
  destruct (HPar p Lp Ep eq_refl Hp) as (tp & sp & tp' & sp' & P1 & P2 & P3 & P4 & P5 & P6 & P7 & P8 & P9 & P10).
  destruct (HPar q Lq Eq Wq Hq) as (tq & sq & tq' & sq' & Q1 & Q2 & Q3 & Q4 & Q5 & Q6 & Q7 & Q8 & Q9 & Q10).
  destruct (HPar r Lr Er Wr Hr) as (tr & sr & tr' & sr' & R1 & R2 & R3 & R4 & R5 & R6 & R7 & R8 & R9 & R10).
  split; [exact Q3|]. split; [exact R3|].
  assert (Hax : forall L', Par 0 (lrun S Lp h) L' m0 m1 nt -> g_axes (l_grid L') = g_axes (l_grid (lrun S Lp h))).
  { intros L' HP. destruct (pa_meta _ _ _ _ _ _ HP) as (_ & _ & _ & Z & _). rewrite Z.
    rewrite (shift_0 _ _ _ _ _ (i_shape _ _ _ _ (pa_inv _ _ _ _ _ _ HP))). reflexivity. }
  split; [exact (Hax _ Q2)|]. split; [exact (Hax _ R2)|].
  exists m0, m1, nt, tp', tq', tr'. conj; try assumption.
  intros i j k Hi Hj Hk.
  destruct (spectral_zero_like _ _ _ _ _ _ i j k (pa_inv' _ _ _ _ _ _ P2) P6 P8 Hi Hj Hk) as (-> & _).
  destruct (spectral_zero_like _ _ _ _ _ _ i j k (pa_inv' _ _ _ _ _ _ Q2) Q6 Q8 Hi Hj Hk) as (-> & _).
  destruct (spectral_zero_like _ _ _ _ _ _ i j k (pa_inv' _ _ _ _ _ _ R2) R6 R8 Hi Hj Hk) as (-> & _).
  rewrite <- !fft1_scal, <- fft1_plus. apply fft1_ext. intros u Hu.
  rewrite P10, Q10, R10 by assumption. rewrite <- kapply_lin. apply kapply_ext. intros i' j' Hi' Hj'.
  destruct (spectral_zero_like _ _ _ _ _ _ i' j' u (pa_inv' _ _ _ _ _ _ P1) P4 P5 Hi' Hj' Hu) as (_ & ->).
  destruct (spectral_zero_like _ _ _ _ _ _ i' j' u (pa_inv' _ _ _ _ _ _ Q1) Q4 Q5 Hi' Hj' Hu) as (_ & ->).
  destruct (spectral_zero_like _ _ _ _ _ _ i' j' u (pa_inv' _ _ _ _ _ _ R1) R4 R5 Hi' Hj' Hu) as (_ & ->).
  rewrite <- !ifft1_scal, <- ifft1_plus. apply ifft1_ext. intros v Hv. rewrite P9, Q9, R9. apply init_lin_comb, Hev.
Qed.

(** ** Time origin: profiles delayed by tau on a window delayed by tau *)
Lemma energy_later d g g' n0 n1 nt tau a a' : GShape d g n0 n1 nt -> (d = Rt \/ d = Xyt) -> same_meta (shift_domain g (tau * c_light)) g' ->
  shp a' = shp a -> (forall i j k, inb a i j k -> at3 a' i j k = at3 a i j k) -> energy_of d g' a' = energy_of d g a.
Proof.
  intros GS Hd HM Hs He. rewrite (energy_of_meta d _ _ _ HM). rewrite !energy_of_eq.
  change (g_isenv (shift_domain g (tau * c_light))) with (g_isenv g). unfold dim0, dim1, dim2. rewrite Hs. f_equal.
  assert (Hc : forall j, cell_volume d (shift_domain g (tau * c_light)) j = cell_volume d g j).
  { intros j. destruct Hd as [-> | ->]; unfold cell_volume; [|reflexivity].
    unfold cell_volume_rt. cbn [shift_domain with_domain g_axes g_dx].
    rewrite set_last_nth; [reflexivity|]. rewrite (gs_axes _ _ _ _ _ GS). simpl. lia. }
  apply rsum3_ext. intros i j k Hi Hj Hk. rewrite He by (unfold inb, dim0, dim1, dim2; auto). rewrite Hc. reflexivity.
Qed.
Definition norm_fac (req : option (option R)) (e : R) : R :=
  match req with Some (Some E) => if Reqb e 0 then 1 else sqrt (E / e) | _ => 1 end.
Lemma init_normalize_fac L L' a : Wf (l_grid L) -> tread (l_grid L) = Ok a -> init_normalize L = Ok L' ->
  exists b, tread (l_grid L') = Ok b /\ forall i j k, at3 b i j k = Cmult (RtoC (norm_fac (p_energy (l_prof L)) (energy_of (l_dim L) (l_grid L) a))) (at3 a i j k).
Proof.
  intros HW Ha. unfold init_normalize, norm_fac. destruct (p_energy (l_prof L)) as [[E|]|].
  - unfold normalize_energy. destruct (compute_energy_eq (l_dim L) (l_grid L) a Ha) as (C1 & C2). rewrite C1, C2.
    destruct (Reqb (energy_of (l_dim L) (l_grid L) a) 0).
    + cbn [fst snd]. intros [= <-]. exists a. cbn [l_grid set_grid]. rewrite tread_get_t. split; [exact Ha|]. intros; ring.
    + pose proof (tread_get_t (l_grid L)) as HT. rewrite Ha in HT.
      destruct (rescale (fst (get_temporal_field (l_grid L))) a (sqrt (E / energy_of (l_dim L) (l_grid L) a)) (get_t_Wf _ HW) HT) as (R1 & R2 & R3 & R4).
      unfold tread in HT. rewrite HT. rewrite R1. intros [= <-]. cbn [l_grid set_grid]. eexists. split; [exact R4|]. intros; reflexivity.
  - cbn [normalize_energy fst snd]. intros [= <-]. exists a. split; [exact Ha|]. intros; ring.
  - intros [= <-]. exists a. split; [exact Ha|]. intros; ring.
Qed.

Lemma init_arr_no_energy d g p nm nte : init_arr d g (no_energy p) nm nte = init_arr d g p nm nte.
Proof. destruct d; reflexivity. Qed.
Lemma init_field_full d lo hi np p nm nte L : laser_init d lo hi np p nm nte = Ok L ->
  exists g b, grid_init d lo hi np (Some nm) true = Ok g /\ tread (l_grid L) = Ok b /\ shp (init_arr d g p nm nte) = g_shape g /\
    forall i j k, at3 b i j k = Cmult (RtoC (norm_fac (p_energy p) (energy_of d g (init_arr d g p nm nte)))) (at3 (init_arr d g p nm nte) i j k).
Proof.
  intros H. rewrite laser_init_split in H. destruct (laser_init d lo hi np (no_energy p) nm nte) as [L0|e] eqn:E0; [|discriminate].
  cbn [bind] in H. destruct (init_field _ _ _ _ _ _ _ _ E0 eq_refl) as (g & G1 & G2). rewrite init_arr_no_energy in G2.
  destruct (laser_init_Inv _ _ _ _ _ _ _ _ E0) as (g2 & n0 & n1 & nt & A1 & A2 & A3 & A4 & A5 & A6 & A7 & A8 & A9 & A10).
  rewrite G1 in A1. injection A1 as <-.
  set (L1 := mkLaser (l_dim L0) (l_grid L0) p (l_iter L0) (l_omega L0) (l_prop L0)) in *.
  pose proof (proj1 (i_coh _ _ _ _ A10)) as HW.
  destruct (init_normalize_fac L1 L (init_arr d g p nm nte)) as (b & B1 & B2); [exact HW|exact G2|exact H|].
  exists g, b. conj; [exact G1|exact B1| |].
  - destruct (tread_shape _ _ HW G2) as (E & _). rewrite E. symmetry. destruct A2 as (_ & _ & _ & _ & _ & _ & _ & Z & _). symmetry; exact Z.
  - intros i j k. rewrite B2. cbn [l_dim l_grid l_prof L1]. rewrite A3, (energy_of_meta d g _ _ A2). reflexivity.
Qed.

Theorem c93_time_origin S d lo hi np p p' nm nte tau L L' h : linear_solver S ->
  p_omega0 p' = p_omega0 p -> p_energy p' = p_energy p ->
  (forall x y t, p_eval p' x y t = p_eval p x y (t - tau)) ->
  laser_init d lo hi np p nm nte = Ok L -> laser_init d (later tau lo) (later tau hi) np p' nm nte = Ok L' ->
  Forall linear_op h -> clean S L h ->
  outcomes S L' h = outcomes S L h /\
  axes_later tau (g_axes (l_grid (lrun S L h))) (g_axes (l_grid (lrun S L' h))) /\
  exists m0 m1 nt f f',
    snd (get_temporal_field (l_grid (lrun S L h))) = Ok f /\ shp f = [m0; m1; nt] /\
    snd (get_temporal_field (l_grid (lrun S L' h))) = Ok f' /\ shp f' = [m0; m1; nt] /\
    forall i j k, (i < m0)%nat -> (j < m1)%nat -> (k < nt)%nat -> at3 f' i j k = at3 f i j k.
Proof.
  intros HS Hw HE Hev H H' Hl Hc.
  destruct (laser_init_Inv _ _ _ _ _ _ _ _ H) as (g & n0 & n1 & nt & A1 & _ & A3 & _ & _ & _ & _ & _ & A9 & A10).
  destruct (lti_run S h HS Hl L n0 n1 nt A10 Hc) as (m0 & m1 & T & _ & HR).
  pose proof (init_par _ _ _ _ _ _ _ _ _ _ _ _ _ _ H H' Hw A10) as HP.
  destruct (HR _ _ (Par_refl _ _ _ _ A10)) as (Q1 & Q2 & Q3 & Q4).
  destruct (HR _ _ HP) as (R1 & R2 & R3 & R4).
  split; [exact R2|]. split; [exact (Par_axes _ _ _ _ _ _ _ R1 eq_refl)|].
  destruct (Inv_reads _ _ _ _ A10) as (t0 & s0 & Ht0 & Et0 & Hs0 & Es0).
  destruct (Inv_reads _ _ _ _ (pa_inv' _ _ _ _ _ _ HP)) as (t0' & s0' & Ht0' & Et0' & Hs0' & Es0').
  destruct (Inv_reads _ _ _ _ (pa_inv _ _ _ _ _ _ R1)) as (t & s & Ht & Et & Hs & Es).
  destruct (Inv_reads _ _ _ _ (pa_inv' _ _ _ _ _ _ R1)) as (t' & s' & Ht' & Et' & Hs' & Es').
  exists m0, m1, nt, t, t'. conj; try assumption.
  (* the initial fields agree *)
  destruct (init_field_full _ _ _ _ _ _ _ _ H) as (g1 & b & G1 & G2 & G3 & G4). rewrite A1 in G1. injection G1 as <-.
  destruct (init_field_full _ _ _ _ _ _ _ _ H') as (g' & b' & G1' & G2' & G3' & G4').
  rewrite Ht0 in G2. injection G2 as <-. rewrite Ht0' in G2'. injection G2' as <-.
  pose proof (grid_init_later _ _ _ _ _ _ _ _ A1 G1') as HM.
  assert (Hd : d = Rt \/ d = Xyt) by (rewrite <- A3; apply (i_dim _ _ _ _ A10)).
  assert (Hd2 : d <> OtherDim) by (destruct Hd; congruence).
  assert (Hsh : g_shape g' = g_shape g) by (destruct HM as (_ & _ & _ & _ & _ & _ & _ & Z & _); exact Z).
  assert (Harr : forall i j k, (k < nt)%nat -> at3 (init_arr d g' p' nm nte) i j k = at3 (init_arr d g p nm nte) i j k).
  { intros i j k Hk. rewrite !init_arr_lin. eapply init_lin_later; eassumption. }
  assert (Hen : energy_of d g' (init_arr d g' p' nm nte) = energy_of d g (init_arr d g p nm nte)).
  { eapply energy_later; [exact A9|exact Hd|exact HM|congruence|]. intros i j k (_ & _ & Hk). apply Harr.
    unfold dim2 in Hk. rewrite G3, (gs_shape _ _ _ _ _ A9) in Hk. exact Hk. }
  assert (H0 : forall i j k, (k < nt)%nat -> at3 t0' i j k = at3 t0 i j k).
  { intros i j k Hk. rewrite G4, G4', Hen, HE, Harr by exact Hk. reflexivity. }
  intros i j k Hi Hj Hk.
  destruct (spectral_zero_like _ _ _ _ _ _ i j k (pa_inv _ _ _ _ _ _ R1) Ht Hs Hi Hj Hk) as (-> & _).
  destruct (spectral_zero_like _ _ _ _ _ _ i j k (pa_inv' _ _ _ _ _ _ R1) Ht' Hs' Hi Hj Hk) as (-> & _).
  apply fft1_ext. intros u Hu. rewrite (Q4 s0 s Hs0 Hs), (R4 s0' s' Hs0' Hs') by assumption.
  apply kapply_ext. intros i' j' Hi' Hj'.
  destruct (spectral_zero_like _ _ _ _ _ _ i' j' u A10 Ht0 Hs0 Hi' Hj' Hu) as (_ & ->).
  destruct (spectral_zero_like _ _ _ _ _ _ i' j' u (pa_inv' _ _ _ _ _ _ HP) Ht0' Hs0' Hi' Hj' Hu) as (_ & ->).
  apply ifft1_ext. intros v Hv. apply H0, Hv.
Qed.

(** ** No frequency and no azimuthal mode is created *)
Theorem c93_selection S d lo hi np p nm nte L h : linear_solver S ->
  laser_init d lo hi np p nm nte = Ok L -> Forall linear_op h -> clean S L h ->
  exists n0 n1 nt m0 m1 s s',
    snd (get_spectral_field (l_grid L)) = Ok s /\ shp s = [n0; n1; nt] /\
    snd (get_spectral_field (l_grid (lrun S L h))) = Ok s' /\ shp s' = [m0; m1; nt] /\
    (forall k, (k < nt)%nat -> (forall i j, (i < n0)%nat -> (j < n1)%nat -> at3 s i j k = RtoC 0) ->
       forall i j, (i < m0)%nat -> (j < m1)%nat -> at3 s' i j k = RtoC 0) /\
    (d = Rt -> forall i k, (i < m0)%nat -> (k < nt)%nat -> (forall j, (j < n1)%nat -> at3 s i j k = RtoC 0) ->
       forall j, (j < m1)%nat -> at3 s' i j k = RtoC 0).
Proof.
  intros HS H Hl Hc.
  destruct (laser_init_Inv _ _ _ _ _ _ _ _ H) as (g & n0 & n1 & nt & A1 & A2 & A3 & A4 & A5 & A6 & A7 & A8 & A9 & A10).
  destruct (lti_run S h HS Hl L n0 n1 nt A10 Hc) as (m0 & m1 & T & HT & HR).
  destruct (HR _ _ (Par_refl _ _ _ _ A10)) as (R1 & R2 & R3 & R4).
  destruct (Inv_reads _ _ _ _ A10) as (t & s & _ & _ & Hs & Es).
  destruct (Inv_reads _ _ _ _ (pa_inv _ _ _ _ _ _ R1)) as (t' & s' & _ & _ & Hs' & Es').
  exists n0, n1, nt, m0, m1, s, s'. conj; try assumption.
  - intros k Hk Hz i j Hi Hj. rewrite (R4 s s' Hs Hs') by assumption. unfold kapply.
    apply csum_zero; intros i' Hi'. apply csum_zero; intros j' Hj'. rewrite Hz by assumption. ring.
  - intros Ed i k Hi Hk Hz j Hj. rewrite (R4 s s' Hs Hs') by assumption. unfold kapply.
    apply csum_zero; intros i' Hi'. apply csum_zero; intros j' Hj'. destruct (Nat.eq_dec i i') as [<-|N].
    + rewrite Hz by assumption. ring.
    + rewrite (HT ltac:(congruence)) by exact N. ring.
Qed.
