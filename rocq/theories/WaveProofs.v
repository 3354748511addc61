(** Proofs for C91, Cartesian part. *)
From Coquelicot Require Import Coquelicot.
From Verif Require Import PyBase CSum NpFFT FFTProofs NumPy GridModel GridSpec GridProofs LaserSpec GridObs
  EnergyModel EnergyProofs AngularProofs LaserModel OpticsModel LaserOps LaserInv LaserInitProofs LaserStepProofs
  PropagateProofs HistoryProofs OpticsProofs OpticsProofs2 SolverSpec PropLaws DelayProofs WaveSpec.
Open Scope R_scope.

(** ** Sums over lists *)
Lemma lsum_cons {A} (a : A) l f : lsum (a :: l) f = Cplus (f a) (lsum l f). Proof. reflexivity. Qed.
Lemma lsum_ext {A} (l : list A) f g : (forall a, In a l -> f a = g a) -> lsum l f = lsum l g.
Proof.
  induction l as [|a l IH]; intros H; [reflexivity|]. rewrite !lsum_cons, (H a) by (left; reflexivity).
  rewrite IH; [reflexivity|]. intros b Hb. apply H. right; exact Hb.
Qed.
Lemma lsum_mul_r {A} (l : list A) f z : Cmult (lsum l f) z = lsum l (fun a => Cmult (f a) z).
Proof. induction l as [|a l IH]; [unfold lsum; cbn [fold_right app]; ring|]. rewrite !lsum_cons, <- IH. ring. Qed.
Lemma lsum_mul_l {A} (l : list A) f z : Cmult z (lsum l f) = lsum l (fun a => Cmult z (f a)).
Proof. induction l as [|a l IH]; [unfold lsum; cbn [fold_right app]; ring|]. rewrite !lsum_cons, <- IH. ring. Qed.
Lemma lsum_map {A B} (h : A -> B) l f : lsum (map h l) f = lsum l (fun a => f (h a)).
Proof. induction l as [|a l IH]; [reflexivity|]. cbn [map]. rewrite !lsum_cons, IH. reflexivity. Qed.
Lemma lsum_app {A} (l l' : list A) f : lsum (l ++ l') f = Cplus (lsum l f) (lsum l' f).
Proof. induction l as [|a l IH]; [unfold lsum; cbn [fold_right app]; ring|]. cbn [app]. rewrite !lsum_cons, IH. ring. Qed.
Lemma lsum_zero {A} (l : list A) f : (forall a, In a l -> f a = RtoC 0) -> lsum l f = RtoC 0.
Proof.
  induction l as [|a l IH]; intros H; [reflexivity|]. rewrite lsum_cons, (H a) by (left; reflexivity).
  rewrite IH by (intros b Hb; apply H; right; exact Hb). ring.
Qed.
Lemma lsum_csum {A} n (l : list A) (f : nat -> A -> C) : csum n (fun q => lsum l (f q)) = lsum l (fun a => csum n (fun q => f q a)).
Proof.
  induction l as [|a l IH]; [apply csum_0|]. rewrite lsum_cons, <- IH, <- csum_plus. reflexivity.
Qed.
Lemma lsum_filter {A} (c : A -> bool) l f : lsum (filter c l) f = lsum l (fun a => if c a then f a else RtoC 0).
Proof.
  induction l as [|a l IH]; [reflexivity|]. cbn [filter]. rewrite lsum_cons, <- IH. destruct (c a); [reflexivity|ring].
Qed.

(** ** Spectral lines *)
Section Lines.
Context {A : Type} (N : nat) (dt t0 : R) (qi : A -> nat) (l : list A).
Hypothesis Hdt : dt <> 0.
Hypothesis Hq : forall v, In v l -> (qi v < N)%nat.
Lemma line_cis q k : (q < N)%nat -> cis (- (dft_omega N dt q * (INR k * dt))) = cis (- (2 * PI * (INR q * INR k) / INR N)).
Proof.
  intros H. replace (- (dft_omega N dt q * (INR k * dt))) with (dft_omega N dt q * (IZR (- Z.of_nat k) * dt)) by (rewrite opp_IZR, <- INR_IZR_INZ; ring).
  rewrite (dft_cis N dt q _ Hdt H). f_equal. rewrite opp_IZR, <- INR_IZR_INZ. unfold Rdiv. ring.
Qed.
Lemma fft_lines (D : A -> C) k :
  fft1 N (fun q => lsum (filter (fun v => Nat.eqb (qi v) q) l) D) k =
  lsum l (fun v => Cmult (D v) (cis (- (dft_omega N dt (qi v) * (INR k * dt))))).
Proof.
  unfold fft1.
  rewrite (csum_ext _ _ (fun q => lsum l (fun v => Cmult (if Nat.eqb (qi v) q then D v else RtoC 0) (cis (- (2 * PI * (INR q * INR k) / INR N)))))).
  2:{ intros q _. rewrite lsum_filter, lsum_mul_r. reflexivity. }
  rewrite lsum_csum. apply lsum_ext. intros v Hv.
  rewrite (csum_single N _ (qi v) (Hq v Hv)).
  - rewrite Nat.eqb_refl. rewrite (line_cis _ _ (Hq v Hv)). reflexivity.
  - intros q _ Hne. rewrite (proj2 (Nat.eqb_neq (qi v) q)) by (intros E; apply Hne; symmetry; exact E). ring.
Qed.
Lemma ifft_lines (B : A -> C) (x : nat -> C) r : (r < N)%nat ->
  (forall k, (k < N)%nat -> x k = lsum l (fun v => Cmult (B v) (cis (- (dft_omega N dt (qi v) * (t0 + INR k * dt)))))) ->
  ifft1 N x r = lsum (filter (fun v => Nat.eqb (qi v) r) l) (fun v => Cmult (B v) (cis (- (dft_omega N dt (qi v) * t0)))).
Proof.
  intros Hr Hx. rewrite (ifft1_ext N x (fft1 N (fun q => lsum (filter (fun v => Nat.eqb (qi v) q) l) (fun v => Cmult (B v) (cis (- (dft_omega N dt (qi v) * t0))))))).
  - apply ifft_fft1, Hr.
  - intros k Hk. rewrite (Hx k Hk), fft_lines. apply lsum_ext. intros v _.
    replace (- (dft_omega N dt (qi v) * (t0 + INR k * dt))) with (- (dft_omega N dt (qi v) * t0) + - (dft_omega N dt (qi v) * (INR k * dt))) by ring.
    rewrite cis_plus. ring.
Qed.
End Lines.

(** Choosing the index of each wave. *)
Lemma index_waves {A} (P : A -> nat -> Prop) l : Forall (fun v => exists q, P v q) l ->
  exists l', map fst l' = l /\ forall v, In v l' -> P (fst v) (snd v).
Proof.
  induction 1 as [|v l (q & Hq) _ (l' & E & H)]; [exists []; split; [reflexivity|intros ? []]|].
  exists ((v, q) :: l'). split; [cbn; rewrite E; reflexivity|]. intros w [<-|Hw]; [exact Hq|apply H, Hw].
Qed.

Lemma reachable_xyt_axes S L : reachable S L -> l_dim L = Xyt -> forall q, (q < 3)%nat ->
  (2 <= axis_points L q)%nat /\
  forall i, (i < axis_points L q)%nat -> nth i (nth q (g_axes (l_grid L)) []) 0 = nth q (g_lo (l_grid L)) 0 + INR i * axis_step L q.
Proof.
  intros (d & lo & hi & np & p & nm & nte & L0 & h & Hi & Hu & Hc & ->) Ed q Hq.
  destruct (laser_init_Inv _ _ _ _ _ _ _ _ Hi) as (g & n0 & n1 & nt & Hg & Hm & D1 & D2 & D3 & _ & _ & Hn & GS & HI).
  destruct (run_clean_inv S L0 n0 n1 nt h HI Hu Hc) as (m0 & m1 & HI' & E1 & E2 & E3).
  assert (Hd : d = Xyt) by congruence. subst d. rewrite Hd in *.
  pose proof (window_plain S Xyt lo hi np p nm nte L0 h Hi (or_introl eq_refl)) as W. cbn zeta in W. cbn [ndims_of] in W.
  destruct W as (nt' & Hn' & La & W1 & W2 & W3 & W4 & W5 & W6).
  destruct (proj1 (grid_init_ok_iff Xyt lo hi np (Some nm) true) (ex_intro _ g Hg)) as (_ & _ & _ & G2 & _). cbn [ndims_of] in G2.
  unfold axis_step, axis_points.
  destruct (Nat.eq_dec q 2) as [->|Hne].
  - cbn [Nat.sub] in *. rewrite W3. split.
    + destruct (G2 2%nat Hq) as (n & Hn2 & H2). rewrite Hn' in Hn2. injection Hn2 as <-. exact H2.
    + intros i Hk. destruct (W4 i Hk) as (_ & W). unfold axis_at, vget, coord in W. rewrite W. unfold spacing. reflexivity.
  - destruct (W6 q ltac:(lia)) as (n & Hn2 & W7 & W8 & _ & W9 & W10). rewrite W9. split.
    + destruct (G2 q Hq) as (n' & Hn3 & H2). rewrite Hn2 in Hn3. injection Hn3 as <-. exact H2.
    + intros i Hk. pose proof (W10 i Hk) as W. unfold axis_at, vget, coord in W. rewrite W, W7, W8. unfold spacing. reflexivity.
Qed.

Lemma used_prop_xyt L n0 n1 nt b : Inv L n0 n1 nt -> l_dim L = Xyt -> exists b',
  used_prop L b = PropXyt (build_xyt (l_grid L) (l_omega L) b').
Proof.
  intros HI Ed. unfold used_prop. destruct (i_prop _ _ _ _ HI) as [->|(b' & ->)]; unfold fresh_prop; rewrite Ed; eauto.
Qed.
Lemma vget_map_div l k : (k < length l)%nat -> nth k (map (fun w => w / c_light) l) 0 = vget l k / c_light.
Proof. intros H. unfold vget. rewrite (nth_indep _ 0 (0 / c_light)) by (rewrite map_length; exact H). apply (map_nth (fun w => w / c_light)). Qed.

Lemma reachable_time S L : reachable S L -> exists n0 n1 nt, Inv L n0 n1 nt /\ (2 <= nt)%nat /\
  (forall k, (k < nt)%nat -> nth k (last (g_axes (l_grid L)) []) 0 = nth 0 (last (g_axes (l_grid L)) []) 0 + INR k * time_step L) /\
  (forall k, (k < nt)%nat -> vget (l_omega L) k = p_omega0 (l_prof L) + dft_omega nt (time_step L) k).
Proof.
  intros HR. destruct (reachable_axes S L HR) as (n0 & n1 & nt & t0 & dt & HI & H2 & Hax & Hom). exists n0, n1, nt.
  unfold vget in Hax at 1. unfold time_axis in Hax.
  assert (E0 : nth 0 (last (g_axes (l_grid L)) []) 0 = t0) by (rewrite (Hax 0%nat ltac:(lia)); cbn [INR]; ring).
  assert (E1 : time_step L = dt) by (unfold time_step; rewrite E0, (Hax 1%nat ltac:(lia)); cbn [INR]; ring).
  rewrite E0, E1. split; [exact HI|]. split; [exact H2|]. split; [exact Hax|exact Hom].
Qed.

Lemma last_nth2 {A} (l : list (list A)) n : length l = Datatypes.S n -> last l [] = nth n l [].
Proof. intros H. rewrite last_nth, H. f_equal. lia. Qed.

Lemma nth_map_R (f : R -> R) l k : (k < length l)%nat -> nth k (map f l) 0 = f (nth k l 0).
Proof. intros H. rewrite (nth_indep _ 0 (f 0)) by (rewrite map_length; exact H). apply map_nth. Qed.
Lemma c91_step S L ws z d b : reachable S L -> l_dim L = Xyt -> exact_xyt S ->
  (forall q, (q < 3)%nat -> nth q (g_lo (l_grid L)) 0 < nth q (g_hi (l_grid L)) 0) ->
  Forall (fits_xyt L) ws -> shows_xyt L (plane_waves ws) z ->
  exists L', propagate S L d None None b = (L', Ok tt) /\ shows_xyt L' (plane_waves ws) (z + d) /\
    l_dim L' = Xyt /\ (forall q, (q < 3)%nat -> nth q (g_lo (l_grid L')) 0 < nth q (g_hi (l_grid L')) 0) /\ Forall (fits_xyt L') ws.
Proof.
  intros HR Ed HS Hlh HF (a & Ha & HA).
  destruct (reachable_time S L HR) as (n0 & n1 & nt & HI & H2 & Ht & Hom).
  pose proof (i_coh _ _ _ _ HI) as HG. pose proof (i_shape _ _ _ _ HI) as GS.
  assert (La : length (g_axes (l_grid L)) = 3%nat) by (rewrite (gs_axes _ _ _ _ _ GS), Ed; reflexivity).
  destruct (gs_xyt _ _ _ _ _ GS) as (Lx & Ly); [rewrite Ed; discriminate|].
  pose proof (gs_tax _ _ _ _ _ GS) as Lt. unfold time_axis in Lt.
  assert (Elast : last (g_axes (l_grid L)) [] = nth 2 (g_axes (l_grid L)) []) by (apply last_nth2, La).
  rewrite Elast in *.
  destruct (reachable_xyt_axes S L HR Ed 0%nat ltac:(lia)) as (N0 & Hx). destruct (reachable_xyt_axes S L HR Ed 1%nat ltac:(lia)) as (N1 & Hy).
  destruct (reachable_xyt_axes S L HR Ed 2%nat ltac:(lia)) as (N2 & Ht').
  unfold axis_points in N0, N1, N2, Hx, Hy, Ht'. rewrite Lx in N0, Hx. rewrite Ly in N1, Hy. rewrite Lt in N2, Ht'.
  set (dt := time_step L) in *. set (T0 := nth 0 (nth 2 (g_axes (l_grid L)) []) 0) in *.
  assert (Pdt : 0 < dt).
  { unfold dt, time_step. rewrite Elast. rewrite (Ht' 1%nat ltac:(lia)), (Ht' 0%nat ltac:(lia)). cbn [INR].
    unfold axis_step, axis_points. rewrite Lt. pose proof (spacing_pos _ _ nt H2 (Hlh 2%nat ltac:(lia))). lra. }
  destruct (tread_sread_ok _ _ (proj1 HG) Ha) as (s & Hs).
  pose proof (reads_idft _ _ _ HG Ha Hs) as (S0 & _ & V0). cbn [np_ifft_last shp] in S0.
  assert (Sa : shp a = [n0;n1;nt]) by (destruct (tread_shape _ _ (proj1 HG) Ha) as (-> & _); apply (gs_shape _ _ _ _ _ GS)).
  assert (Ss : shp s = [n0;n1;nt]) by congruence.
  destruct (propagate_plain S L n0 n1 nt d None None b s HI (or_introl Ed) eq_refl Hs) as (g1 & Hp & CG1 & M1 & _ & T1).
  exists (set_grid (set_prop L (Some (used_prop L b))) (shift_domain g1 d)). split; [exact Hp|].
  destruct (index_waves (fun v q => (q < nt)%nat /\ pw_w v - p_omega0 (l_prof L) = dft_omega nt dt q) ws) as (l & El & Hl).
  { revert HF. apply Forall_impl. intros v (_ & _ & (q & Hq & Hw) & _). exists q. unfold axis_points in Hq, Hw. rewrite Lt in Hq, Hw. auto. }
  assert (Hfit : forall v, In v l -> fits_xyt L (fst v)).
  { intros v Hv. rewrite Forall_forall in HF. apply HF. rewrite <- El. apply in_map, Hv. }
  set (w0 := p_omega0 (l_prof L)) in *.
  set (hx := axis_step L 0) in *. set (hy := axis_step L 1) in *.
  set (X0 := nth 0 (g_lo (l_grid L)) 0) in *. set (Y0 := nth 1 (g_lo (l_grid L)) 0) in *.
  assert (Hpw : forall x y z t, plane_waves ws x y z t = lsum l (fun v => Cmult (pw_A (fst v)) (cis (pw_kx (fst v) * x + pw_ky (fst v) * y + pw_kz (fst v) * z - pw_w (fst v) * t)))).
  { intros. unfold plane_waves. rewrite <- El, lsum_map. reflexivity. }
  assert (Henv : forall x y z t, Cmult (plane_waves ws x y z t) (cis (w0 * t)) =
    lsum l (fun v => Cmult (Cmult (pw_A (fst v)) (cis (pw_kx (fst v) * x + pw_ky (fst v) * y + pw_kz (fst v) * z))) (cis (- (dft_omega nt dt (snd v) * t))))).
  { intros x y z' t. rewrite Hpw, lsum_mul_r. apply lsum_ext. intros v Hv. destruct (Hl v Hv) as (_ & Hw).
    rewrite <- Hw, <- !Cmult_assoc, <- !cis_plus. apply f_equal, f_equal. ring. }
  (* the spectral field *)
  assert (Hspec : forall i j r, (i < n0)%nat -> (j < n1)%nat -> (r < nt)%nat -> at3 s i j r =
    lsum (filter (fun v => Nat.eqb (snd v) r) l) (fun v => Cmult (pw_A (fst v))
      (cis (pw_kx (fst v) * (X0 + INR i * hx) + pw_ky (fst v) * (Y0 + INR j * hy) + pw_kz (fst v) * z - dft_omega nt dt (snd v) * T0)))).
  { intros i j r Hi Hj Hr. rewrite V0 by (unfold inb, dim0, dim1, dim2; rewrite Ss; cbn; auto). cbn [np_ifft_last at3]. unfold dim2. rewrite Sa. cbn [nth].
    rewrite (ifft_lines nt dt T0 snd l (Rgt_not_eq _ _ Pdt) (fun v Hv => proj1 (Hl v Hv))
      (fun v => Cmult (pw_A (fst v)) (cis (pw_kx (fst v) * (X0 + INR i * hx) + pw_ky (fst v) * (Y0 + INR j * hy) + pw_kz (fst v) * z))) _ r Hr).
    - apply lsum_ext. intros v _. rewrite <- Cmult_assoc, <- cis_plus. apply f_equal, f_equal. ring.
    - intros k Hk. rewrite HA by (rewrite ?Lx, ?Ly, ?Lt; assumption). cbn zeta. rewrite (Hx i Hi), (Hy j Hj), (Ht k Hk). apply Henv. }
  destruct (used_prop_xyt L n0 n1 nt b HI Ed) as (b' & Hup). rewrite Hup in T1. cbn [stepped] in T1.
  set (p := build_xyt (l_grid L) (l_omega L) b') in *.
  assert (Epk : length (fp_k p) = nt) by (unfold p, build_xyt; cbn [fp_k]; rewrite map_length; apply (i_omega _ _ _ _ HI)).
  assert (Epx : fp_x p = (nth 0 (g_hi (l_grid L)) 0 - X0, n0)).
  { unfold p, build_xyt. cbn [fp_x]. rewrite (gs_shape _ _ _ _ _ GS). reflexivity. }
  assert (Epy : fp_y p = (nth 1 (g_hi (l_grid L)) 0 - Y0, n1)).
  { unfold p, build_xyt. cbn [fp_y]. rewrite (gs_shape _ _ _ _ _ GS). reflexivity. }
  assert (Ekk : forall r, (r < nt)%nat -> nth r (fp_k p) 0 = (w0 + dft_omega nt dt r) / c_light).
  { intros r Hr. unfold p, build_xyt. cbn [fp_k]. rewrite vget_map_div by (rewrite (i_omega _ _ _ _ HI); exact Hr). rewrite (Hom r Hr). reflexivity. }
  assert (Ehx : (nth 0 (g_hi (l_grid L)) 0 - X0) / (INR n0 - 1) = hx) by (unfold hx, axis_step, axis_points; rewrite Lx; reflexivity).
  assert (Ehy : (nth 1 (g_hi (l_grid L)) 0 - Y0) / (INR n1 - 1) = hy) by (unfold hy, axis_step, axis_points; rewrite Ly; reflexivity).
  (* the stepped spectral field *)
  assert (Hstep : forall i j r, (i < n0)%nat -> (j < n1)%nat -> (r < nt)%nat ->
    step_xyt S p (fun kk ii jj => at3 s ii jj kk) d r i j =
    lsum (filter (fun v => Nat.eqb (snd v) r) l) (fun v => Cmult (pw_A (fst v))
      (cis (pw_kx (fst v) * (X0 + INR i * hx) + pw_ky (fst v) * (Y0 + INR j * hy) + pw_kz (fst v) * (z + d) - dft_omega nt dt (snd v) * T0)))).
  { intros i j r Hi Hj Hr.
    set (tw := map (fun v : pwave * nat => (Cmult (pw_A (fst v)) (cis (pw_kx (fst v) * X0 + pw_ky (fst v) * Y0 + pw_kz (fst v) * z - dft_omega nt dt (snd v) * T0)),
       (pw_kx (fst v), pw_ky (fst v)))) (filter (fun v => Nat.eqb (snd v) r) l)).
    assert (Hkz : forall v, In v (filter (fun v => Nat.eqb (snd v) r) l) -> nth r (fp_k p) 0 = pw_w (fst v) / c_light).
    { intros v Hv. apply filter_In in Hv. destruct Hv as (Hv & Hr'). apply Nat.eqb_eq in Hr'. destruct (Hl v Hv) as (_ & Hw).
      rewrite (Ekk r Hr), <- Hr', <- Hw. f_equal. ring. }
    assert (Htw : forall d' i' j', tr_waves (nth r (fp_k p) 0) hx hy tw i' j' d' =
      lsum (filter (fun v => Nat.eqb (snd v) r) l) (fun v => Cmult (pw_A (fst v))
      (cis (pw_kx (fst v) * (X0 + INR i' * hx) + pw_ky (fst v) * (Y0 + INR j' * hy) + pw_kz (fst v) * (z + d') - dft_omega nt dt (snd v) * T0)))).
    { intros d' i' j'. unfold tr_waves, tw. rewrite lsum_map. apply lsum_ext. intros v Hv. rewrite (Hkz v Hv). fold (pw_kz (fst v)).
      rewrite <- Cmult_assoc, <- cis_plus. apply f_equal, f_equal. ring. }
    pose proof (HS p r tw (fun kk ii jj => at3 s ii jj kk) d) as HE. cbn zeta in HE. rewrite Epx, Epy in HE. cbn [fst snd] in HE. rewrite Ehx, Ehy in HE.
    rewrite HE; try assumption.
    - apply Htw.
    - rewrite Epk; exact Hr.
    - pose proof (Hlh 0%nat ltac:(lia)) as Q. fold X0 in Q. lra.
    - pose proof (Hlh 1%nat ltac:(lia)) as Q. fold Y0 in Q. lra.
    - unfold tw. apply Forall_map, Forall_forall. intros v Hv. cbn [fst snd]. rewrite (Hkz v Hv).
      apply filter_In in Hv. destruct Hv as (Hv & _). destruct (Hfit v Hv) as (F1 & F2 & _ & F4 & F5).
      unfold axis_points in F1, F2. rewrite Lx in F1. rewrite Ly in F2. split; [apply Rdiv_lt_0_compat; [exact F4|apply c_light_pos]|].
      split; [exact F1|]. split; [exact F2|exact F5].
    - intros i' j' Hi' Hj'. rewrite (Hspec i' j' r Hi' Hj' Hr), Htw. apply lsum_ext. intros v _. apply f_equal, f_equal. ring. }
  (* back to time *)
  assert (EA : g_axes g1 = g_axes (l_grid L)) by apply M1.
  assert (EG : g_axes (shift_domain g1 d) = [nth 0 (g_axes (l_grid L)) []; nth 1 (g_axes (l_grid L)) []; map (fun t => t + d / c_light) (nth 2 (g_axes (l_grid L)) [])]).
  { unfold shift_domain. cbn [with_domain g_axes]. unfold time_axis. rewrite EA, Elast. clear -La.
    destruct (g_axes (l_grid L)) as [|x0 [|x1 [|x2 [|? ?]]]]; try discriminate. reflexivity. }
  refine (conj _ (conj _ (conj _ _))).
  2:{ exact Ed. }
  2:{ intros q Hq. pose proof (Hlh q Hq) as Q. cbn [l_grid set_grid]. unfold shift_domain. cbn [with_domain g_lo g_hi].
      rewrite (proj1 M1), (proj1 (proj2 M1)).
      pose proof (gs_lo _ _ _ _ _ GS) as Llo. pose proof (gs_hi _ _ _ _ _ GS) as Lhi. rewrite Ed in Llo, Lhi. clear -Llo Lhi Q Hq.
      destruct (g_lo (l_grid L)) as [|x0 [|x1 [|x2 [|? ?]]]]; try discriminate Llo.
      destruct (g_hi (l_grid L)) as [|y0 [|y1 [|y2 [|? ?]]]]; try discriminate Lhi.
      destruct q as [|[|[|q]]]; cbn in *; try lia; lra. }
  2:{ revert HF. apply Forall_impl. intros v. unfold fits_xyt, axis_step, axis_points, time_step. cbn [l_grid set_grid set_prop l_prof].
      rewrite EG. cbn [nth last]. rewrite map_length, Elast.
      rewrite !(nth_map_R (fun t => t + d / c_light)) by (rewrite Lt; lia).
      assert (QQ : forall q, (q < 2)%nat -> nth q (g_lo (shift_domain g1 d)) 0 = nth q (g_lo (l_grid L)) 0 /\ nth q (g_hi (shift_domain g1 d)) 0 = nth q (g_hi (l_grid L)) 0).
      { intros q Hq. unfold shift_domain. cbn [with_domain g_lo g_hi]. rewrite (proj1 M1), (proj1 (proj2 M1)).
        pose proof (gs_lo _ _ _ _ _ GS) as Llo. pose proof (gs_hi _ _ _ _ _ GS) as Lhi. rewrite Ed in Llo, Lhi. clear -Llo Lhi Hq.
        destruct (g_lo (l_grid L)) as [|x0 [|x1 [|x2 [|? ?]]]]; try discriminate Llo.
        destruct (g_hi (l_grid L)) as [|y0 [|y1 [|y2 [|? ?]]]]; try discriminate Lhi.
        destruct q as [|[|q]]; cbn; try lia; auto. }
      destruct (QQ 0%nat ltac:(lia)) as (-> & ->). destruct (QQ 1%nat ltac:(lia)) as (-> & ->).
      replace (nth 1 (nth 2 (g_axes (l_grid L)) []) 0 + d / c_light - (nth 0 (nth 2 (g_axes (l_grid L)) []) 0 + d / c_light))
        with (nth 1 (nth 2 (g_axes (l_grid L)) []) 0 - nth 0 (nth 2 (g_axes (l_grid L)) []) 0) by ring.
      exact (fun H => H). }
  eexists. split; [cbn [l_grid set_grid]; change (snd (get_temporal_field (shift_domain g1 d))) with (tread (shift_domain g1 d)); rewrite tread_shift; exact T1|].
  cbn [l_grid set_grid set_prop l_prof]. rewrite EG. cbn [nth]. rewrite map_length, Lx, Ly, Lt.
  intros i j k Hi Hj Hk. cbn zeta.
  rewrite (nth_map_R (fun t => t + d / c_light)) by (rewrite Lt; exact Hk).
  rewrite (Hx i Hi), (Hy j Hj), (Ht k Hk). fold w0. rewrite Henv.
  cbn [np_fft_last at3 apply_phase dim2 shp stepped]. unfold dim2. cbn [shp apply_phase stepped]. rewrite Ss. cbn [nth].
  rewrite (fft1_ext nt _ (fun q => lsum (filter (fun v => Nat.eqb (snd v) q) l) (fun v => Cmult (pw_A (fst v))
      (cis (pw_kx (fst v) * (X0 + INR i * hx) + pw_ky (fst v) * (Y0 + INR j * hy) + pw_kz (fst v) * (z + d) - dft_omega nt dt (snd v) * (T0 + d / c_light)))))).
  2:{ intros q Hq. rewrite (Hstep i j q Hi Hj Hq). unfold time_phase. rewrite (Hom q Hq). fold w0. rewrite lsum_mul_r. apply lsum_ext. intros v Hv.
      apply filter_In in Hv. destruct Hv as (_ & Hv). apply Nat.eqb_eq in Hv. rewrite <- Hv.
      rewrite <- Cmult_assoc, <- cis_plus. apply f_equal, f_equal. ring. }
  rewrite (fft_lines nt dt snd l (Rgt_not_eq _ _ Pdt) (fun v Hv => proj1 (Hl v Hv))). apply lsum_ext. intros v Hv.
  rewrite <- !Cmult_assoc, <- !cis_plus. apply f_equal, f_equal. ring.
Qed.

Lemma c91_run S ws : exact_xyt S -> forall (h : list (R * backend_t)) L z, reachable S L -> l_dim L = Xyt ->
  (forall q, (q < 3)%nat -> nth q (g_lo (l_grid L)) 0 < nth q (g_hi (l_grid L)) 0) ->
  Forall (fits_xyt L) ws -> shows_xyt L (plane_waves ws) z ->
  let ops := map (fun e => OpPropagate (fst e) None None (snd e)) h in
  all_ok S L ops /\ shows_xyt (lrun S L ops) (plane_waves ws) (z + fold_right Rplus 0 (map fst h)).
Proof.
  intros HS. induction h as [|[d b] h IH]; intros L z HR Ed Hlh HF Hsh; cbn zeta.
  - cbn [map all_ok lrun fold_right]. rewrite Rplus_0_r. split; [exact I|exact Hsh].
  - destruct (c91_step S L ws z d b HR Ed HS Hlh HF Hsh) as (L' & Hp & H1 & H2 & H3 & H4).
    pose proof (reachable_step S L (OpPropagate d None None b) HR I (or_introl I)) as HR'.
    cbn [map fst snd all_ok lrun lstep fold_right] in *. rewrite Hp in *. cbn [fst snd] in *.
    destruct (IH L' (z + d) HR' H2 H3 H4 H1) as (I1 & I2). rewrite Rplus_assoc in I2. auto.
Qed.
