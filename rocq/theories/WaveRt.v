(** Proofs for C91, cylindrical part. *)
From Coquelicot Require Import Coquelicot.
From Verif Require Import PyBase CSum NpFFT FFTProofs NumPy GridModel GridSpec GridProofs LaserSpec GridObs
  EnergyModel EnergyProofs AngularProofs LaserModel OpticsModel LaserOps LaserInv LaserInitProofs LaserStepProofs
  PropagateProofs HistoryProofs OpticsProofs OpticsProofs2 SolverSpec PropLaws DelayProofs WaveSpec WaveProofs.
Open Scope R_scope.

Lemma Cnorm2_zero z : Cnorm2 z = 0 -> z = RtoC 0.
Proof. destruct z as [a b]. unfold Cnorm2, RtoC; cbn. intros H. f_equal; nra. Qed.
Lemma recon_inj M E F : (1 <= M)%nat -> (forall theta, recon M E theta = recon M F theta) ->
  forall m, (Z.abs m < Z.of_nat M)%Z -> E m = F m.
Proof.
  intros HM H m Hm.
  pose proof (recon_parseval M (2 * M - 1) (fun m => Cminus (E m) (F m)) HM (le_n _)) as P.
  rewrite (rsum_ext _ (fun a => Cnorm2 (recon M (fun m => Cminus (E m) (F m)) (2 * PI / INR (2 * M - 1) * INR a))) (fun _ => 0)) in P.
  2:{ intros a _. rewrite <- Cnorm2_0. f_equal. transitivity (Cminus (recon M E (2 * PI / INR (2 * M - 1) * INR a)) (recon M F (2 * PI / INR (2 * M - 1) * INR a))).
      - assert (Eo : forall y, Copp y = Cmult (RtoC (-1)) y) by (intros [p q]; unfold Copp, Cmult, RtoC; cbn; f_equal; ring).
        unfold recon, Cminus. rewrite (Eo (csum _ _)), <- csum_scal_l, <- csum_plus.
        apply csum_ext. intros q _. cbn zeta. rewrite (Eo (F _)). ring.
      - rewrite H. ring. }
  rewrite rsum_0 in P. rewrite Rmult_0_r in P. symmetry in P.
  pose proof (rsum_nonneg_zero _ _ (fun i _ => Cnorm2_nonneg _) P (Z.to_nat (m + (Z.of_nat M - 1))) ltac:(lia)) as Q. cbv beta in Q.
  replace (Z.of_nat (Z.to_nat (m + (Z.of_nat M - 1))) - (Z.of_nat M - 1))%Z with m in Q by lia.
  apply Cnorm2_zero in Q. replace (E m) with (Cplus (Cminus (E m) (F m)) (F m)) by ring. rewrite Q. ring.
Qed.
(** A superposition of Bessel waves, as azimuthal components. *)
Lemma recon_waves {A} M (mm : A -> Z) (l : list A) (f : A -> C) theta : (forall v, In v l -> (Z.abs (mm v) < Z.of_nat M)%Z) ->
  recon M (fun m => lsum (filter (fun v => Z.eqb (mm v) m) l) f) theta = lsum l (fun v => Cmult (f v) (cis (- (IZR (mm v) * theta)))).
Proof.
  intros Hm. unfold recon. cbn zeta.
  rewrite (csum_ext _ _ (fun q => lsum l (fun v => Cmult (if Z.eqb (mm v) (Z.of_nat q - (Z.of_nat M - 1)) then f v else RtoC 0) (cis (- (IZR (Z.of_nat q - (Z.of_nat M - 1)) * theta)))))).
  2:{ intros q _. rewrite lsum_filter, lsum_mul_r. reflexivity. }
  rewrite lsum_csum. apply lsum_ext. intros v Hv. pose proof (Hm v Hv) as Q.
  rewrite (csum_single _ _ (Z.to_nat (mm v + (Z.of_nat M - 1)))).
  - replace (Z.of_nat (Z.to_nat (mm v + (Z.of_nat M - 1))) - (Z.of_nat M - 1))%Z with (mm v) by lia. rewrite Z.eqb_refl. reflexivity.
  - lia.
  - intros q Hq Hne. destruct (Z.eqb_spec (mm v) (Z.of_nat q - (Z.of_nat M - 1))); [|ring]. exfalso. apply Hne. lia.
Qed.

(** One azimuthal component through the solver, the frame-shift phase and back to time. *)
Lemma rt_core S supports p (l : list (bwave * nat)) nt dt T0 w0 z d om (x : nat -> nat -> C) :
  exact_rt S supports -> dt <> 0 -> (0 < length (rp_r p))%nat -> length om = nt -> rp_k p = map (fun w => w / c_light) om ->
  (forall q, (q < nt)%nat -> vget om q = w0 + dft_omega nt dt q) ->
  (forall v, In v l -> (snd v < nt)%nat /\ bw_w (fst v) - w0 = dft_omega nt dt (snd v) /\ bw_m (fst v) = rp_mode p /\
     0 < bw_w (fst v) /\ bw_kr (fst v) ^ 2 <= (bw_w (fst v) / c_light) ^ 2 /\ supports p (bw_kr (fst v))) ->
  (forall q j, (q < nt)%nat -> (j < length (rp_r p))%nat ->
     x q j = ifft1 nt (fun k => lsum l (fun v => Cmult (Cmult (bw_A (fst v)) (Cmult (RtoC (bessel (Z.abs_nat (rp_mode p)) (bw_kr (fst v) * nth j (rp_r p) 0)))
                 (cis (bw_kz (fst v) * z)))) (cis (- (dft_omega nt dt (snd v) * (T0 + INR k * dt)))))) q) ->
  forall j k, (j < length (rt_out p))%nat -> (k < nt)%nat ->
    fft1 nt (fun q => Cmult (step_rt S p x d q j) (time_phase om w0 d q)) k =
    lsum l (fun v => Cmult (Cmult (bw_A (fst v)) (Cmult (RtoC (bessel (Z.abs_nat (rp_mode p)) (bw_kr (fst v) * nth j (rt_out p) 0)))
                 (cis (bw_kz (fst v) * (z + d))))) (cis (- (dft_omega nt dt (snd v) * (T0 + d / c_light + INR k * dt))))).
Proof.
  intros HS Pdt Hr Hom Hk Hw Hl Hx j k Hj Hk'.
  assert (Hq : forall v, In v l -> (snd v < nt)%nat) by (intros v Hv; apply (Hl v Hv)).
  assert (Ekk : forall q, (q < nt)%nat -> nth q (rp_k p) 0 = (w0 + dft_omega nt dt q) / c_light).
  { intros q Hq'. rewrite Hk, vget_map_div by (rewrite Hom; exact Hq'). rewrite (Hw q Hq'). reflexivity. }
  assert (Hspec : forall q j', (q < nt)%nat -> (j' < length (rp_r p))%nat -> x q j' =
    lsum (filter (fun v => Nat.eqb (snd v) q) l) (fun v => Cmult (Cmult (bw_A (fst v)) (Cmult (RtoC (bessel (Z.abs_nat (rp_mode p)) (bw_kr (fst v) * nth j' (rp_r p) 0)))
                 (cis (bw_kz (fst v) * z)))) (cis (- (dft_omega nt dt (snd v) * T0))))).
  { intros q j' Hq' Hj'. rewrite (Hx q j' Hq' Hj').
    apply (ifft_lines nt dt T0 snd l Pdt Hq (fun v => Cmult (bw_A (fst v)) (Cmult (RtoC (bessel (Z.abs_nat (rp_mode p)) (bw_kr (fst v) * nth j' (rp_r p) 0)))
                 (cis (bw_kz (fst v) * z)))) _ q Hq'). reflexivity. }
  rewrite (fft1_ext nt _ (fun q => lsum (filter (fun v => Nat.eqb (snd v) q) l) (fun v => Cmult (Cmult (bw_A (fst v)) (Cmult (RtoC (bessel (Z.abs_nat (rp_mode p)) (bw_kr (fst v) * nth j (rt_out p) 0)))
                 (cis (bw_kz (fst v) * (z + d))))) (cis (- (dft_omega nt dt (snd v) * (T0 + d / c_light))))))).
  - rewrite (fft_lines nt dt snd l Pdt Hq). apply lsum_ext. intros v _. rewrite <- Cmult_assoc, <- cis_plus. do 2 apply f_equal. ring.
  - intros q Hq'.
    assert (Hkz : forall v, In v (filter (fun v => Nat.eqb (snd v) q) l) -> nth q (rp_k p) 0 = bw_w (fst v) / c_light).
    { intros v Hv. apply filter_In in Hv. destruct Hv as (Hv & Hr'). apply Nat.eqb_eq in Hr'. destruct (Hl v Hv) as (_ & E & _).
      rewrite (Ekk q Hq'), <- Hr', <- E. f_equal. ring. }
    set (tw := map (fun v : bwave * nat => (Cmult (bw_A (fst v)) (cis (bw_kz (fst v) * z - dft_omega nt dt (snd v) * T0)), bw_kr (fst v))) (filter (fun v => Nat.eqb (snd v) q) l)).
    assert (Htw : forall r d', radial_waves (nth q (rp_k p) 0) (rp_mode p) tw r d' =
      lsum (filter (fun v => Nat.eqb (snd v) q) l) (fun v => Cmult (Cmult (bw_A (fst v)) (Cmult (RtoC (bessel (Z.abs_nat (rp_mode p)) (bw_kr (fst v) * r)))
                 (cis (bw_kz (fst v) * (z + d'))))) (cis (- (dft_omega nt dt (snd v) * T0))))).
    { intros r d'. unfold radial_waves, tw. rewrite lsum_map. apply lsum_ext. intros v Hv. rewrite (Hkz v Hv). fold (bw_kz (fst v)).
      set (B := RtoC _). transitivity (Cmult (Cmult (bw_A (fst v)) B) (Cmult (cis (bw_kz (fst v) * z - dft_omega nt dt (snd v) * T0)) (cis (bw_kz (fst v) * d')))); [ring|].
      transitivity (Cmult (Cmult (bw_A (fst v)) B) (Cmult (cis (bw_kz (fst v) * (z + d'))) (cis (- (dft_omega nt dt (snd v) * T0))))); [|ring].
      rewrite <- !cis_plus. do 2 apply f_equal. ring. }
    rewrite (HS p q tw x d); [|rewrite Hk, map_length, Hom; exact Hq'|exact Hr| | |exact Hj].
    + rewrite Htw. unfold time_phase. rewrite (Hw q Hq'), lsum_mul_r. apply lsum_ext. intros v Hv. apply filter_In in Hv. destruct Hv as (_ & Hv). apply Nat.eqb_eq in Hv. rewrite <- Hv.
      rewrite <- Cmult_assoc, <- cis_plus. do 2 apply f_equal. ring.
    + unfold tw. apply Forall_map, Forall_forall. intros v Hv. cbn [fst snd]. rewrite (Hkz v Hv). apply filter_In in Hv. destruct Hv as (Hv & _).
      destruct (Hl v Hv) as (_ & _ & _ & F4 & F5 & F6). split; [apply Rdiv_lt_0_compat; [exact F4|apply c_light_pos]|]. split; [exact F6|exact F5].
    + intros j' Hj'. rewrite (Hspec q j' Hq' Hj'), Htw. apply lsum_ext. intros v _. rewrite Rplus_0_r. reflexivity.
Qed.

Lemma mode_slot_surj M i : (1 <= M)%nat -> (i < 2 * M - 1)%nat -> exists m, (Z.abs m < Z.of_nat M)%Z /\ mode_slot M m = i.
Proof.
  intros HM Hi. destruct (le_lt_dec M i).
  - exists (Z.of_nat i - (2 * Z.of_nat M - 1))%Z. unfold mode_slot. destruct (Z.leb_spec 0 (Z.of_nat i - (2 * Z.of_nat M - 1))); lia.
  - exists (Z.of_nat i). unfold mode_slot. destruct (Z.leb_spec 0 (Z.of_nat i)); lia.
Qed.

Lemma recon_ext M E F theta : (forall m, (Z.abs m < Z.of_nat M)%Z -> E m = F m) -> recon M E theta = recon M F theta.
Proof. intros H. unfold recon. apply csum_ext. intros q Hq. cbn zeta. rewrite H by lia. reflexivity. Qed.

Lemma rt_shown S supports L M ws z d rnew b n0 n1 nt s a' :
  exact_rt S supports -> Inv L n0 n1 nt -> l_dim L = Rt -> 0 < time_step L ->
  (forall k, (k < nt)%nat -> nth k (nth 1 (g_axes (l_grid L)) []) 0 = nth 0 (nth 1 (g_axes (l_grid L)) []) 0 + INR k * time_step L) ->
  (forall k, (k < nt)%nat -> vget (l_omega L) k = p_omega0 (l_prof L) + dft_omega nt (time_step L) k) ->
  Forall (fits_rt M supports L rnew) ws -> shows_rt M L (bessel_waves ws) z -> sread (l_grid L) = Ok s -> (1 <= M)%nat ->
  let ps := build_rt (nth 0 (g_axes (l_grid L)) []) (l_omega L) rnew (azimuthal_modes (Z.of_nat M)) b in
  (forall i j k, at3 a' i j k = fft1 nt (fun q => Cmult (step_mode S ps s d i j q) (time_phase (l_omega L) (p_omega0 (l_prof L)) d q)) k) ->
  let rout := match rnew with Some r => r | None => nth 0 (g_axes (l_grid L)) [] end in
  forall j k theta, (j < length rout)%nat -> (k < nt)%nat ->
    let t := nth k (nth 1 (g_axes (l_grid L)) []) 0 + d / c_light in
    recon M (comp M a' j k) theta = Cmult (bessel_waves ws (nth j rout 0) theta (z + d) t) (cis (p_omega0 (l_prof L) * t)).
Proof.
  intros HS HI Ed Pdt Ht Hom HF (a & Ha & Sa0 & HA) Hs HM. cbn zeta. intros Ha' j k theta Hj Hk.
  pose proof (i_coh _ _ _ _ HI) as HG. pose proof (i_shape _ _ _ _ HI) as GS.
  destruct (gs_rt _ _ _ _ _ GS Ed) as (M' & HM' & En0 & Hmod & _ & _ & Lr).
  pose proof (gs_tax _ _ _ _ _ GS) as Lt. unfold time_axis in Lt.
  assert (La : length (g_axes (l_grid L)) = 2%nat) by (rewrite (gs_axes _ _ _ _ _ GS), Ed; reflexivity).
  assert (Elast : last (g_axes (l_grid L)) [] = nth 1 (g_axes (l_grid L)) []) by (apply last_nth2, La).
  rewrite Elast in Lt. rewrite Lr, Lt in HA.
  pose proof (reads_idft _ _ _ HG Ha Hs) as (S0 & _ & V0). cbn [np_ifft_last shp] in S0.
  assert (Sa : shp a = [n0;n1;nt]) by (destruct (tread_shape _ _ (proj1 HG) Ha) as (-> & _); apply (gs_shape _ _ _ _ _ GS)).
  assert (Ss : shp s = [n0;n1;nt]) by congruence.
  assert (EM : n0 = (2 * M - 1)%nat) by (unfold dim0 in Sa0; rewrite Sa in Sa0; exact Sa0).
  set (dt := time_step L) in *. set (T0 := nth 0 (nth 1 (g_axes (l_grid L)) []) 0) in *. set (w0 := p_omega0 (l_prof L)) in *.
  set (rs := nth 0 (g_axes (l_grid L)) []) in *.
  destruct (index_waves (fun v q => (q < nt)%nat /\ bw_w v - w0 = dft_omega nt dt q) ws) as (l & El & Hl).
  { revert HF. apply Forall_impl. intros v (_ & (q & Hq & Hw) & _). exists q. unfold axis_points in Hq, Hw. rewrite Lt in Hq, Hw. auto. }
  assert (Hfit : forall v, In v l -> fits_rt M supports L rnew (fst v)).
  { intros v Hv. rewrite Forall_forall in HF. apply HF. rewrite <- El. apply in_map, Hv. }
  assert (Hml : forall v, In v l -> (Z.abs (bw_m (fst v)) < Z.of_nat M)%Z) by (intros v Hv; apply (Hfit v Hv)).
  assert (Henv : forall r th z' t, Cmult (bessel_waves ws r th z' t) (cis (w0 * t)) =
    recon M (fun m => lsum (filter (fun v => Z.eqb (bw_m (fst v)) m) l) (fun v => Cmult (Cmult (bw_A (fst v))
        (Cmult (RtoC (bessel (Z.abs_nat (bw_m (fst v))) (bw_kr (fst v) * r))) (cis (bw_kz (fst v) * z')))) (cis (- (dft_omega nt dt (snd v) * t))))) th).
  { intros r th z' t. rewrite (recon_waves M (fun v : bwave * nat => bw_m (fst v)) l _ th Hml).
    unfold bessel_waves. rewrite <- El, lsum_map, lsum_mul_r. apply lsum_ext. intros v Hv. destruct (Hl v Hv) as (_ & Hw). rewrite <- Hw.
    set (B := RtoC _). transitivity (Cmult (Cmult (bw_A (fst v)) B) (Cmult (cis (- (IZR (bw_m (fst v)) * th) + bw_kz (fst v) * z' - bw_w (fst v) * t)) (cis (w0 * t)))); [ring|].
    transitivity (Cmult (Cmult (bw_A (fst v)) B) (Cmult (Cmult (cis (bw_kz (fst v) * z')) (cis (- ((bw_w (fst v) - w0) * t)))) (cis (- (IZR (bw_m (fst v)) * th))))); [|ring].
    rewrite <- !cis_plus. do 2 apply f_equal. ring. }
  assert (Hcomp : forall m j k, (Z.abs m < Z.of_nat M)%Z -> (j < n1)%nat -> (k < nt)%nat -> at3 a (mode_slot M m) j k =
    lsum (filter (fun v => Z.eqb (bw_m (fst v)) m) l) (fun v => Cmult (Cmult (bw_A (fst v))
        (Cmult (RtoC (bessel (Z.abs_nat (bw_m (fst v))) (bw_kr (fst v) * nth j rs 0))) (cis (bw_kz (fst v) * z)))) (cis (- (dft_omega nt dt (snd v) * (T0 + INR k * dt)))))).
  { intros m j' k' Hm Hj' Hk'. change (at3 a (mode_slot M m) j' k') with (comp M a j' k' m).
    apply (recon_inj M (comp M a j' k') (fun m => lsum (filter (fun v => Z.eqb (bw_m (fst v)) m) l) (fun v => Cmult (Cmult (bw_A (fst v))
        (Cmult (RtoC (bessel (Z.abs_nat (bw_m (fst v))) (bw_kr (fst v) * nth j' rs 0))) (cis (bw_kz (fst v) * z)))) (cis (- (dft_omega nt dt (snd v) * (T0 + INR k' * dt)))))) HM); [|exact Hm].
    intros th. rewrite <- Henv. rewrite <- (Ht k' Hk'). apply (HA j' k' th Hj' Hk'). }
  rewrite Henv. apply recon_ext. intros m Hm. unfold comp. rewrite Ha'.
  destruct (azimuthal_modes_slot M m HM ltac:(lia)) as (Hnth & Hslot).
  set (p := mkRtProp rs (map (fun w => w / c_light) (l_omega L)) rnew m b).
  assert (Hps : nth_error (build_rt rs (l_omega L) rnew (azimuthal_modes (Z.of_nat M)) b) (mode_slot M m) = Some p).
  { unfold build_rt. rewrite nth_error_map, Hnth. reflexivity. }
  unfold step_mode. rewrite Hps.
  pose proof (rt_core S supports p (filter (fun v => Z.eqb (bw_m (fst v)) m) l) nt dt T0 w0 z d (l_omega L) (fun kk jj => at3 s (mode_slot M m) jj kk)
     HS (Rgt_not_eq _ _ Pdt)) as RC. cbn [rp_r rp_k rp_mode p] in RC. fold p in RC.
  rewrite RC; try assumption.
  - apply lsum_ext. intros v Hv. apply filter_In in Hv. destruct Hv as (_ & Hv). apply Z.eqb_eq in Hv. rewrite Hv. f_equal. f_equal. rewrite (Ht k Hk). ring.
  - rewrite Lr. destruct (gs_pos _ _ _ _ _ GS) as (_ & Q & _). lia.
  - apply (i_omega _ _ _ _ HI).
  - reflexivity.
  - intros v Hv. apply filter_In in Hv. destruct Hv as (Hv & Em). apply Z.eqb_eq in Em. destruct (Hl v Hv) as (Q1 & Q2). destruct (Hfit v Hv) as (F1 & F2 & F3 & F4 & F5).
    split; [exact Q1|]. split; [exact Q2|]. split; [exact Em|]. split; [exact F3|]. split; [exact F4|]. unfold p. rewrite <- Em. apply F5.
  - intros q j' Hq Hj'. rewrite Lr in Hj'. rewrite V0 by (unfold inb, dim0, dim1, dim2; rewrite Ss; cbn [nth]; repeat split; lia).
    cbn [np_ifft_last at3]. unfold dim2. rewrite Sa. cbn [nth]. apply ifft1_ext. intros k' Hk'. rewrite (Hcomp m j' k' Hm Hj' Hk').
    apply lsum_ext. intros v Hv. apply filter_In in Hv. destruct Hv as (_ & Hv). apply Z.eqb_eq in Hv. rewrite Hv. reflexivity.
Qed.

Lemma c91_rt_plain S supports L M ws z d b : reachable S L -> l_dim L = Rt -> exact_rt S supports -> 0 < time_step L ->
  Forall (fits_rt M supports L None) ws -> shows_rt M L (bessel_waves ws) z ->
  exists L', propagate S L d None None b = (L', Ok tt) /\ shows_rt M L' (bessel_waves ws) (z + d) /\
    l_dim L' = Rt /\ 0 < time_step L' /\ Forall (fits_rt M supports L' None) ws.
Proof.
  intros HR Ed HS Pdt HF Hsh.
  destruct (reachable_time S L HR) as (n0 & n1 & nt & HI & H2 & Ht & Hom).
  pose proof (i_coh _ _ _ _ HI) as HG. pose proof (i_shape _ _ _ _ HI) as GS.
  destruct (gs_rt _ _ _ _ _ GS Ed) as (M' & HM' & En0 & Hmod & _ & _ & Lr).
  pose proof (gs_tax _ _ _ _ _ GS) as Lt. unfold time_axis in Lt.
  assert (La : length (g_axes (l_grid L)) = 2%nat) by (rewrite (gs_axes _ _ _ _ _ GS), Ed; reflexivity).
  assert (Elast : last (g_axes (l_grid L)) [] = nth 1 (g_axes (l_grid L)) []) by (apply last_nth2, La).
  rewrite Elast in *.
  pose proof Hsh as (a & Ha & Sa0 & _).
  destruct (tread_sread_ok _ _ (proj1 HG) Ha) as (s & Hs).
  assert (Sa : shp a = [n0;n1;nt]) by (destruct (tread_shape _ _ (proj1 HG) Ha) as (-> & _); apply (gs_shape _ _ _ _ _ GS)).
  assert (EM : M = M') by (unfold dim0 in Sa0; rewrite Sa in Sa0; cbn [nth] in Sa0; lia). subst M'.
  assert (Ss : shp s = [n0;n1;nt]) by (destruct (sread_shape _ _ (proj1 HG) Hs) as (-> & _); apply (gs_shape _ _ _ _ _ GS)).
  destruct (propagate_plain S L n0 n1 nt d None None b s HI (or_intror eq_refl) eq_refl Hs) as (g1 & Hp & CG1 & M1 & _ & T1).
  exists (set_grid (set_prop L (Some (used_prop L b))) (shift_domain g1 d)). split; [exact Hp|].
  assert (Hup : exists b', used_prop L b = PropRt (build_rt (nth 0 (g_axes (l_grid L)) []) (l_omega L) None (azimuthal_modes (Z.of_nat M)) b')).
  { unfold used_prop. destruct (i_prop _ _ _ _ HI) as [->|(b' & ->)]; unfold fresh_prop; rewrite Ed, Hmod; eauto. }
  destruct Hup as (b' & Hup).
  assert (EA : g_axes g1 = g_axes (l_grid L)) by apply M1.
  assert (EG : g_axes (shift_domain g1 d) = [nth 0 (g_axes (l_grid L)) []; map (fun t => t + d / c_light) (nth 1 (g_axes (l_grid L)) [])]).
  { unfold shift_domain. cbn [with_domain g_axes]. unfold time_axis. rewrite EA, Elast. clear -La.
    destruct (g_axes (l_grid L)) as [|x0 [|x1 [|? ?]]]; try discriminate. reflexivity. }
  assert (ETS : time_step (set_grid (set_prop L (Some (used_prop L b))) (shift_domain g1 d)) = time_step L).
  { unfold time_step. cbn [l_grid set_grid]. rewrite EG, Elast. cbn [last]. rewrite !(nth_map_R (fun t => t + d / c_light)) by (rewrite Lt; lia). ring. }
  split; [|split; [exact Ed|split; [rewrite ETS; exact Pdt|]]].
  - eexists. split; [cbn [l_grid set_grid]; change (snd (get_temporal_field (shift_domain g1 d))) with (tread (shift_domain g1 d)); rewrite tread_shift; exact T1|].
    split; [unfold dim0; cbn [np_fft_last shp apply_phase stepped]; rewrite Ss; exact En0|].
    cbn [l_grid set_grid set_prop l_prof]. rewrite EG. cbn [nth]. rewrite map_length, Lt.
    intros j k th Hj Hk. cbn zeta. rewrite (nth_map_R (fun t => t + d / c_light)) by (rewrite Lt; exact Hk).
    refine (rt_shown S supports L M ws z d None b' n0 n1 nt s _ HS HI Ed Pdt Ht Hom HF Hsh Hs HM' _ j k th Hj Hk).
    intros i j' k'. cbn [np_fft_last at3 apply_phase shp stepped]. unfold dim2. cbn [shp apply_phase stepped]. rewrite Ss. cbn [nth]. rewrite Hup. reflexivity.
  - revert HF. apply Forall_impl. intros v. unfold fits_rt. rewrite ETS. unfold axis_points. cbn [l_grid set_grid set_prop l_prof l_omega].
    rewrite EG. cbn [nth]. rewrite map_length. exact (fun H => H).
Qed.

Lemma c91_rt_resample S supports L M ws z d gn b : reachable S L -> l_dim L = Rt -> exact_rt S supports -> 0 < time_step L ->
  user_grid gn -> g_modes gn = g_modes (l_grid L) -> length (nth 1 (g_axes gn) []) = axis_points L 1 ->
  Forall (fits_rt M supports L (Some (nth 0 (g_axes gn) []))) ws -> shows_rt M L (bessel_waves ws) z ->
  exists L', propagate S L d None (Some gn) b = (L', Ok tt) /\ shows_rt M L' (bessel_waves ws) (z + d) /\
    l_dim L' = Rt /\ 0 < time_step L' /\ nth 0 (g_axes (l_grid L')) [] = nth 0 (g_axes gn) [].
Proof.
  intros HR Ed HS Pdt Hu Hgm Hgn HF Hsh.
  destruct (reachable_time S L HR) as (n0 & n1 & nt & HI & H2 & Ht & Hom).
  pose proof (i_coh _ _ _ _ HI) as HG. pose proof (i_shape _ _ _ _ HI) as GS.
  destruct (gs_rt _ _ _ _ _ GS Ed) as (M' & HM' & En0 & Hmod & _ & _ & Lr).
  pose proof (gs_tax _ _ _ _ _ GS) as Lt. unfold time_axis in Lt.
  assert (La : length (g_axes (l_grid L)) = 2%nat) by (rewrite (gs_axes _ _ _ _ _ GS), Ed; reflexivity).
  assert (Elast : last (g_axes (l_grid L)) [] = nth 1 (g_axes (l_grid L)) []) by (apply last_nth2, La).
  rewrite Elast in *.
  pose proof Hsh as (a & Ha & Sa0 & _).
  destruct (tread_sread_ok _ _ (proj1 HG) Ha) as (s & Hs).
  assert (Sa : shp a = [n0;n1;nt]) by (destruct (tread_shape _ _ (proj1 HG) Ha) as (-> & _); apply (gs_shape _ _ _ _ _ GS)).
  assert (EM : M = M') by (unfold dim0 in Sa0; rewrite Sa in Sa0; cbn [nth] in Sa0; lia). subst M'.
  destruct (user_grid_props gn Hu) as (HGn & m0 & m1 & mt & HSn).
  destruct (gs_rt _ _ _ _ _ HSn eq_refl) as (M' & HM2 & Em0 & Hmod2 & _ & _ & Lr2).
  pose proof (gs_tax _ _ _ _ _ HSn) as Lt2. unfold time_axis in Lt2.
  assert (La2 : length (g_axes gn) = 2%nat) by apply (gs_axes _ _ _ _ _ HSn).
  rewrite (last_nth2 _ _ La2), Hgn in Lt2. unfold axis_points in Lt2. rewrite Lt in Lt2.
  assert (EM : M' = M).
  { rewrite Hgm, Hmod in Hmod2. injection Hmod2 as Q. pose proof (f_equal (@length Z) Q) as Q'. rewrite !azimuthal_modes_length in Q' by lia. lia. }
  subst M'.
  pose proof (propagate_resample S L n0 n1 nt d None gn b s m0 m1 mt HI Ed HSn HGn eq_refl Hs) as PR. cbn zeta in PR.
  destruct PR as [(_ & _ & g1 & Hp & CG1 & M1 & _ & T1)|[(Q & _)|(_ & Q & _)]]; [|congruence|lia].
  rewrite Hgm, Hmod in T1.
  eexists. split; [exact Hp|].
  assert (EA : g_axes g1 = [nth 0 (g_axes gn) []; nth 1 (g_axes (l_grid L)) []]).
  { destruct M1 as (_ & _ & _ & -> & _). unfold overwrite_time. cbn [with_domain g_axes]. unfold time_axis. rewrite Elast. clear -La2.
    destruct (g_axes gn) as [|x0 [|x1 [|? ?]]]; try discriminate. reflexivity. }
  assert (EG : g_axes (shift_domain g1 d) = [nth 0 (g_axes gn) []; map (fun t => t + d / c_light) (nth 1 (g_axes (l_grid L)) [])]).
  { unfold shift_domain. cbn [with_domain g_axes]. unfold time_axis. rewrite EA. reflexivity. }
  split; [|split; [exact Ed|split; [|cbn [l_grid set_grid]; rewrite EG; reflexivity]]].
  - eexists. split; [cbn [l_grid set_grid]; change (snd (get_temporal_field (shift_domain g1 d))) with (tread (shift_domain g1 d)); rewrite tread_shift; exact T1|].
    split; [exact Em0|].
    cbn [l_grid set_grid set_prop l_prof]. rewrite EG. cbn [nth]. rewrite map_length, Lt.
    intros j k th Hj Hk. cbn zeta. rewrite (nth_map_R (fun t => t + d / c_light)) by (rewrite Lt; exact Hk).
    refine (rt_shown S supports L M ws z d (Some (nth 0 (g_axes gn) [])) b n0 n1 nt s _ HS HI Ed Pdt Ht Hom HF Hsh Hs HM' _ j k th Hj Hk).
    intros i j' k'. cbn [np_fft_last at3 apply_phase shp]. unfold dim2. cbn [shp apply_phase nth]. rewrite Lt2. reflexivity.
  - unfold time_step. cbn [l_grid set_grid]. rewrite EG. cbn [last]. rewrite !(nth_map_R (fun t => t + d / c_light)) by (rewrite Lt; lia).
    unfold time_step in Pdt. rewrite Elast in Pdt. lra.
Qed.

Lemma c91_rt_run S supports M ws : exact_rt S supports -> forall (h : list (R * backend_t)) L z, reachable S L -> l_dim L = Rt -> 0 < time_step L ->
  Forall (fits_rt M supports L None) ws -> shows_rt M L (bessel_waves ws) z ->
  let ops := map (fun e => OpPropagate (fst e) None None (snd e)) h in
  all_ok S L ops /\ shows_rt M (lrun S L ops) (bessel_waves ws) (z + fold_right Rplus 0 (map fst h)).
Proof.
  intros HS. induction h as [|[d b] h IH]; intros L z HR Ed Hlh HF Hsh; cbn zeta.
  - cbn [map all_ok lrun fold_right]. rewrite Rplus_0_r. split; [exact I|exact Hsh].
  - destruct (c91_rt_plain S supports L M ws z d b HR Ed HS Hlh HF Hsh) as (L' & Hp & H1 & H2 & H3 & H4).
    pose proof (reachable_step S L (OpPropagate d None None b) HR I (or_introl I)) as HR'.
    cbn [map fst snd all_ok lrun lstep fold_right] in *. rewrite Hp in *. cbn [fst snd] in *.
    destruct (IH L' (z + d) HR' H2 H3 H4 H1) as (I1 & I2). rewrite Rplus_assoc in I2. auto.
Qed.
