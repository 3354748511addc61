(** C91: every field on a Cartesian grid is a superposition of the plane waves of the grid. *)
From Coquelicot Require Import Coquelicot.
From Verif Require Import PyBase CSum NpFFT FFTProofs NumPy GridModel GridSpec GridProofs GridObs LaserSpec LaserModel LaserOps LaserInv LaserStepProofs
  HistoryProofs SolverSpec SolverProofs LaserInitProofs DelayProofs WaveSpec WaveProofs WaveSolver.
Open Scope R_scope.

Lemma lsum_seq n f : lsum (seq 0 n) f = csum n f.
Proof. induction n as [|n IH]; [reflexivity|]. rewrite seq_S, lsum_app, IH. unfold lsum. cbn [fold_right Nat.add csum]. ring. Qed.
Lemma lsum_prod {A B} (l : list A) (l' : list B) f : lsum (list_prod l l') f = lsum l (fun a => lsum l' (fun b => f (a, b))).
Proof. induction l as [|a l IH]; [reflexivity|]. cbn [list_prod]. rewrite lsum_app, IH, lsum_map. reflexivity. Qed.
Lemma c91_complete S L z : reachable S L -> l_dim L = Xyt ->
  (forall q, (q < 3)%nat -> nth q (g_lo (l_grid L)) 0 < nth q (g_hi (l_grid L)) 0) ->
  (forall kx ky w, lattice (axis_points L 0) (axis_step L 0) kx -> lattice (axis_points L 1) (axis_step L 1) ky ->
     lattice (axis_points L 2) (time_step L) (w - p_omega0 (l_prof L)) -> 0 < w /\ kx ^ 2 + ky ^ 2 <= (w / c_light) ^ 2) ->
  exists ws, Forall (fits_xyt L) ws /\ shows_xyt L (plane_waves ws) z.
Proof.
  intros HR Ed Hlh Hprop.
  destruct (reachable_time S L HR) as (n0 & n1 & nt & HI & H2 & Ht & Hom).
  pose proof (i_shape _ _ _ _ HI) as GS. destruct (i_read _ _ _ _ HI) as (a & Ha).
  assert (La : length (g_axes (l_grid L)) = 3%nat) by (rewrite (gs_axes _ _ _ _ _ GS), Ed; reflexivity).
  destruct (gs_xyt _ _ _ _ _ GS) as (Lx & Ly); [rewrite Ed; discriminate|].
  pose proof (gs_tax _ _ _ _ _ GS) as Lt. unfold time_axis in Lt.
  assert (Elast : last (g_axes (l_grid L)) [] = nth 2 (g_axes (l_grid L)) []) by (apply last_nth2, La).
  rewrite Elast in *.
  destruct (reachable_xyt_axes S L HR Ed 0%nat ltac:(lia)) as (N0 & Hx). destruct (reachable_xyt_axes S L HR Ed 1%nat ltac:(lia)) as (N1 & Hy).
  destruct (reachable_xyt_axes S L HR Ed 2%nat ltac:(lia)) as (N2 & Ht').
  unfold axis_points in N0, N1, N2, Hx, Hy, Ht'. rewrite Lx in N0, Hx. rewrite Ly in N1, Hy. rewrite Lt in N2, Ht'.
  set (dt := time_step L) in *. set (T0 := nth 0 (nth 2 (g_axes (l_grid L)) []) 0) in *.
  assert (Pdt : dt <> 0).
  { unfold dt, time_step. rewrite Elast. rewrite (Ht' 1%nat ltac:(lia)), (Ht' 0%nat ltac:(lia)). cbn [INR].
    unfold axis_step, axis_points. rewrite Lt. pose proof (spacing_pos _ _ nt H2 (Hlh 2%nat ltac:(lia))). lra. }
  set (w0 := p_omega0 (l_prof L)) in *.
  set (hx := axis_step L 0) in *. set (hy := axis_step L 1) in *.
  assert (Phx : hx <> 0).
  { unfold hx, axis_step, axis_points. rewrite Lx. apply Rgt_not_eq, (spacing_pos _ _ n0 N0 (Hlh 0%nat ltac:(lia))). }
  assert (Phy : hy <> 0).
  { unfold hy, axis_step, axis_points. rewrite Ly. apply Rgt_not_eq, (spacing_pos _ _ n1 N1 (Hlh 1%nat ltac:(lia))). }
  set (X0 := nth 0 (g_lo (l_grid L)) 0) in *. set (Y0 := nth 1 (g_lo (l_grid L)) 0) in *.
  set (b := fun q i j => ifft1 nt (fun k => at3 a i j k) q).
  set (KX := fun u => dft_omega n0 hx u). set (KY := fun v => dft_omega n1 hy v). set (W := fun q => w0 + dft_omega nt dt q).
  set (KZ := fun u v q => sqrt ((W q / c_light) ^ 2 - KX u ^ 2 - KY v ^ 2)).
  set (AA := fun u v q => Cmult (Cmult (Cmult (RtoC (/ INR n0)) (RtoC (/ INR n1))) (fft2 n0 n1 (b q) u v))
                                (cis (- (KX u * X0 + KY v * Y0 + KZ u v q * z - dft_omega nt dt q * T0)))).
  set (idx := list_prod (seq 0 n0) (list_prod (seq 0 n1) (seq 0 nt))).
  set (mk := fun e : nat * (nat * nat) => mkPW (AA (fst e) (fst (snd e)) (snd (snd e))) (KX (fst e)) (KY (fst (snd e))) (W (snd (snd e)))).
  assert (Hin : forall u v q, In (u, (v, q)) idx -> (u < n0)%nat /\ (v < n1)%nat /\ (q < nt)%nat).
  { intros u v q H. apply in_prod_iff in H. destruct H as (H & H'). apply in_prod_iff in H'. destruct H' as (H' & H'').
    apply in_seq in H, H', H''. lia. }
  exists (map mk idx). split.
  - apply Forall_map, Forall_forall. intros [u [v q]] Hu. destruct (Hin u v q Hu) as (Q1 & Q2 & Q3). unfold fits_xyt, mk, axis_points. cbn [pw_kx pw_ky pw_w fst snd].
    rewrite Lx, Ly, Lt. fold hx hy dt w0.
    assert (Ww : lattice nt dt (W q - w0)) by (exists q; split; [exact Q3|unfold W; ring]).
    assert (Wx : lattice n0 hx (KX u)) by (exists u; split; [exact Q1|reflexivity]).
    assert (Wy : lattice n1 hy (KY v)) by (exists v; split; [exact Q2|reflexivity]).
    unfold axis_points in Hprop. rewrite Lx, Ly, Lt in Hprop. destruct (Hprop _ _ _ Wx Wy Ww) as (P1 & P2). auto.
  - exists a. split; [exact Ha|]. rewrite Lx, Ly, Lt. intros i j k Hi Hj Hk. cbn zeta. rewrite (Hx i Hi), (Hy j Hj), (Ht k Hk). fold w0.
    unfold plane_waves. rewrite lsum_mul_r, lsum_map.
    transitivity (lsum idx (fun e => Cmult (Cmult (Cmult (Cmult (RtoC (/ INR n0)) (RtoC (/ INR n1))) (fft2 n0 n1 (b (snd (snd e))) (fst e) (fst (snd e))))
       (Cmult (cis (2 * PI * (INR i * INR (fst e)) / INR n0)) (cis (2 * PI * (INR j * INR (fst (snd e))) / INR n1)))) (cis (- (2 * PI * (INR (snd (snd e)) * INR k) / INR nt))))).
    2:{ apply lsum_ext. intros [u [v q]] Hu. destruct (Hin u v q Hu) as (Q1 & Q2 & Q3). cbn [fst snd mk pw_A pw_kx pw_ky pw_w].
        change (pw_kz (mk (u, (v, q)))) with (KZ u v q). unfold AA. rewrite <- (lattice_cis n0 hx u i Phx Q1), <- (lattice_cis n1 hy v j Phy Q2), <- (line_cis nt dt Pdt q k Q3).
        rewrite <- !Cmult_assoc, <- !cis_plus. apply f_equal, f_equal, f_equal, f_equal. unfold KX, KY, W. ring. }
    unfold idx. rewrite lsum_prod, lsum_seq.
    rewrite (csum_ext n0 _ (fun u => csum n1 (fun v => csum nt (fun q => Cmult (Cmult (Cmult (Cmult (RtoC (/ INR n0)) (RtoC (/ INR n1))) (fft2 n0 n1 (b q) u v))
       (Cmult (cis (2 * PI * (INR i * INR u) / INR n0)) (cis (2 * PI * (INR j * INR v) / INR n1)))) (cis (- (2 * PI * (INR q * INR k) / INR nt))))))).
    2:{ intros u _. rewrite lsum_prod, lsum_seq. apply csum_ext. intros v _. rewrite lsum_seq. reflexivity. }
    rewrite (csum_ext n0 _ (fun u => csum nt (fun q => csum n1 (fun v => Cmult (Cmult (Cmult (Cmult (RtoC (/ INR n0)) (RtoC (/ INR n1))) (fft2 n0 n1 (b q) u v))
       (Cmult (cis (2 * PI * (INR i * INR u) / INR n0)) (cis (2 * PI * (INR j * INR v) / INR n1)))) (cis (- (2 * PI * (INR q * INR k) / INR nt))))))) by (intros u _; apply csum_swap).
    rewrite csum_swap.
    transitivity (fft1 nt (ifft1 nt (fun k => at3 a i j k)) k); [symmetry; apply (fft_ifft1 nt (fun k => at3 a i j k) k Hk)|].
    unfold fft1 at 1. apply csum_ext. intros q _. change (ifft1 nt (fun k => at3 a i j k) q) with (b q i j). rewrite <- (ifft2_fft2 n0 n1 (b q) i j Hi Hj).
      unfold ifft2, ifft1. rewrite <- csum_scal_l, <- csum_scal_r. apply csum_ext. intros u _.
      rewrite <- csum_scal_l, <- !csum_scal_r, <- csum_scal_l, <- csum_scal_r. apply csum_ext. intros v _. ring.
Qed.
