(** The concrete solvers of SolverSpec satisfy the assumed laws. *)
From Verif Require Import PyBase CSum NpFFT FFTProofs LaserModel SolverSpec.
Open Scope R_scope.

Lemma fft_ifft_swap nx ny (Y : nat -> nat -> C) i v :
  fft1 ny (fun j => ifft1 nx (fun u => Y u j) i) v = ifft1 nx (fun u => fft1 ny (fun j => Y u j) v) i.
Proof.
  unfold fft1, ifft1.
  rewrite (csum_ext _ _ (fun j => Cmult (RtoC (/ INR nx)) (csum nx (fun k =>
     Cmult (Cmult (Y k j) (cis (2 * PI * (INR i * INR k) / INR nx))) (cis (- (2 * PI * (INR j * INR v) / INR ny))))))).
  2:{ intros j _. rewrite <- Cmult_assoc. f_equal. rewrite <- csum_scal_r. reflexivity. }
  rewrite csum_scal_l. f_equal. rewrite csum_swap. apply csum_ext; intros k _.
  rewrite <- csum_scal_r. apply csum_ext; intros j _. ring.
Qed.
Lemma ifft_fft_swap nx ny (Y : nat -> nat -> C) u j :
  ifft1 ny (fun v => fft1 nx (fun i => Y i v) u) j = fft1 nx (fun i => ifft1 ny (fun v => Y i v) j) u.
Proof. symmetry. apply (fft_ifft_swap ny nx (fun v i => Y i v)). Qed.

Lemma fft2_ext nx ny x y u v : (forall i j, (i < nx)%nat -> (j < ny)%nat -> x i j = y i j) ->
  fft2 nx ny x u v = fft2 nx ny y u v.
Proof. intros H. unfold fft2. apply fft1_ext; intros i Hi. apply fft1_ext; intros j Hj. auto. Qed.
Lemma ifft2_ext nx ny x y u v : (forall i j, (i < nx)%nat -> (j < ny)%nat -> x i j = y i j) ->
  ifft2 nx ny x u v = ifft2 nx ny y u v.
Proof. intros H. unfold ifft2. apply ifft1_ext; intros i Hi. apply ifft1_ext; intros j Hj. auto. Qed.
Lemma fft2_ifft2 nx ny X u v : (u < nx)%nat -> (v < ny)%nat -> fft2 nx ny (ifft2 nx ny X) u v = X u v.
Proof.
  intros Hu Hv. unfold fft2, ifft2.
  rewrite (fft1_ext nx _ (fun i => ifft1 nx (fun u => X u v) i)).
  - apply (fft_ifft1 nx (fun u => X u v)); exact Hu.
  - intros i _. rewrite fft_ifft_swap. apply ifft1_ext; intros u' _. apply fft_ifft1, Hv.
Qed.
Lemma ifft2_fft2 nx ny x i j : (i < nx)%nat -> (j < ny)%nat -> ifft2 nx ny (fft2 nx ny x) i j = x i j.
Proof.
  intros Hi Hj. unfold fft2, ifft2.
  rewrite (ifft1_ext nx _ (fun u => fft1 nx (fun i => x i j) u)).
  - apply (ifft_fft1 nx (fun i => x i j)); exact Hi.
  - intros u _. rewrite ifft_fft_swap. apply fft1_ext; intros i' _. apply ifft_fft1, Hj.
Qed.
Lemma fft2_scal nx ny z x u v : fft2 nx ny (fun i j => Cmult z (x i j)) u v = Cmult z (fft2 nx ny x u v).
Proof. unfold fft2. rewrite <- fft1_scal. apply fft1_ext; intros. apply fft1_scal. Qed.
Lemma ifft2_scal nx ny z x u v : ifft2 nx ny (fun i j => Cmult z (x i j)) u v = Cmult z (ifft2 nx ny x u v).
Proof. unfold ifft2. rewrite <- ifft1_scal. apply ifft1_ext; intros. apply ifft1_scal. Qed.
Lemma fft2_parseval nx ny x : (0 < nx)%nat -> (0 < ny)%nat ->
  rsum nx (fun u => rsum ny (fun v => Cnorm2 (fft2 nx ny x u v))) =
  INR nx * INR ny * rsum nx (fun i => rsum ny (fun j => Cnorm2 (x i j))).
Proof.
  intros H1 H2. unfold fft2. rewrite rsum_swap.
  rewrite (rsum_ext _ _ (fun v => INR nx * rsum nx (fun i => Cnorm2 (fft1 ny (fun j => x i j) v))))
    by (intros v _; apply (parseval_fft nx (fun i => fft1 ny (fun j => x i j) v)), H1).
  rewrite rsum_scal_l, rsum_swap.
  rewrite (rsum_ext _ (fun j => rsum ny (fun i => Cnorm2 (fft1 ny (fun j0 => x j j0) i)))
    (fun i => INR ny * rsum ny (fun j => Cnorm2 (x i j)))) by (intros i _; apply parseval_fft, H2).
  rewrite rsum_scal_l. ring.
Qed.

Lemma asm_per_frequency : per_frequency asm_solvers.
Proof.
  constructor; cbn [step_rt step_xyt asm_solvers].
  - intros p x y d H k j Hk Hj. rewrite H by assumption. reflexivity.
  - intros. ring.
  - intros p x y d H k i j Hk Hi Hj. apply ifft2_ext; intros u v _ _. f_equal. apply fft2_ext. intros; apply H; assumption.
  - intros p x z d k i j _ _ _. rewrite <- ifft2_scal. apply ifft2_ext; intros u v _ _. rewrite fft2_scal. ring.
Qed.
Lemma asm_additive : additive asm_solvers.
Proof.
  split; cbn [step_rt step_xyt asm_solvers].
  - intros. rewrite Rmult_plus_distr_l, cis_plus. ring.
  - intros p x d1 d2 k i j _ _ _. apply ifft2_ext; intros u v Hu Hv.
    change (fun i0 j0 => ifft2 (snd (fp_x p)) (snd (fp_y p)) _ i0 j0) with
      (ifft2 (snd (fp_x p)) (snd (fp_y p))
         (fun u v => Cmult (cis (asm_kz p k u v * d1)) (fft2 (snd (fp_x p)) (snd (fp_y p)) (x k) u v))).
    rewrite fft2_ifft2 by assumption. rewrite Rmult_plus_distr_l, cis_plus. ring.
Qed.
Lemma asm_zero : zero_step asm_solvers.
Proof.
  split; cbn [step_rt step_xyt asm_solvers].
  - intros. rewrite Rmult_0_r, cis_0. ring.
  - intros p x k i j _ Hi Hj. rewrite <- (ifft2_fft2 (snd (fp_x p)) (snd (fp_y p)) (x k) i j) by assumption.
    apply ifft2_ext; intros. rewrite Rmult_0_r, cis_0. ring.
Qed.
Lemma asm_unitary : unitary asm_solvers.
Proof.
  split; cbn [step_rt step_xyt asm_solvers].
  - intros. apply rsum_ext; intros. rewrite Cnorm2_mult, Cnorm2_cis. ring.
  - intros p x d k Hk. set (nx := snd (fp_x p)). set (ny := snd (fp_y p)).
    destruct (Nat.eq_0_gt_0_cases nx) as [-> |H1]; [reflexivity|].
    destruct (Nat.eq_0_gt_0_cases ny) as [-> |H2]; [apply rsum_ext; intros; reflexivity|].
    assert (P1 : 0 < INR nx) by (apply lt_0_INR; lia). assert (P2 : 0 < INR ny) by (apply lt_0_INR; lia).
    apply (Rmult_eq_reg_l (INR nx * INR ny)); [|apply Rgt_not_eq, Rmult_lt_0_compat; assumption].
    rewrite <- !fft2_parseval by assumption.
    apply rsum_ext; intros u Hu. apply rsum_ext; intros v Hv.
    change (fun i j => x k i j) with (x k).
    match goal with |- Cnorm2 (fft2 nx ny ?f u v) = _ => change f with (ifft2 nx ny (fun u v => Cmult (cis (asm_kz p k u v * d)) (fft2 nx ny (x k) u v))) end.
    rewrite fft2_ifft2 by assumption. rewrite Cnorm2_mult, Cnorm2_cis. ring.
Qed.
