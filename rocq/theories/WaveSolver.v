(** Solvers that meet the contracts of C91: the angular-spectrum method on the grid points (Cartesian), and a
    one-beam solver (radial). *)
From Coquelicot Require Import Coquelicot.
From Verif Require Import PyBase CSum NpFFT FFTProofs NumPy GridModel GridSpec LaserSpec LaserModel SolverSpec SolverProofs DelayProofs WaveSpec WaveProofs.
Open Scope R_scope.

(** 2-D DFT over (x,y), multiplication by exp(i kz d) with kz = sqrt(k^2 - kx^2 - ky^2), inverse DFT. *)
Definition exact_kz (p : fft2_prop) (k u v : nat) : R :=
  sqrt (nth k (fp_k p) 0 ^ 2 - dft_omega (snd (fp_x p)) (fst (fp_x p) / (INR (snd (fp_x p)) - 1)) u ^ 2
                             - dft_omega (snd (fp_y p)) (fst (fp_y p) / (INR (snd (fp_y p)) - 1)) v ^ 2).
(** The radial solver knows one transverse wavenumber: it reads off the amplitude of that Bessel wave. *)
Definition beam_step (kr0 : R) (p : rt_prop) (x : nat -> nat -> C) (d : R) (k j : nat) : C :=
  let m := Z.abs_nat (rp_mode p) in
  Cmult (Cmult (x k 0%nat) (RtoC (/ bessel m (kr0 * nth 0 (rp_r p) 0))))
        (Cmult (RtoC (bessel m (kr0 * nth j (rt_out p) 0))) (cis (sqrt (nth k (rp_k p) 0 ^ 2 - kr0 ^ 2) * d))).
Definition wave_solvers (kr0 : R) : solvers :=
  mkSolvers (beam_step kr0)
    (fun p x d k i j => ifft2 (snd (fp_x p)) (snd (fp_y p))
       (fun u v => Cmult (cis (exact_kz p k u v * d)) (fft2 (snd (fp_x p)) (snd (fp_y p)) (x k) u v)) i j).
Definition one_beam (kr0 : R) (p : rt_prop) (kr : R) : Prop :=
  kr = kr0 /\ rp_r p <> [] /\ bessel (Z.abs_nat (rp_mode p)) (kr0 * nth 0 (rp_r p) 0) <> 0.

Lemma lattice_cis n h u i : h <> 0 -> (u < n)%nat -> cis (dft_omega n h u * (INR i * h)) = cis (2 * PI * (INR i * INR u) / INR n).
Proof.
  intros Hh Hu. replace (INR i * h) with (IZR (Z.of_nat i) * h) by (rewrite <- INR_IZR_INZ; reflexivity).
  rewrite (dft_cis n h u (Z.of_nat i) Hh Hu). f_equal. rewrite <- INR_IZR_INZ. unfold Rdiv. ring.
Qed.
Lemma ifft_spike n u0 i : (u0 < n)%nat -> ifft1 n (fun u => if Nat.eqb u u0 then RtoC (INR n) else RtoC 0) i = cis (2 * PI * (INR i * INR u0) / INR n).
Proof.
  intros H. unfold ifft1. rewrite (csum_single n _ u0 H).
  - rewrite Nat.eqb_refl, Cmult_assoc, <- RtoC_mult, Rinv_l by (apply INR_neq0; lia). ring.
  - intros u _ Hne. rewrite (proj2 (Nat.eqb_neq u u0) Hne). ring.
Qed.
Lemma fft_wave n u0 u : (u0 < n)%nat -> (u < n)%nat -> fft1 n (fun i => cis (2 * PI * (INR i * INR u0) / INR n)) u = if Nat.eqb u u0 then RtoC (INR n) else RtoC 0.
Proof.
  intros H0 H. rewrite <- (fft_ifft1 n (fun u => if Nat.eqb u u0 then RtoC (INR n) else RtoC 0) u H).
  apply fft1_ext. intros i _. symmetry. apply ifft_spike, H0.
Qed.

Section Exact.
Variable kr0 : R.
Variables (p : fft2_prop) (k : nat) (d : R).
Let nx := snd (fp_x p). Let ny := snd (fp_y p).
Let hx := fst (fp_x p) / (INR nx - 1). Let hy := fst (fp_y p) / (INR ny - 1).
Let step (x : nat -> nat -> C) (i j : nat) : C :=
  ifft2 nx ny (fun u v => Cmult (cis (exact_kz p k u v * d)) (fft2 nx ny x u v)) i j.
Lemma step_ext x y i j : (forall i j, (i < nx)%nat -> (j < ny)%nat -> x i j = y i j) -> step x i j = step y i j.
Proof. intros H. unfold step. apply ifft2_ext. intros u v _ _. f_equal. apply fft2_ext, H. Qed.
Lemma step_plus x y i j : step (fun i j => Cplus (x i j) (y i j)) i j = Cplus (step x i j) (step y i j).
Proof.
  unfold step, ifft2, fft2. rewrite <- ifft1_plus. apply ifft1_ext. intros u _. rewrite <- ifft1_plus. apply ifft1_ext. intros v _.
  rewrite <- Cmult_plus_distr_l. f_equal. rewrite <- fft1_plus. apply fft1_ext. intros q _. apply fft1_plus.
Qed.
Lemma step_scal s x i j : step (fun i j => Cmult s (x i j)) i j = Cmult s (step x i j).
Proof.
  unfold step, ifft2, fft2. rewrite <- ifft1_scal. apply ifft1_ext. intros u _. rewrite <- ifft1_scal. apply ifft1_ext. intros v _.
  rewrite (fft1_ext nx _ (fun q => Cmult s (fft1 ny (fun j => x q j) v))) by (intros q _; apply fft1_scal).
  rewrite fft1_scal. ring.
Qed.
Lemma step_zero i j : step (fun _ _ => RtoC 0) i j = RtoC 0.
Proof.
  rewrite (step_ext _ (fun i j => Cmult (RtoC 0) (RtoC 0))) by (intros; ring). rewrite step_scal. ring.
Qed.
Lemma step_wave u0 v0 i j : (u0 < nx)%nat -> (v0 < ny)%nat ->
  step (fun i j => Cmult (cis (2 * PI * (INR i * INR u0) / INR nx)) (cis (2 * PI * (INR j * INR v0) / INR ny))) i j =
  Cmult (cis (exact_kz p k u0 v0 * d)) (Cmult (cis (2 * PI * (INR i * INR u0) / INR nx)) (cis (2 * PI * (INR j * INR v0) / INR ny))).
Proof.
  intros Hu Hv. unfold step.
  rewrite (ifft2_ext nx ny _ (fun u v => Cmult (Cmult (cis (exact_kz p k u0 v0 * d)) (if Nat.eqb u u0 then RtoC (INR nx) else RtoC 0)) (if Nat.eqb v v0 then RtoC (INR ny) else RtoC 0))).
  - unfold ifft2. rewrite <- (ifft_spike nx u0 i Hu), <- (ifft_spike ny v0 j Hv).
    rewrite (ifft1_ext nx _ (fun u => Cmult (Cmult (cis (exact_kz p k u0 v0 * d)) (ifft1 ny (fun v => if Nat.eqb v v0 then RtoC (INR ny) else RtoC 0) j)) (if Nat.eqb u u0 then RtoC (INR nx) else RtoC 0))).
    + rewrite ifft1_scal. ring.
    + intros u _. rewrite ifft1_scal. ring.
  - intros u v Hu' Hv'. unfold fft2.
    rewrite (fft1_ext nx _ (fun i => Cmult (if Nat.eqb v v0 then RtoC (INR ny) else RtoC 0) (cis (2 * PI * (INR i * INR u0) / INR nx)))).
    + rewrite fft1_scal, (fft_wave nx u0 u Hu Hu'). destruct (Nat.eqb_spec u u0) as [->|]; [|ring].
      destruct (Nat.eqb_spec v v0) as [->|]; ring.
    + intros q _. rewrite fft1_scal, (fft_wave ny v0 v Hv Hv'). ring.
Qed.
End Exact.

Lemma wave_solvers_exact kr0 : exact_xyt (wave_solvers kr0).
Proof.
  intros p k tw x d Hk Px Py Nx Ny. cbn zeta.
  assert (Hhx : fst (fp_x p) / (INR (snd (fp_x p)) - 1) <> 0).
  { apply Rgt_not_eq, Rdiv_lt_0_compat; [exact Px|]. apply le_INR in Nx. cbn in Nx. lra. }
  assert (Hhy : fst (fp_y p) / (INR (snd (fp_y p)) - 1) <> 0).
  { apply Rgt_not_eq, Rdiv_lt_0_compat; [exact Py|]. apply le_INR in Ny. cbn in Ny. lra. }
  intros HF Hx i j Hi Hj. cbn [wave_solvers step_xyt].
  rewrite (step_ext p k d (x k) (fun i j => tr_waves (nth k (fp_k p) 0) (fst (fp_x p) / (INR (snd (fp_x p)) - 1)) (fst (fp_y p) / (INR (snd (fp_y p)) - 1)) tw i j 0) i j Hx).
  clear Hx. induction HF as [|[A [kx ky]] tw (_ & (u & Hu & Ex) & (v & Hv & Ey) & _) _ IH].
  - apply step_zero.
  - cbn [fst snd] in *. subst kx ky. unfold tr_waves. rewrite lsum_cons. fold (tr_waves (nth k (fp_k p) 0) (fst (fp_x p) / (INR (snd (fp_x p)) - 1)) (fst (fp_y p) / (INR (snd (fp_y p)) - 1)) tw i j d).
    rewrite <- IH.
    rewrite (step_ext p k d _ (fun i j => Cplus (Cmult A (Cmult (cis (2 * PI * (INR i * INR u) / INR (snd (fp_x p)))) (cis (2 * PI * (INR j * INR v) / INR (snd (fp_y p))))))
       (tr_waves (nth k (fp_k p) 0) (fst (fp_x p) / (INR (snd (fp_x p)) - 1)) (fst (fp_y p) / (INR (snd (fp_y p)) - 1)) tw i j 0))).
    + rewrite step_plus, step_scal, (step_wave p k d u v i j Hu Hv). f_equal. f_equal.
      rewrite <- (lattice_cis (snd (fp_x p)) _ u i Hhx Hu), <- (lattice_cis (snd (fp_y p)) _ v j Hhy Hv), <- !cis_plus. f_equal. unfold exact_kz. ring.
    + intros i' j' _ _. rewrite lsum_cons. f_equal. f_equal.
      rewrite <- (lattice_cis (snd (fp_x p)) _ u i' Hhx Hu), <- (lattice_cis (snd (fp_y p)) _ v j' Hhy Hv), <- !cis_plus. f_equal. ring.
Qed.

Lemma wave_solvers_exact_rt kr0 : exact_rt (wave_solvers kr0) (one_beam kr0).
Proof.
  intros p k tw x d Hk Hr. cbn zeta. intros HF Hx j Hj. cbn [wave_solvers step_rt]. unfold beam_step.
  rewrite (Hx 0%nat Hr). clear Hx.
  induction HF as [|[A kr] tw (_ & (E & _ & Hb) & _) _ IH].
  - unfold radial_waves, lsum. cbn [fold_right]. ring.
  - cbn [fst snd] in E. subst kr. unfold radial_waves in *. rewrite !lsum_cons, <- IH.
    rewrite Rmult_0_r, cis_0.
    set (J0 := bessel (Z.abs_nat (rp_mode p)) (kr0 * nth 0 (rp_r p) 0)) in *.
    assert (Q : Cmult (RtoC J0) (RtoC (/ J0)) = RtoC 1) by (rewrite <- RtoC_mult, Rinv_r by exact Hb; reflexivity).
    set (JJ := RtoC J0) in *. set (JI := RtoC (/ J0)) in *.
    set (B := RtoC (bessel (Z.abs_nat (rp_mode p)) (kr0 * nth j (rt_out p) 0))). set (c := cis _).
    set (X := lsum _ _).
    transitivity (Cplus (Cmult (Cmult A (Cmult B c)) (Cmult JJ JI)) (Cmult (Cmult X JI) (Cmult B c))); [ring|].
    rewrite Q. ring.
Qed.
