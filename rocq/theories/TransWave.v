(** The exact angular-spectrum solver treats x and y alike (instance for C106). *)
From Coquelicot Require Import Coquelicot.
From Verif Require Import PyBase CSum NpFFT FFTProofs NumPy GridModel LaserModel SolverSpec SolverProofs WaveSpec WaveSolver TransSpec.
Open Scope R_scope.

Lemma fft2_transpose nx ny x u v : fft2 ny nx (fun i j => x j i) u v = fft2 nx ny x v u.
Proof.
  unfold fft2, fft1.
  transitivity (csum ny (fun j => csum nx (fun i => Cmult (Cmult (x i j) (cis (- (2 * PI * (INR i * INR v) / INR nx)))) (cis (- (2 * PI * (INR j * INR u) / INR ny)))))).
  - apply csum_ext. intros j _. rewrite Cmult_comm, <- csum_scal_l. apply csum_ext. intros i _. ring.
  - rewrite csum_swap. apply csum_ext. intros i _. rewrite (Cmult_comm (csum ny _)), <- csum_scal_l. apply csum_ext. intros j _. ring.
Qed.
Lemma ifft2_transpose nx ny X i j : ifft2 ny nx (fun u v => X v u) i j = ifft2 nx ny X j i.
Proof.
  unfold ifft2, ifft1.
  assert (E : csum ny (fun u => Cmult (Cmult (RtoC (/ INR nx)) (csum nx (fun v => Cmult (X v u) (cis (2 * PI * (INR j * INR v) / INR nx))))) (cis (2 * PI * (INR i * INR u) / INR ny))) =
    Cmult (RtoC (/ INR nx)) (csum nx (fun v => csum ny (fun u => Cmult (Cmult (X v u) (cis (2 * PI * (INR j * INR v) / INR nx))) (cis (2 * PI * (INR i * INR u) / INR ny)))))).
  { rewrite <- (csum_swap ny nx), <- csum_scal_l. apply csum_ext. intros u _. rewrite <- Cmult_assoc, (Cmult_comm (csum nx _)), <- csum_scal_l. f_equal. apply csum_ext. intros v _. ring. }
  assert (F : csum nx (fun v => Cmult (Cmult (RtoC (/ INR ny)) (csum ny (fun u => Cmult (X v u) (cis (2 * PI * (INR i * INR u) / INR ny))))) (cis (2 * PI * (INR j * INR v) / INR nx))) =
    Cmult (RtoC (/ INR ny)) (csum nx (fun v => csum ny (fun u => Cmult (Cmult (X v u) (cis (2 * PI * (INR j * INR v) / INR nx))) (cis (2 * PI * (INR i * INR u) / INR ny)))))).
  { rewrite <- csum_scal_l. apply csum_ext. intros v _. rewrite <- Cmult_assoc, (Cmult_comm (csum ny _)), <- csum_scal_l. f_equal. apply csum_ext. intros u _. ring. }
  rewrite E, F. ring.
Qed.
Theorem wave_solvers_transpose kr0 : transpose_solver (wave_solvers kr0).
Proof.
  intros p x d k i j. cbn [wave_solvers step_xyt fp_x fp_y fp_k].
  rewrite <- (ifft2_transpose (snd (fp_x p)) (snd (fp_y p))). apply ifft2_ext. intros u v _ _.
  rewrite (fft2_transpose (snd (fp_x p)) (snd (fp_y p)) (x k)). f_equal. f_equal. f_equal. unfold exact_kz. cbn [fp_x fp_y fp_k]. f_equal. ring.
Qed.
