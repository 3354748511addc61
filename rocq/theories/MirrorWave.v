(** The exact angular-spectrum solver treats mirror images alike (instance for C103). *)
From Coquelicot Require Import Coquelicot.
From Verif Require Import PyBase CSum NpFFT FFTProofs NumPy GridModel GridSpec LaserSpec LaserModel LaserOps SolverSpec SolverProofs WaveSpec WaveProofs WaveSolver MirrorSpec MirrorProofs.
Open Scope R_scope.

Definition neg (b : bool) (n u : nat) : nat := if b then (if Nat.eqb u 0 then 0 else n - u)%nat else u.
Definition tw (b : bool) (n u : nat) : C := if b then cis (2 * PI * INR u / INR n) else RtoC 1.
Lemma neg_lt b n u : (u < n)%nat -> (neg b n u < n)%nat.
Proof. intros H. unfold neg. destruct b; [|exact H]. destruct (Nat.eqb_spec u 0); lia. Qed.
Lemma csum_neg b n f : csum n (fun u => f (neg b n u)) = csum n f.
Proof.
  unfold neg. destruct b; [|reflexivity]. destruct n as [|n]; [reflexivity|]. rewrite (csum_first n (fun u => f (if Nat.eqb u 0 then 0%nat else (S n - u)%nat))), (csum_first n f). f_equal.
  rewrite <- (csum_rev n (fun i => f (S i))). apply csum_ext. intros i Hi. cbn [Nat.eqb]. f_equal. lia.
Qed.
Lemma INR_sub_Z n i : (i < n)%nat -> INR (n - 1 - i) = INR n - 1 - INR i.
Proof. intros H. rewrite !minus_INR by lia. reflexivity. Qed.
Lemma cis_eq a b z : a = b + 2 * PI * IZR z -> cis a = cis b.
Proof. intros ->. apply cis_period. Qed.
Lemma neg_Z n u : (u < n)%nat -> exists z, INR (neg true n u) = IZR z * INR n - INR u.
Proof.
  intros H. unfold neg. destruct (Nat.eqb_spec u 0) as [->|].
  - exists 0%Z. cbn. ring.
  - exists 1%Z. rewrite minus_INR by lia. ring.
Qed.
Lemma fft_flip b n x u : (u < n)%nat -> fft1 n (fun i => x (flip b n i)) u = Cmult (tw b n u) (fft1 n x (neg b n u)).
Proof.
  intros Hu. assert (Hn : INR n <> 0) by (apply not_0_INR; lia).
  unfold tw, flip. destruct b; [|cbn [neg]; rewrite Cmult_1_l; reflexivity].
  destruct (neg_Z n u Hu) as (z & Hz). unfold fft1. rewrite Hz.
  rewrite <- (csum_rev n (fun i => Cmult (x i) (cis (- (2 * PI * (INR i * (IZR z * INR n - INR u)) / INR n))))), <- csum_scal_l.
  apply csum_ext. intros i Hi. rewrite (INR_sub_Z n i Hi).
  transitivity (Cmult (x (n - 1 - i)%nat) (Cmult (cis (2 * PI * INR u / INR n)) (cis (- (2 * PI * ((INR n - 1 - INR i) * (IZR z * INR n - INR u)) / INR n))))); [|ring].
  f_equal. rewrite <- cis_plus. apply (cis_eq _ _ (z * (Z.of_nat n - 1 - Z.of_nat i) - Z.of_nat u)%Z).
  rewrite minus_IZR, mult_IZR, !minus_IZR, <- !INR_IZR_INZ. field. exact Hn.
Qed.
Lemma ifft_flip b n X i : (i < n)%nat -> ifft1 n (fun u => Cmult (tw b n u) (X (neg b n u))) i = ifft1 n X (flip b n i).
Proof.
  intros Hi. assert (Hn : INR n <> 0) by (apply not_0_INR; lia). unfold ifft1. f_equal.
  rewrite <- (csum_neg b n (fun k => Cmult (X k) (cis (2 * PI * (INR (flip b n i) * INR k) / INR n)))).
  apply csum_ext. intros u Hu. unfold tw, flip. destruct b; [|cbn [neg]; rewrite Cmult_1_l; reflexivity].
  destruct (neg_Z n u Hu) as (z & Hz). rewrite Hz, (INR_sub_Z n i Hi).
  transitivity (Cmult (X (neg true n u)) (Cmult (cis (2 * PI * INR u / INR n)) (cis (2 * PI * (INR i * INR u) / INR n)))); [ring|].
  f_equal. rewrite <- cis_plus. apply (cis_eq _ _ (Z.of_nat u - z * (Z.of_nat n - 1 - Z.of_nat i))%Z).
  rewrite minus_IZR, mult_IZR, !minus_IZR, <- !INR_IZR_INZ. field. exact Hn.
Qed.
Lemma dft_omega_neg b n h u : (u < n)%nat -> dft_omega n h (neg b n u) ^ 2 = dft_omega n h u ^ 2.
Proof.
  intros Hu. unfold neg. destruct b; [|reflexivity]. destruct (Nat.eqb_spec u 0) as [->|Hu0]; [reflexivity|]. unfold dft_omega.
  pose proof (Nat.div_mod (n - 1) 2 ltac:(lia)) as D. pose proof (Nat.mod_upper_bound (n - 1) 2 ltac:(lia)) as B.
  set (q := ((n - 1) / 2)%nat) in *.
  destruct (Nat.ltb_spec u (S q)), (Nat.ltb_spec (n - u) (S q)).
  - assert (n = (2 * u)%nat) as E by lia. replace (n - u)%nat with u by lia. reflexivity.
  - rewrite minus_INR by lia. unfold Rdiv. ring.
  - rewrite minus_INR by lia. unfold Rdiv. ring.
  - assert (n = (2 * u)%nat) as E by lia. replace (n - u)%nat with u by lia. reflexivity.
Qed.

Theorem wave_solvers_mirror bx bY kr0 : mirror_solver bx bY (wave_solvers kr0).
Proof.
  intros p x w d nx ny Hw k i j Hk Hi Hj. cbn [wave_solvers step_xyt]. fold nx ny.
  transitivity (ifft2 nx ny (fun u v => Cmult (tw bx nx u) (Cmult (tw bY ny v) (Cmult (cis (exact_kz p k (neg bx nx u) (neg bY ny v) * d)) (fft2 nx ny (x k) (neg bx nx u) (neg bY ny v))))) i j).
  - apply ifft2_ext. intros u v Hu Hv.
    assert (Ek : exact_kz p k (neg bx nx u) (neg bY ny v) = exact_kz p k u v).
    { unfold exact_kz. fold nx ny. rewrite !dft_omega_neg by assumption. reflexivity. }
    rewrite Ek. rewrite (fft2_ext nx ny (w k) (fun i j => x k (flip bx nx i) (flip bY ny j))) by (intros; apply Hw; assumption).
    unfold fft2.
    rewrite (fft1_ext nx (fun i => fft1 ny (fun j => x k (flip bx nx i) (flip bY ny j)) v) (fun i => Cmult (tw bY ny v) (fft1 ny (x k (flip bx nx i)) (neg bY ny v)))).
    2: { intros q _. apply (fft_flip bY ny (x k (flip bx nx q)) v Hv). }
    rewrite fft1_scal, (fft_flip bx nx (fun i => fft1 ny (x k i) (neg bY ny v)) u Hu).
    set (A := fft1 nx _ _). ring.
  - unfold ifft2.
    rewrite <- (ifft_flip bx nx (fun u => ifft1 ny (fun v => Cmult (cis (exact_kz p k u v * d)) (fft2 nx ny (x k) u v)) (flip bY ny j)) i Hi).
    apply ifft1_ext. intros u Hu. rewrite ifft1_scal. f_equal.
    rewrite <- (ifft_flip bY ny (fun v => Cmult (cis (exact_kz p k (neg bx nx u) v * d)) (fft2 nx ny (x k) (neg bx nx u) v)) j Hj). reflexivity.
Qed.
