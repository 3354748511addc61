(** Property theorems C77 (orthonormality of the Hermite-Gauss modes). *)
From Coquelicot Require Import Coquelicot.
From Verif Require Import PyBase CSum AnalyticModel AnalyticProofs ModeOrthoSpec HGOrtho HGSuper.
Open Scope R_scope.

(** C77: whatever the waist, the wavelength and the distance to the focus, the scalar product of two profiles returned by
    HermiteGaussianTransverseProfile with the same parameters is 1 if both orders agree and 0 otherwise. *)
Theorem C77_orthonormal :
  forall w0 wavelength z_foc nx ny mx my f g, 0 < w0 ->
  hg_transverse w0 nx ny wavelength z_foc = Ok f -> hg_transverse w0 mx my wavelength z_foc = Ok g ->
  (nx = mx -> ny = my -> overlap f g (RtoC 1)) /\ (nx <> mx \/ ny <> my -> overlap f g (RtoC 0)).
Proof.
  intros w0 wl zf nx ny mx my f g Hw. unfold hg_transverse. destruct (z_foc_over_zr w0 wl zf) as [z|]; [|discriminate]. cbn [bind].
  intros F G. injection F as <-. injection G as <-. pose proof (c77_hermite w0 nx ny mx my z Hw) as H. split.
  - intros -> ->. rewrite !Nat.eqb_refl in H. exact H.
  - intros [N|N]; apply Nat.eqb_neq in N; rewrite N in H; [|rewrite andb_false_r in H]; exact H.
Qed.
Print Assumptions C77_orthonormal.
(** C77: the scalar product of a superposition with a mode is the coefficient of that mode, and with itself the sum of the
    squared coefficients, in every plane. *)
Theorem C77_coefficients :
  forall w0 z N M c m n, 0 < w0 ->
  ((m < N)%nat -> (n < M)%nat -> overlap (hg_sum w0 z N M c) (hg_trans_at w0 m n z) (c m n)) /\
  ((N <= m)%nat \/ (M <= n)%nat -> overlap (hg_sum w0 z N M c) (hg_trans_at w0 m n z) (RtoC 0)).
Proof.
  intros w0 z N M c m n Hw. destruct (c77_coefficient w0 z N M c m n Hw) as [_ H]. split.
  - intros A B. apply Nat.ltb_lt in A, B. rewrite A, B in H. exact H.
  - intros [A|A]; apply Nat.ltb_ge in A; rewrite A in H; [|rewrite andb_false_r in H]; exact H.
Qed.
Print Assumptions C77_coefficients.
Theorem C77_energy :
  forall w0 z N M c, 0 < w0 ->
  overlap (hg_sum w0 z N M c) (hg_sum w0 z N M c) (RtoC (rsum N (fun i => rsum M (fun j => Cmod (c i j) ^ 2)))).
Proof. exact c77_energy. Qed.
Print Assumptions C77_energy.
(** Modes out of focus are returned by the constructor, and are not zero. *)
Example C77_nonvacuous : exists f g, hg_transverse 2 1 0 (Some 1) 5 = Ok f /\ hg_transverse 2 0 0 (Some 1) 5 = Ok g /\
  overlap f f (RtoC 1) /\ overlap f g (RtoC 0).
Proof.
  assert (Z : forall n m, hg_transverse 2 n m (Some 1) 5 = Ok (hg_trans_at 2 n m (5 * 1 / (PI * 2 ^ 2)))).
  { intros n m. unfold hg_transverse, z_foc_over_zr. replace (Reqb 5 0) with false by (symmetry; apply Reqb_false; lra). reflexivity. }
  exists (hg_trans_at 2 1 0 (5 * 1 / (PI * 2 ^ 2))), (hg_trans_at 2 0 0 (5 * 1 / (PI * 2 ^ 2))). split; [apply Z|]. split; [apply Z|].
  destruct (C77_orthonormal 2 (Some 1) 5 1 0 1 0 _ _ ltac:(lra) (Z _ _) (Z _ _)) as [A _].
  destruct (C77_orthonormal 2 (Some 1) 5 1 0 0 0 _ _ ltac:(lra) (Z _ _) (Z _ _)) as [_ B].
  split; [exact (A eq_refl eq_refl)|apply B; left; discriminate].
Qed.
