(** FromArrayProfile: exact at the nodes of the array, zero outside. *)
From Verif Require Import PyBase CSum NumPy NpMath NpMathProofs GridModel LaserModel FromArrayModel.
Open Scope R_scope.

Lemma amp_pha a i j k : Cmult (RtoC (Rabs (amp a i j k))) (cis (pha a i j k)) = at3 a i j k.
Proof.
  unfold amp, pha. rewrite cis_unwrap, Rabs_pos_eq by apply Cmod_ge_0. apply angle_polar.
Qed.
Lemma amp_pha2 a i k : Cmult (RtoC (Rabs (amp2 a i k))) (cis (pha2 a i k)) = at3 a i k 0.
Proof.
  unfold amp2, pha2. rewrite cis_unwrap, Rabs_pos_eq by apply Cmod_ge_0. apply angle_polar.
Qed.

Lemma eval_xyt_node xs ys ts a i j k : monotone xs = true -> monotone ys = true -> monotone ts = true ->
  (2 <= length xs)%nat -> (2 <= length ys)%nat -> (2 <= length ts)%nat ->
  (i < length xs)%nat -> (j < length ys)%nat -> (k < length ts)%nat ->
  eval_xyt xs ys ts a (vget xs i) (vget ys j) (vget ts k) = at3 a i j k.
Proof.
  intros. unfold eval_xyt. rewrite !in_axis_m_node by assumption. cbn [andb].
  rewrite !interp3_node by assumption. apply amp_pha.
Qed.
Lemma eval_rt_node rs ts a i k x y : monotone rs = true -> monotone ts = true ->
  (2 <= length rs)%nat -> (2 <= length ts)%nat ->
  (i < length rs)%nat -> (k < length ts)%nat -> sqrt (x ^ 2 + y ^ 2) = vget rs i ->
  eval_rt rs ts a x y (vget ts k) = at3 a i k 0.
Proof.
  intros H1 H2 H3 H4 H5 H6 H7. unfold eval_rt. rewrite H7. rewrite !in_axis_m_node by assumption. cbn [andb].
  rewrite !interp2_node by assumption. apply amp_pha2.
Qed.

(** Uniform axes. *)
Definition uniform_axis (off sp : R) (n : nat) : list R := map (fun i => off + INR i * sp) (seq 0 n).
Lemma uniform_length off sp n : length (uniform_axis off sp n) = n.
Proof. unfold uniform_axis. rewrite map_length, seq_length. reflexivity. Qed.
Lemma uniform_nth off sp n i : (i < n)%nat -> vget (uniform_axis off sp n) i = off + INR i * sp.
Proof.
  intros H. unfold vget, uniform_axis.
  rewrite (nth_indep _ 0 (off + INR 0 * sp)) by (rewrite map_length, seq_length; exact H).
  rewrite (map_nth (fun i => off + INR i * sp)), seq_nth by exact H. reflexivity.
Qed.
Lemma uniform_ascending off sp n : 0 < sp -> ascending (uniform_axis off sp n) = true.
Proof.
  intros H. apply ascending_iff. rewrite uniform_length. intros i Hi. rewrite !uniform_nth by lia. rewrite S_INR. lra.
Qed.
