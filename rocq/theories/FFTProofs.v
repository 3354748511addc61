(** Discrete Fourier transform: orthogonality, inversion, Parseval. *)
From Verif Require Import PyBase CSum NpFFT.
Open Scope R_scope.

Lemma cis_eq_1 a : cis a = RtoC 1 -> exists k : Z, a = 2 * PI * IZR k.
Proof.
  intros H; injection H as Hc Hs.
  assert (Hh : sin (a / 2) = 0).
  { assert (E : cos a = 1 - 2 * sin (a / 2) * sin (a / 2)).
    { rewrite <- cos_2a_sin; f_equal; lra. }
    rewrite Hc in E; nra. }
  apply sin_eq_0_0 in Hh; destruct Hh as [k Hk]; exists k; lra.
Qed.

(** sum_{k<N} (exp(i a))^k telescopes against (exp(i a) - 1). *)
Lemma geom_cis N a :
  Cmult (Cminus (cis a) (RtoC 1)) (csum N (fun k => cis (INR k * a))) = Cminus (cis (INR N * a)) (RtoC 1).
Proof.
  induction N as [|N IH].
  - simpl; rewrite Rmult_0_l, cis_0; ring.
  - cbn [csum]. rewrite Cmult_plus_distr_l, IH, S_INR.
    replace ((INR N + 1) * a) with (INR N * a + a) by ring.
    rewrite cis_plus; ring.
Qed.

Lemma INR_pos n : (0 < n)%nat -> 0 < INR n.
Proof. intros H; apply lt_0_INR; exact H. Qed.
Lemma INR_neq0 n : (0 < n)%nat -> INR n <> 0.
Proof. intros H; apply Rgt_not_eq, INR_pos, H. Qed.

Lemma ortho_nz N z : (0 < N)%nat -> (z mod Z.of_nat N <> 0)%Z ->
  csum N (fun k => cis (2 * PI * (INR k * IZR z) / INR N)) = RtoC 0.
Proof.
  intros HN Hz.
  set (a := 2 * PI * IZR z / INR N).
  rewrite (csum_ext _ _ (fun k => cis (INR k * a))).
  2:{ intros k _; f_equal; unfold a; field; apply INR_neq0; exact HN. }
  pose proof (geom_cis N a) as G.
  assert (E : cis (INR N * a) = RtoC 1).
  { replace (INR N * a) with (2 * PI * IZR z) by (unfold a; field; apply INR_neq0; exact HN).
    apply cis_2PI_Z. }
  rewrite E in G.
  destruct (Ceq_dec (cis a) (RtoC 1)) as [H1|H1].
  - exfalso; apply cis_eq_1 in H1; destruct H1 as [k Hk].
    apply Hz. unfold a in Hk.
    assert (IZR z = IZR (k * Z.of_nat N)) as Hzk.
    { rewrite mult_IZR, <- INR_IZR_INZ.
      pose proof PI_RGT_0. pose proof (INR_neq0 N HN).
      apply Rmult_eq_reg_l with (2 * PI / INR N).
      2:{ apply Rmult_integral_contrapositive_currified; [lra | apply Rinv_neq_0_compat; assumption]. }
      transitivity (2 * PI * IZR z / INR N); [field; assumption|].
      rewrite Hk; field; assumption. }
    apply eq_IZR in Hzk; rewrite Hzk. apply Z.mod_mul; lia.
  - assert (Hne : Cminus (cis a) (RtoC 1) <> RtoC 0) by (apply Cminus_eq_contra; exact H1).
    replace (Cminus (RtoC 1) (RtoC 1)) with (RtoC 0) in G by ring.
    set (S := csum N (fun k => cis (INR k * a))) in *.
    replace S with (Cmult (Cinv (Cminus (cis a) (RtoC 1))) (Cmult (Cminus (cis a) (RtoC 1)) S)).
    + rewrite G; ring.
    + rewrite Cmult_assoc, Cinv_l by exact Hne; ring.
Qed.

Lemma ortho_z N z : (0 < N)%nat -> (z mod Z.of_nat N = 0)%Z ->
  csum N (fun k => cis (2 * PI * (INR k * IZR z) / INR N)) = RtoC (INR N).
Proof.
  intros HN Hz.
  rewrite (csum_ext _ _ (fun _ => RtoC 1)).
  - rewrite csum_const; ring.
  - intros k _.
    rewrite (Z.div_mod z (Z.of_nat N)) by lia. rewrite Hz, Z.add_0_r, mult_IZR.
    rewrite <- INR_IZR_INZ, (INR_IZR_INZ k).
    replace (2 * PI * (IZR (Z.of_nat k) * (INR N * IZR (z / Z.of_nat N))) / INR N)
      with (2 * PI * IZR (Z.of_nat k * (z / Z.of_nat N))).
    + apply cis_2PI_Z.
    + rewrite mult_IZR; field; apply INR_neq0; exact HN.
Qed.

Lemma ortho N i j : (i < N)%nat -> (j < N)%nat ->
  csum N (fun k => cis (2 * PI * (INR k * (INR i - INR j)) / INR N)) =
  if Nat.eqb i j then RtoC (INR N) else RtoC 0.
Proof.
  intros Hi Hj.
  rewrite (csum_ext _ _ (fun k => cis (2 * PI * (INR k * IZR (Z.of_nat i - Z.of_nat j)) / INR N))).
  2:{ intros k _; rewrite minus_IZR, <- !INR_IZR_INZ; reflexivity. }
  destruct (Nat.eqb_spec i j) as [->|Hne].
  - apply ortho_z; [lia|]. rewrite Z.sub_diag; apply Z.mod_0_l; lia.
  - apply ortho_nz; [lia|]. intros H.
    apply Z.mod_divide in H; [|lia]. destruct H as [q Hq].
    assert (q = 0 \/ q >= 1 \/ q <= -1)%Z as [->|[Hq1|Hq1]] by lia; nia.
Qed.

(** ** Inversion *)
Lemma fft_ifft1 N X k : (k < N)%nat -> fft1 N (ifft1 N X) k = X k.
Proof.
  intros Hk; unfold fft1, ifft1.
  assert (HN : (0 < N)%nat) by lia.
  rewrite (csum_ext _ _ (fun n => Cmult (RtoC (/ INR N))
     (csum N (fun m => Cmult (X m) (cis (2 * PI * (INR n * (INR m - INR k)) / INR N)))))).
  2:{ intros n _. rewrite <- Cmult_assoc; f_equal. rewrite <- csum_scal_r. apply csum_ext; intros m _.
      rewrite <- Cmult_assoc, <- cis_plus; do 2 f_equal; field; apply INR_neq0; exact HN. }
  rewrite csum_scal_l, csum_swap.
  rewrite (csum_ext _ _ (fun m => Cmult (X m) (if Nat.eqb m k then RtoC (INR N) else RtoC 0))).
  2:{ intros m Hm; rewrite csum_scal_l, ortho by assumption; reflexivity. }
  rewrite (csum_single _ _ k); [|exact Hk|].
  - rewrite Nat.eqb_refl.
    replace (Cmult (RtoC (/ INR N)) (Cmult (X k) (RtoC (INR N))))
      with (Cmult (X k) (RtoC (/ INR N * INR N))) by (rewrite RtoC_mult; ring).
    rewrite Rinv_l by (apply INR_neq0; exact HN); ring.
  - intros i _ Hne. apply Nat.eqb_neq in Hne; rewrite Hne; ring.
Qed.

Lemma ifft_fft1 N x n : (n < N)%nat -> ifft1 N (fft1 N x) n = x n.
Proof.
  intros Hn; unfold fft1, ifft1.
  assert (HN : (0 < N)%nat) by lia.
  rewrite (csum_ext _ _ (fun k =>
     (csum N (fun m => Cmult (x m) (cis (2 * PI * (INR k * (INR n - INR m)) / INR N)))))).
  2:{ intros k _. rewrite <- csum_scal_r. apply csum_ext; intros m _.
      rewrite <- Cmult_assoc, <- cis_plus; do 2 f_equal; field; apply INR_neq0; exact HN. }
  rewrite csum_swap.
  rewrite (csum_ext _ _ (fun m => Cmult (x m) (if Nat.eqb n m then RtoC (INR N) else RtoC 0))).
  2:{ intros m Hm; rewrite csum_scal_l, ortho by assumption; reflexivity. }
  rewrite (csum_single _ _ n); [|exact Hn|].
  - rewrite Nat.eqb_refl.
    replace (Cmult (RtoC (/ INR N)) (Cmult (x n) (RtoC (INR N))))
      with (Cmult (x n) (RtoC (/ INR N * INR N))) by (rewrite RtoC_mult; ring).
    rewrite Rinv_l by (apply INR_neq0; exact HN); ring.
  - intros i _ Hne. apply not_eq_sym, Nat.eqb_neq in Hne; rewrite Hne; ring.
Qed.

(** ** Parseval *)
Lemma parseval_fft N x : (0 < N)%nat ->
  rsum N (fun k => Cnorm2 (fft1 N x k)) = INR N * rsum N (fun n => Cnorm2 (x n)).
Proof.
  intros HN. apply RtoC_inj.
  rewrite <- csum_RtoC.
  rewrite (csum_ext _ _ (fun k => csum N (fun m => csum N (fun n =>
      Cmult (Cmult (x m) (Cconj (x n))) (cis (2 * PI * (INR k * (INR n - INR m)) / INR N)))))).
  2:{ intros k _. rewrite Cnorm2_conj. unfold fft1. rewrite Cconj_csum, csum_mult.
      apply csum_ext; intros m _; apply csum_ext; intros n _.
      rewrite Cconj_mult, <- cis_opp.
      replace (2 * PI * (INR k * (INR n - INR m)) / INR N)
        with (- (2 * PI * (INR m * INR k) / INR N) + - - (2 * PI * (INR n * INR k) / INR N))
        by (field; apply INR_neq0; exact HN).
      rewrite cis_plus; ring. }
  rewrite csum_swap.
  rewrite (csum_ext _ _ (fun m => Cmult (RtoC (INR N)) (RtoC (Cnorm2 (x m))))).
  - rewrite csum_scal_l, csum_RtoC, <- RtoC_mult; reflexivity.
  - intros m Hm. rewrite csum_swap.
    rewrite (csum_ext _ _ (fun n => Cmult (Cmult (x m) (Cconj (x n)))
         (if Nat.eqb n m then RtoC (INR N) else RtoC 0))).
    2:{ intros n Hn; rewrite csum_scal_l, ortho by assumption; reflexivity. }
    rewrite (csum_single _ _ m); [|exact Hm|].
    + rewrite Nat.eqb_refl, Cnorm2_conj; ring.
    + intros i _ Hne; apply Nat.eqb_neq in Hne; rewrite Hne; ring.
Qed.

Lemma fft1_ext N x y k : (forall n, (n < N)%nat -> x n = y n) -> fft1 N x k = fft1 N y k.
Proof. intros H; unfold fft1; apply csum_ext; intros n Hn; rewrite H by exact Hn; reflexivity. Qed.
Lemma ifft1_ext N x y k : (forall n, (n < N)%nat -> x n = y n) -> ifft1 N x k = ifft1 N y k.
Proof. intros H; unfold ifft1; f_equal; apply csum_ext; intros n Hn; rewrite H by exact Hn; reflexivity. Qed.
Lemma fft1_scal N s x k : fft1 N (fun n => Cmult s (x n)) k = Cmult s (fft1 N x k).
Proof. unfold fft1; rewrite <- csum_scal_l; apply csum_ext; intros; ring. Qed.
Lemma ifft1_scal N s x k : ifft1 N (fun n => Cmult s (x n)) k = Cmult s (ifft1 N x k).
Proof.
  unfold ifft1. rewrite (csum_ext _ _ (fun n => Cmult s (Cmult (x n) (cis (2 * PI * (INR k * INR n) / INR N))))) by (intros; ring).
  rewrite csum_scal_l; ring.
Qed.
Lemma fft1_plus N x y k : fft1 N (fun n => Cplus (x n) (y n)) k = Cplus (fft1 N x k) (fft1 N y k).
Proof. unfold fft1; rewrite <- csum_plus; apply csum_ext; intros; ring. Qed.
Lemma ifft1_plus N x y k : ifft1 N (fun n => Cplus (x n) (y n)) k = Cplus (ifft1 N x k) (ifft1 N y k).
Proof.
  unfold ifft1. rewrite <- Cmult_plus_distr_l, <- csum_plus; f_equal; apply csum_ext; intros; ring.
Qed.

Lemma parseval_ifft N X : (0 < N)%nat ->
  rsum N (fun k => Cnorm2 (X k)) = INR N * rsum N (fun n => Cnorm2 (ifft1 N X n)).
Proof.
  intros HN. rewrite <- parseval_fft by exact HN.
  apply rsum_ext; intros k Hk; rewrite fft_ifft1 by exact Hk; reflexivity.
Qed.
