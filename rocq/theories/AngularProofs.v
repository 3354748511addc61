(** Azimuthal-mode algebra: slots, reconstruction and orthogonality over equally spaced angles. *)
From Verif Require Import PyBase CSum NpFFT FFTProofs NumPy GridModel GridSpec GridProofs LaserSpec.
Open Scope R_scope.

(** Sum over storage slots = sum over m = -(M-1)..M-1. *)
Lemma csum_slots (M : nat) (F : nat -> C) : (1 <= M)%nat ->
  csum (2 * M - 1) F =
  csum (2 * M - 1) (fun q => F (mode_slot M (Z.of_nat q - (Z.of_nat M - 1)))).
Proof.
  intros HM.
  replace (2 * M - 1)%nat with (M + (M - 1))%nat at 1 by lia.
  replace (2 * M - 1)%nat with ((M - 1) + M)%nat at 1 by lia.
  rewrite (csum_split M (M - 1)), (csum_split (M - 1) M). rewrite Cplus_comm. f_equal.
  - apply csum_ext; intros i Hi. f_equal. unfold mode_slot.
    destruct (Z.leb_spec 0 (Z.of_nat i - (Z.of_nat M - 1))); lia.
  - apply csum_ext; intros i Hi. f_equal. unfold mode_slot.
    destruct (Z.leb_spec 0 (Z.of_nat (M - 1 + i) - (Z.of_nat M - 1))); lia.
Qed.
Lemma rsum_slots (M : nat) (F : nat -> R) : (1 <= M)%nat ->
  rsum (2 * M - 1) F =
  rsum (2 * M - 1) (fun q => F (mode_slot M (Z.of_nat q - (Z.of_nat M - 1)))).
Proof.
  intros HM.
  replace (2 * M - 1)%nat with (M + (M - 1))%nat at 1 by lia.
  replace (2 * M - 1)%nat with ((M - 1) + M)%nat at 1 by lia.
  rewrite (rsum_split M (M - 1)), (rsum_split (M - 1) M). rewrite Rplus_comm. f_equal.
  - apply rsum_ext; intros i Hi. f_equal. unfold mode_slot.
    destruct (Z.leb_spec 0 (Z.of_nat i - (Z.of_nat M - 1))); lia.
  - apply rsum_ext; intros i Hi. f_equal. unfold mode_slot.
    destruct (Z.leb_spec 0 (Z.of_nat (M - 1 + i) - (Z.of_nat M - 1))); lia.
Qed.

(** Orthogonality on N equally spaced angles. *)
Lemma angle_ortho N (z : Z) : (0 < N)%nat -> (- Z.of_nat N < z < Z.of_nat N)%Z ->
  csum N (fun a => cis (IZR z * (2 * PI / INR N * INR a))) =
  if Z.eqb z 0 then RtoC (INR N) else RtoC 0.
Proof.
  intros HN Hz. pose proof (INR_neq0 N HN) as HNn.
  rewrite (csum_ext _ _ (fun a => cis (2 * PI * (INR a * IZR z) / INR N)))
    by (intros; f_equal; field; exact HNn).
  destruct (Z.eqb_spec z 0) as [->|Hne].
  - apply ortho_z; [exact HN|]. apply Zmod_0_l.
  - apply ortho_nz; [exact HN|]. intros Hm.
    apply Z.mod_divide in Hm; [|lia]. destruct Hm as (q & ->).
    assert (q = 0 \/ q >= 1 \/ q <= -1)%Z as [->|[Hq|Hq]] by lia; [apply Hne; reflexivity| nia | nia].
Qed.

(** Parseval over the angle: average of |recon|^2 = sum of |E_m|^2. *)
Lemma recon_parseval (M N : nat) (E : Z -> C) : (1 <= M)%nat -> (2 * M - 1 <= N)%nat ->
  / INR N * rsum N (fun a => Cnorm2 (recon M E (2 * PI / INR N * INR a))) =
  rsum (2 * M - 1) (fun q => Cnorm2 (E (Z.of_nat q - (Z.of_nat M - 1))%Z)).
Proof.
  intros HM HN. assert (HN0 : (0 < N)%nat) by lia. pose proof (INR_neq0 N HN0) as HNn.
  set (mm := fun q : nat => (Z.of_nat q - (Z.of_nat M - 1))%Z).
  apply RtoC_inj. rewrite RtoC_mult, <- !csum_RtoC.
  rewrite (csum_ext N _ (fun a =>
     csum (2 * M - 1) (fun p => csum (2 * M - 1) (fun q =>
        Cmult (Cmult (E (mm p)) (Cconj (E (mm q))))
              (cis (IZR (mm q - mm p)%Z * (2 * PI / INR N * INR a))))))).
  2:{ intros a _. rewrite Cnorm2_conj. unfold recon. rewrite Cconj_csum, csum_mult.
      apply csum_ext; intros p _. apply csum_ext; intros q _. fold (mm p) (mm q).
      rewrite Cconj_mult, <- cis_opp.
      transitivity (Cmult (Cmult (E (mm p)) (Cconj (E (mm q))))
        (Cmult (cis (- (IZR (mm p) * (2 * PI / INR N * INR a))))
               (cis (- - (IZR (mm q) * (2 * PI / INR N * INR a)))))); [ring|].
      rewrite <- cis_plus. f_equal. f_equal. rewrite minus_IZR. ring. }
  rewrite csum_swap.
  rewrite <- csum_scal_l. apply csum_ext; intros p Hp.
  rewrite csum_swap.
  rewrite (csum_ext (2 * M - 1) _ (fun q =>
     Cmult (Cmult (E (mm p)) (Cconj (E (mm q)))) (if Nat.eqb q p then RtoC (INR N) else RtoC 0))).
  2:{ intros q Hq. rewrite csum_scal_l. f_equal. rewrite angle_ortho; [|exact HN0|unfold mm; lia].
      destruct (Z.eqb_spec (mm q - mm p) 0), (Nat.eqb_spec q p); try reflexivity; unfold mm in *; lia. }
  rewrite (csum_single _ _ p Hp).
  - rewrite Nat.eqb_refl. fold (mm p). rewrite Cnorm2_conj. 
    transitivity (Cmult (Cmult (RtoC (/ INR N)) (RtoC (INR N))) (Cmult (E (mm p)) (Cconj (E (mm p))))); [ring|].
    rewrite <- RtoC_mult, Rinv_l by exact HNn. ring.
  - intros q Hq Hne. destruct (Nat.eqb_spec q p); [congruence|]. ring.
Qed.

(** Extraction of a mode by the inverse DFT over N equally spaced angles: if the samples are
    sum_{|m'|<=K} a_m' e^{-i m' theta}, entry i of the inverse DFT is the a_m with m = i (mod N). *)
Lemma ifft_extract (K N : nat) (A : Z -> C) (i : nat) (m : Z) :
  (0 < N)%nat -> (i < N)%nat ->
  (exists q, Z.of_nat i = m + q * Z.of_nat N)%Z ->
  (Z.abs m + Z.of_nat K < Z.of_nat N)%Z ->
  ifft1 N (fun a => recon (S K) A (2 * PI / INR N * INR a)) i =
  if Z.leb (Z.abs m) (Z.of_nat K) then A m else RtoC 0.
Proof.
  intros HN Hi (c & Hc) HK. pose proof (INR_neq0 N HN) as HNn.
  set (mm := fun q : nat => (Z.of_nat q - (Z.of_nat (S K) - 1))%Z).
  unfold ifft1, recon.
  rewrite (csum_ext N _ (fun a => csum (2 * S K - 1) (fun q =>
      Cmult (A (mm q)) (cis (IZR (m - mm q)%Z * (2 * PI / INR N * INR a)))))).
  2:{ intros a _. rewrite <- csum_scal_r. apply csum_ext; intros q _. fold (mm q).
      transitivity (Cmult (A (mm q)) (Cmult (cis (- (IZR (mm q) * (2 * PI / INR N * INR a))))
          (cis (2 * PI * (INR i * INR a) / INR N)))); [ring|].
      f_equal. rewrite <- cis_plus.
      rewrite <- (cis_period (IZR (m - mm q) * (2 * PI / INR N * INR a)) (c * Z.of_nat a)).
      f_equal. rewrite minus_IZR, mult_IZR, <- INR_IZR_INZ.
      assert (Hi' : INR i = IZR m + IZR c * INR N).
      { rewrite !INR_IZR_INZ, Hc, plus_IZR, mult_IZR. reflexivity. }
      rewrite Hi'. field. exact HNn. }
  rewrite csum_swap, <- csum_scal_l.
  rewrite (csum_ext _ _ (fun q => Cmult (A (mm q)) (if Z.eqb (m - mm q) 0 then RtoC 1 else RtoC 0))).
  2:{ intros q Hq. rewrite csum_scal_l. rewrite angle_ortho; [|exact HN|unfold mm; lia].
      destruct (Z.eqb (m - mm q) 0).
      - transitivity (Cmult (A (mm q)) (Cmult (RtoC (/ INR N)) (RtoC (INR N)))); [ring|].
        rewrite <- RtoC_mult, Rinv_l by exact HNn. reflexivity.
      - ring. }
  destruct (Z.leb_spec (Z.abs m) (Z.of_nat K)) as [Hm|Hm].
  - rewrite (csum_single _ _ (Z.to_nat (m + Z.of_nat K))).
    + assert (E : mm (Z.to_nat (m + Z.of_nat K)) = m) by (unfold mm; lia).
      rewrite E, Z.sub_diag. simpl. ring.
    + lia.
    + intros q Hq Hne. destruct (Z.eqb_spec (m - mm q) 0); [unfold mm in *; lia|]. ring.
  - apply csum_zero. intros q Hq. destruct (Z.eqb_spec (m - mm q) 0); [unfold mm in *; lia|]. ring.
Qed.
