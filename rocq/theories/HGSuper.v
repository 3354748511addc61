(** Proofs of C77, continued: coefficients and energy of a superposition of Hermite-Gauss modes. *)
From Coquelicot Require Import Coquelicot.
From Coq Require Import FunctionalExtensionality.
From Verif Require Import PyBase CSum NpMath AnalyticModel AnalyticProofs ParaxialProofs TransShapeProofs GaussInt ModeOrthoSpec HGOrtho.
Open Scope R_scope.

Definition rok (f : R -> R -> R) : Prop := (forall y p q, ex_RInt (fun x => f x y) p q) /\ (forall L p q, ex_RInt (fun y => RInt (fun x => f x y) (- L) L) p q).
Definition rint (f : R -> R -> R) (L : R) : R := RInt (fun y => RInt (fun x => f x y) (- L) L) (- L) L.
Lemma rint_lin f g a b : rok f -> rok g -> rok (fun x y => a * f x y + b * g x y) /\ forall L, rint (fun x y => a * f x y + b * g x y) L = a * rint f L + b * rint g L.
Proof.
  intros [F1 F2] [G1 G2].
  assert (E1 : forall y p q, ex_RInt (fun x => a * f x y) p q) by (intros; apply (@ex_RInt_scal R_NormedModule (fun x => f x y)), F1).
  assert (E2 : forall y p q, ex_RInt (fun x => b * g x y) p q) by (intros; apply (@ex_RInt_scal R_NormedModule (fun x => g x y)), G1).
  assert (I : forall L y, RInt (fun x => a * f x y + b * g x y) (- L) L = a * RInt (fun x => f x y) (- L) L + b * RInt (fun x => g x y) (- L) L).
  { intros L y. rewrite (ri_plus (fun x => a * f x y) (fun x => b * g x y)) by auto. rewrite (ri_scal (fun x => f x y)), (ri_scal (fun x => g x y)) by auto. reflexivity. }
  assert (J1 : forall L p q, ex_RInt (fun y => a * RInt (fun x => f x y) (- L) L) p q) by (intros L p q; apply (@ex_RInt_scal R_NormedModule (fun y => RInt (fun x => f x y) (- L) L)), F2).
  assert (J2 : forall L p q, ex_RInt (fun y => b * RInt (fun x => g x y) (- L) L) p q) by (intros L p q; apply (@ex_RInt_scal R_NormedModule (fun y => RInt (fun x => g x y) (- L) L)), G2).
  split; [split|].
  - intros y p q. apply (@ex_RInt_plus R_NormedModule (fun x => a * f x y) (fun x => b * g x y)); auto.
  - intros L p q. apply (ex_RInt_ext (fun y => a * RInt (fun x => f x y) (- L) L + b * RInt (fun x => g x y) (- L) L)); [intros y _; symmetry; apply I|].
    apply (@ex_RInt_plus R_NormedModule (fun y => a * RInt (fun x => f x y) (- L) L)); auto.
  - intros L. unfold rint. transitivity (RInt (fun y => a * RInt (fun x => f x y) (- L) L + b * RInt (fun x => g x y) (- L) L) (- L) L); [apply RInt_ext; intros y _; apply I|].
    rewrite (ri_plus (fun y => a * RInt (fun x => f x y) (- L) L)) by auto.
    rewrite (ri_scal (fun y => RInt (fun x => f x y) (- L) L)), (ri_scal (fun y => RInt (fun x => g x y) (- L) L)) by auto. reflexivity.
Qed.
(** Functions whose integral over the squares exists and converges. *)
Definition OV (f : R -> R -> C) (v : C) : Prop := (rok (fun x y => Re (f x y)) /\ rok (fun x y => Im (f x y))) /\ plane_int f v.
Lemma ov_ext f g v : (forall x y, f x y = g x y) -> OV f v -> OV g v.
Proof. intros H. replace g with f; [auto|]. apply functional_extensionality; intros x; apply functional_extensionality; intros y; apply H. Qed.
Lemma lim_lin f g a b u v : is_lim f p_infty (Finite u) -> is_lim g p_infty (Finite v) -> is_lim (fun L => a * f L + b * g L) p_infty (Finite (a * u + b * v)).
Proof.
  intros Hf Hg. apply (is_lim_plus' (fun L => a * f L) (fun L => b * g L)); [apply (is_lim_scal_l f a p_infty (Finite u))|apply (is_lim_scal_l g b p_infty (Finite v))]; assumption.
Qed.
Lemma ov_plus f g u v : OV f u -> OV g v -> OV (fun x y => Cplus (f x y) (g x y)) (Cplus u v).
Proof.
  intros [[Fr Fi] [Fu1 Fu2]] [[Gr Gi] [Gv1 Gv2]].
  destruct (rint_lin _ _ 1 1 Fr Gr) as [A1 A2]. destruct (rint_lin _ _ 1 1 Fi Gi) as [B1 B2].
  assert (X1 : (fun x y => 1 * Re (f x y) + 1 * Re (g x y)) = (fun x y => Re (Cplus (f x y) (g x y)))) by (apply functional_extensionality; intros x; apply functional_extensionality; intros y; unfold Cplus, Cmult, Re, Im; cbn [fst snd]; ring).
  assert (X2 : (fun x y => 1 * Im (f x y) + 1 * Im (g x y)) = (fun x y => Im (Cplus (f x y) (g x y)))) by (apply functional_extensionality; intros x; apply functional_extensionality; intros y; unfold Cplus, Cmult, Re, Im; cbn [fst snd]; ring).
  rewrite X1 in A1, A2. rewrite X2 in B1, B2. split; [split; assumption|]. split.
  - apply (is_lim_ext (fun L => 1 * rint (fun x y => Re (f x y)) L + 1 * rint (fun x y => Re (g x y)) L)); [intros L; symmetry; apply A2|].
    replace (Re (Cplus u v)) with (1 * Re u + 1 * Re v) by (unfold Cplus, Cmult, Re, Im; cbn [fst snd]; ring). apply lim_lin; assumption.
  - apply (is_lim_ext (fun L => 1 * rint (fun x y => Im (f x y)) L + 1 * rint (fun x y => Im (g x y)) L)); [intros L; symmetry; apply B2|].
    replace (Im (Cplus u v)) with (1 * Im u + 1 * Im v) by (unfold Cplus, Cmult, Re, Im; cbn [fst snd]; ring). apply lim_lin; assumption.
Qed.
Lemma ov_scal c f u : OV f u -> OV (fun x y => Cmult c (f x y)) (Cmult c u).
Proof.
  intros [[Fr Fi] [Fu1 Fu2]].
  destruct (rint_lin _ _ (Re c) (- Im c) Fr Fi) as [A1 A2]. destruct (rint_lin _ _ (Re c) (Im c) Fi Fr) as [B1 B2].
  assert (X1 : (fun x y => Re c * Re (f x y) + - Im c * Im (f x y)) = (fun x y => Re (Cmult c (f x y)))) by (apply functional_extensionality; intros x; apply functional_extensionality; intros y; unfold Cplus, Cmult, Re, Im; cbn [fst snd]; ring).
  assert (X2 : (fun x y => Re c * Im (f x y) + Im c * Re (f x y)) = (fun x y => Im (Cmult c (f x y)))) by (apply functional_extensionality; intros x; apply functional_extensionality; intros y; unfold Cplus, Cmult, Re, Im; cbn [fst snd]; ring).
  rewrite X1 in A1, A2. rewrite X2 in B1, B2. split; [split; assumption|]. split.
  - apply (is_lim_ext (fun L => Re c * rint (fun x y => Re (f x y)) L + - Im c * rint (fun x y => Im (f x y)) L)); [intros L; symmetry; apply A2|].
    replace (Re (Cmult c u)) with (Re c * Re u + - Im c * Im u) by (unfold Cplus, Cmult, Re, Im; cbn [fst snd]; ring). apply lim_lin; assumption.
  - apply (is_lim_ext (fun L => Re c * rint (fun x y => Im (f x y)) L + Im c * rint (fun x y => Re (f x y)) L)); [intros L; symmetry; apply B2|].
    replace (Im (Cmult c u)) with (Re c * Im u + Im c * Re u) by (unfold Cplus, Cmult, Re, Im; cbn [fst snd]; ring). apply lim_lin; assumption.
Qed.
Lemma ov_zero : OV (fun _ _ => RtoC 0) (RtoC 0).
Proof.
  assert (Z : forall p q, RInt (fun _ : R => 0) p q = 0) by (intros; rewrite (@RInt_const R_CompleteNormedModule); unfold scal; cbn; unfold mult; unfold Cplus, Cmult, Re, Im; cbn [fst snd]; ring).
  assert (ZZ : forall L, rint (fun _ _ => 0) L = 0) by (intros L; unfold rint; rewrite (RInt_ext _ (fun _ => 0)); [apply Z|intros; apply Z]).
  assert (K : rok (fun _ _ => 0)) by (split; intros; [|apply (ex_RInt_ext (fun _ => 0)); [intros; symmetry; apply Z|]]; apply (@ex_RInt_const R_NormedModule)).
  split; [split; exact K|]. split.
  all: apply (is_lim_ext (fun _ => 0)); [intros L; symmetry; apply ZZ|apply is_lim_const].
Qed.
Lemma ov_csum n f v : (forall i, (i < n)%nat -> OV (f i) (v i)) -> OV (fun x y => csum n (fun i => f i x y)) (csum n v).
Proof.
  induction n as [|n IH]; intros H; [exact ov_zero|]. cbn [csum]. apply (ov_plus (fun x y => csum n (fun i => f i x y)) (f n)); [apply IH; intros; apply H; lia|apply H; lia].
Qed.
Lemma ov_separable f k1 k2 a b v : (forall x y, f x y = (k1 * (a x * b y), k2 * (a x * b y))) -> (forall p q, ex_RInt a p q) -> (forall p q, ex_RInt b p q) -> plane_int f v -> OV f v.
Proof.
  intros Hf Ha Hb Hv.
  assert (R0 : forall k, rok (fun x y => k * (a x * b y))).
  { intros k. assert (E : forall y p q, RInt (fun x => k * (a x * b y)) p q = k * RInt a p q * b y).
    { intros y p q. transitivity (RInt (fun x => (k * b y) * a x) p q); [apply RInt_ext; intros x _; eqR; ring|]. rewrite ri_scal by apply Ha. eqR. ring. }
    split; [intros y p q|intros L p q].
    - apply (ex_RInt_ext (fun x => (k * b y) * a x)); [intros; eqR; ring|]. apply (@ex_RInt_scal R_NormedModule a), Ha.
    - apply (ex_RInt_ext (fun y => (k * RInt a (- L) L) * b y)); [intros; symmetry; apply E|]. apply (@ex_RInt_scal R_NormedModule b), Hb. }
  split; [|exact Hv]. split.
  - replace (fun x y => Re (f x y)) with (fun x y => k1 * (a x * b y)); [apply R0|]. apply functional_extensionality; intros x; apply functional_extensionality; intros y. rewrite Hf. reflexivity.
  - replace (fun x y => Im (f x y)) with (fun x y => k2 * (a x * b y)); [apply R0|]. apply functional_extensionality; intros x; apply functional_extensionality; intros y. rewrite Hf. reflexivity.
Qed.
Definition delta2 (i j m n : nat) : C := if andb (Nat.eqb i m) (Nat.eqb j n) then RtoC 1 else RtoC 0.
Lemma ov_hg w0 i j m n z : 0 < w0 -> OV (fun x y => Cmult (hg_trans_at w0 i j z x y) (Cconj (hg_trans_at w0 m n z x y))) (delta2 i j m n).
Proof.
  intros Hw0. exact (ov_separable _ _ _ _ _ _ (fun x y => hg_product w0 i j m n z x y Hw0) (hphi_ex _ _ _) (hphi_ex _ _ _) (c77_hermite w0 i j m n z Hw0)).
Qed.
Lemma csum_scal_r n f (c : C) : Cmult (csum n f) c = csum n (fun i => Cmult (f i) c).
Proof. induction n as [|n IH]; cbn [csum]; [ring|]. rewrite <- IH. ring. Qed.
Lemma csum_delta N m (f : nat -> C) : csum N (fun i => if Nat.eqb i m then f i else RtoC 0) = if (m <? N)%nat then f m else RtoC 0.
Proof.
  induction N as [|N IH]; [reflexivity|]. cbn [csum]. rewrite IH. destruct (Nat.eqb_spec N m) as [->|H].
  - rewrite Nat.ltb_irrefl. replace (m <? S m)%nat with true by (symmetry; apply Nat.ltb_lt; lia). ring.
  - destruct (Nat.ltb_spec m N) as [L|L].
    + replace (m <? S N)%nat with true by (symmetry; apply Nat.ltb_lt; lia). ring.
    + replace (m <? S N)%nat with false by (symmetry; apply Nat.ltb_ge; lia). ring.
Qed.
Lemma c77_coefficient w0 z N M (c : nat -> nat -> C) m n : 0 < w0 ->
  OV (fun x y => Cmult (hg_sum w0 z N M c x y) (Cconj (hg_trans_at w0 m n z x y))) (if andb (m <? N)%nat (n <? M)%nat then c m n else RtoC 0).
Proof.
  intros Hw0.
  assert (V : csum N (fun i => csum M (fun j => Cmult (c i j) (delta2 i j m n))) = if andb (m <? N)%nat (n <? M)%nat then c m n else RtoC 0).
  { transitivity (csum N (fun i => if Nat.eqb i m then (if (n <? M)%nat then c m n else RtoC 0) else RtoC 0)).
    - apply csum_ext. intros i _. unfold delta2. destruct (Nat.eqb_spec i m) as [->|H]; cbn [andb].
      + rewrite <- (csum_delta M n (fun j => c m j)). apply csum_ext. intros j _. destruct (Nat.eqb j n); ring.
      + transitivity (csum M (fun _ => RtoC 0)); [apply csum_ext; intros; ring|]. clear. induction M as [|M IH]; cbn [csum]; [reflexivity|]. rewrite IH. ring.
    - rewrite csum_delta. destruct (m <? N)%nat; reflexivity. }
  rewrite <- V. eapply ov_ext; [|apply ov_csum; intros i _; apply ov_csum; intros j _; apply ov_scal; apply (ov_hg w0 i j m n z Hw0)].
  intros x y. cbn beta. unfold hg_sum. rewrite csum_scal_r. apply csum_ext. intros i _. rewrite csum_scal_r. apply csum_ext. intros j _. ring.
Qed.
Lemma c77_energy w0 z N M (c : nat -> nat -> C) : 0 < w0 ->
  overlap (hg_sum w0 z N M c) (hg_sum w0 z N M c) (RtoC (rsum N (fun i => rsum M (fun j => Cmod (c i j) ^ 2)))).
Proof.
  intros Hw0.
  assert (V : csum N (fun m => csum M (fun n => Cmult (Cconj (c m n)) (if andb (m <? N)%nat (n <? M)%nat then c m n else RtoC 0))) = RtoC (rsum N (fun i => rsum M (fun j => Cmod (c i j) ^ 2)))).
  { rewrite <- csum_RtoC. apply csum_ext. intros m Hm. rewrite <- csum_RtoC. apply csum_ext. intros n Hn.
    apply Nat.ltb_lt in Hm, Hn. rewrite Hm, Hn. cbn [andb]. replace (Cmod (c m n) ^ 2) with (Cnorm2 (c m n)) by (rewrite Cnorm2_Cmod; ring). rewrite Cnorm2_conj. ring. }
  rewrite <- V. eapply proj2. eapply ov_ext; [|apply ov_csum; intros m _; apply ov_csum; intros n _; apply ov_scal; apply (c77_coefficient w0 z N M c m n Hw0)].
  intros x y. cbn beta. set (h := hg_sum w0 z N M c x y). rewrite (Cmult_comm h). set (g := h) at 1. unfold g, h at 2, hg_sum. rewrite Cconj_csum, csum_scal_r. apply csum_ext. intros i _.
  rewrite Cconj_csum, csum_scal_r. apply csum_ext. intros j _. rewrite Cconj_mult. fold (hg_sum w0 z N M c x y). ring.
Qed.
