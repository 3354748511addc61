From Coq Require Import Permutation Lra Lia Psatz.
From Flocq Require Import Core Relative.
From Coquelicot Require Import Coquelicot.
From Verif Require Import PyBase CSum NumPy GridModel EnergyModel EnergyProofs FloatModel FloatSpec FloatProofs FloatNormModel.
Open Scope R_scope.

Definition band (u : R) (n : nat) (x y : R) : Prop := (1 - u) ^ n * x <= y <= (1 + u) ^ n * x.

Section Band.
Context (u : R) (Hu : 0 <= u < 1).
Lemma lo_pos n : 0 < (1 - u) ^ n. Proof. apply pow_lt; lra. Qed.
Lemma lo_le1 n : (1 - u) ^ n <= 1. Proof. apply Rle_trans with (1 ^ n); [apply pow_incr; lra | rewrite pow1; lra]. Qed.
Lemma hi_ge1 n : 1 <= (1 + u) ^ n. Proof. apply pow_R1_Rle; lra. Qed.
Lemma band_refl x : band u 0 x x. Proof. unfold band; cbn; lra. Qed.
Lemma band_nonneg n x y : 0 <= x -> band u n x y -> 0 <= y.
Proof. intros Hx [H _]. pose proof (lo_pos n). nra. Qed.
Lemma near_band x y : 0 <= x -> near u x y -> band u 1 x y.
Proof. intros Hx (d & Hd & ->). apply Rabs_le_inv in Hd. unfold band; cbn. split; nra. Qed.
Lemma band_trans n m x y z : 0 <= x -> band u n x y -> band u m y z -> band u (n + m) x z.
Proof.
  intros Hx H1 H2. pose proof (band_nonneg _ _ _ Hx H1) as Hy. destruct H1 as [A B], H2 as [Cc D].
  pose proof (lo_pos m). pose proof (hi_ge1 m). unfold band. rewrite !pow_add. split.
  - apply Rle_trans with ((1 - u) ^ m * y); [|exact Cc].
    replace ((1 - u) ^ n * (1 - u) ^ m * x) with ((1 - u) ^ m * ((1 - u) ^ n * x)) by ring.
    apply Rmult_le_compat_l; lra.
  - apply Rle_trans with ((1 + u) ^ m * y); [exact D|].
    replace ((1 + u) ^ n * (1 + u) ^ m * x) with ((1 + u) ^ m * ((1 + u) ^ n * x)) by ring.
    apply Rmult_le_compat_l; lra.
Qed.
Lemma band_mult n m x y a b : 0 <= x -> 0 <= a -> band u n x y -> band u m a b -> band u (n + m) (x * a) (y * b).
Proof.
  intros Hx Ha H1 H2. pose proof (band_nonneg _ _ _ Hx H1). pose proof (band_nonneg _ _ _ Ha H2).
  destruct H1 as [A B], H2 as [Cc D]. pose proof (lo_pos m). pose proof (lo_pos n).
  unfold band. rewrite !pow_add. split.
  - replace ((1 - u) ^ n * (1 - u) ^ m * (x * a)) with (((1 - u) ^ n * x) * ((1 - u) ^ m * a)) by ring.
    apply Rmult_le_compat; auto; apply Rmult_le_pos; lra.
  - replace ((1 + u) ^ n * (1 + u) ^ m * (x * a)) with (((1 + u) ^ n * x) * ((1 + u) ^ m * a)) by ring.
    apply Rmult_le_compat; auto.
Qed.
Lemma band_scal n c x y : 0 <= c -> band u n x y -> band u n (c * x) (c * y).
Proof. intros Hc [A B]. unfold band. split; nra. Qed.
Lemma band_mono n m x y : (n <= m)%nat -> 0 <= x -> band u n x y -> band u m x y.
Proof.
  intros Hnm Hx H. replace m with (n + (m - n))%nat by lia. eapply band_trans; [exact Hx|exact H|].
  pose proof (band_nonneg _ _ _ Hx H). pose proof (lo_le1 (m - n)). pose proof (hi_ge1 (m - n)). unfold band. split; nra.
Qed.
Lemma band_plus n x y a b : band u n x y -> band u n a b -> band u n (x + a) (y + b).
Proof. intros [A B] [Cc D]. unfold band. split; lra. Qed.
Lemma band_rsum n N f h : (forall i, (i < N)%nat -> band u n (f i) (h i)) -> band u n (rsum N f) (rsum N h).
Proof.
  induction N as [|N IH]; intros H; [unfold band; cbn; lra|]. cbn. apply band_plus; [apply IH; intros; apply H; lia|apply H; lia].
Qed.

Definition lsum (l : list R) : R := fold_right Rplus 0 l.
Lemma lsum_app l m : lsum (l ++ m) = lsum l + lsum m.
Proof. unfold lsum. induction l as [|x l IH]; cbn [fold_right app]; [lra|]. rewrite IH. lra. Qed.
Lemma lsum_perm l m : Permutation l m -> lsum l = lsum m.
Proof. induction 1; unfold lsum in *; cbn [fold_right] in *; lra. Qed.
Lemma lsum_nonneg l : Forall (fun x => 0 <= x) l -> 0 <= lsum l.
Proof. induction 1; unfold lsum in *; cbn; lra. Qed.
Lemma float_sum_band p l s : float_sum u p l s -> Forall (fun x => 0 <= x) l -> band u p (lsum l) s.
Proof.
  induction 1 as [|x|p q l m a b s Ha IHa Hb IHb Hs|p l m a P Ha IHa]; intros F.
  - apply band_refl.
  - unfold lsum; cbn. rewrite Rplus_0_r. apply band_refl.
  - apply Forall_app in F. destruct F as [Fl Fm]. specialize (IHa Fl). specialize (IHb Fm).
    pose proof (lsum_nonneg _ Fl). pose proof (lsum_nonneg _ Fm).
    rewrite lsum_app. replace (S (Nat.max p q)) with (Nat.max p q + 1)%nat by lia.
    apply band_trans with (a + b); [lra| |].
    + apply band_plus; [eapply band_mono; [|eassumption|exact IHa] | eapply band_mono; [|eassumption|exact IHb]]; lia.
    + apply near_band; [|exact Hs]. pose proof (band_nonneg _ _ _ H IHa). pose proof (band_nonneg _ _ _ H0 IHb). lra.
  - rewrite <- (lsum_perm _ _ P). apply IHa. rewrite P. exact F.
Qed.
Lemma lsum_map_seq (f : nat -> R) N : lsum (map f (seq 0 N)) = rsum N f.
Proof.
  induction N as [|N IH]; [reflexivity|]. rewrite seq_S, map_app, lsum_app, IH. cbn. lra.
Qed.
Lemma lsum_flat_map {A} (f : A -> list R) l : lsum (flat_map f l) = lsum (map (fun x => lsum (f x)) l).
Proof. induction l as [|x l IH]; [reflexivity|]. cbn [flat_map map]. rewrite lsum_app, IH. reflexivity. Qed.
Lemma lsum_flat3 n0 n1 n2 f : lsum (flat3 n0 n1 n2 f) = rsum3 n0 n1 n2 f.
Proof.
  unfold flat3, rsum3. rewrite lsum_flat_map, lsum_map_seq. apply rsum_ext; intros i _.
  rewrite lsum_flat_map, lsum_map_seq. apply rsum_ext; intros j _. apply lsum_map_seq.
Qed.

Lemma float_term_band w z t : 0 <= w -> float_term u w z t -> band u 4 (w * Cmod z ^ 2) t.
Proof.
  intros Hw (a & q & Ha & Hq & Ht). pose proof (Cmod_ge_0 z) as Hz.
  apply near_band in Ha; [|exact Hz]. pose proof (band_nonneg _ _ _ Hz Ha).
  apply near_band in Hq; [|nra].
  assert (Q : band u 3 (Cmod z ^ 2) q).
  { replace (Cmod z ^ 2) with (Cmod z * Cmod z) by ring. change 3%nat with (2 + 1)%nat.
    eapply band_trans; [nra| |exact Hq]. apply (band_mult 1 1); assumption. }
  assert (0 <= Cmod z ^ 2) by nra. pose proof (band_nonneg _ _ _ H0 Q).
  apply near_band in Ht; [|nra]. change 4%nat with (3 + 1)%nat.
  eapply band_trans; [nra| |exact Ht]. apply band_scal; assumption.
Qed.

Definition weighted (w : nat -> R) (env : ndarray) : R :=
  rsum3 (dim0 env) (dim1 env) (dim2 env) (fun i j k => w j * Cmod (at3 env i j k) ^ 2).
Lemma rsum_nonneg' N f : (forall i, (i < N)%nat -> 0 <= f i) -> 0 <= rsum N f.
Proof. induction N as [|N IH]; intros H; cbn; [lra|]. pose proof (H N ltac:(lia)). specialize (IH ltac:(intros; apply H; lia)). lra. Qed.
Lemma weighted_nonneg w env : (forall j, 0 <= w j) -> 0 <= weighted w env.
Proof. intros Hw. unfold weighted, rsum3. do 3 (apply rsum_nonneg'; intros). apply Rmult_le_pos; [apply Hw | apply pow2_ge_0]. Qed.
Lemma in_flat3' n0 n1 n2 (f : nat -> nat -> nat -> R) x : In x (flat3 n0 n1 n2 f) ->
  exists i j k, (i < n0)%nat /\ (j < n1)%nat /\ (k < n2)%nat /\ x = f i j k.
Proof.
  unfold flat3. intros H. apply in_flat_map in H. destruct H as (i & Hi & H). apply in_flat_map in H.
  destruct H as (j & Hj & H). apply in_map_iff in H. destruct H as (k & E & Hk).
  apply in_seq in Hi. apply in_seq in Hj. apply in_seq in Hk. exists i, j, k. repeat split; try lia. symmetry; exact E.
Qed.
Lemma float_energy_band p w isenv env e : (forall j, 0 <= w j) -> float_energy u p w isenv env e ->
  band u (p + 5) ((if isenv then / 2 else 1) * weighted w env) e.
Proof.
  intros Hw (ts & s & Ht & Hs & He). pose proof (weighted_nonneg w env Hw) as HW.
  assert (Bt : forall i j k, inb env i j k -> band u 4 (w j * Cmod (at3 env i j k) ^ 2) (ts i j k)).
  { intros i j k H. apply float_term_band; [apply Hw | apply Ht, H]. }
  assert (Bs : band u (p + 4) (weighted w env) s).
  { rewrite Nat.add_comm. apply band_trans with (rsum3 (dim0 env) (dim1 env) (dim2 env) ts).
    - exact HW.
    - unfold weighted, rsum3. do 3 (apply band_rsum; intros). apply Bt. repeat split; assumption.
    - rewrite <- lsum_flat3. apply float_sum_band; [exact Hs|]. apply Forall_forall. intros x Hx.
      apply in_flat3' in Hx. destruct Hx as (i & j & k & Hi & Hj & Hk & ->).
      eapply band_nonneg; [|apply Bt; repeat split; assumption]. apply Rmult_le_pos; [apply Hw | apply pow2_ge_0]. }
  pose proof (band_nonneg _ _ _ HW Bs).
  destruct isenv.
  - apply near_band in He; [|lra]. replace (p + 5)%nat with (p + 4 + 1)%nat by lia.
    eapply band_trans; [lra| |exact He]. rewrite (Rmult_comm s). apply band_scal; [lra | exact Bs].
  - subst e. rewrite Rmult_1_l. apply band_mono with (p + 4)%nat; [lia | exact HW | exact Bs].
Qed.

Lemma near_sq x y : near u x y -> band u 2 (x ^ 2) (y ^ 2).
Proof.
  intros (d & Hd & ->). apply Rabs_le_inv in Hd. unfold band. replace ((x * (1 + d)) ^ 2) with ((1 + d) ^ 2 * x ^ 2) by ring.
  pose proof (pow2_ge_0 x). split; (apply Rmult_le_compat_r; [assumption|]); apply pow_incr; lra.
Qed.
Lemma Cmod_sq z : Cmod z ^ 2 = Re z ^ 2 + Im z ^ 2.
Proof. unfold Cmod, Re, Im. rewrite pow2_sqrt; [reflexivity|]. pose proof (pow2_ge_0 (fst z)). pose proof (pow2_ge_0 (snd z)). lra. Qed.
Lemma scale_sq s f f' i j k : float_scale u s f f' -> inb f i j k ->
  band u 2 (s ^ 2 * Cmod (at3 f i j k) ^ 2) (Cmod (at3 f' i j k) ^ 2).
Proof.
  intros [_ H] Hb. destruct (H i j k Hb) as [Hr Hi]. rewrite !Cmod_sq.
  apply near_sq in Hr. apply near_sq in Hi.
  replace (s ^ 2 * (Re (at3 f i j k) ^ 2 + Im (at3 f i j k) ^ 2)) with ((s * Re (at3 f i j k)) ^ 2 + (s * Im (at3 f i j k)) ^ 2) by ring.
  apply band_plus; assumption.
Qed.
Lemma scale_weighted w s f f' : (forall j, 0 <= w j) -> float_scale u s f f' ->
  band u 2 (s ^ 2 * weighted w f) (weighted w f').
Proof.
  intros Hw H. assert (E := proj1 H). unfold weighted, dim0, dim1, dim2, rsum3. rewrite E.
  rewrite <- rsum_scal_l. apply band_rsum; intros i Hi. rewrite <- rsum_scal_l. apply band_rsum; intros j Hj.
  rewrite <- rsum_scal_l. apply band_rsum; intros k Hk.
  replace (s ^ 2 * (w j * Cmod (at3 f i j k) ^ 2)) with (w j * (s ^ 2 * Cmod (at3 f i j k) ^ 2)) by ring.
  apply band_scal; [apply Hw|]. apply scale_sq; [exact H | repeat split; assumption].
Qed.

(** The energy recomputed after a normalization, relative to the requested one. *)
Lemma normalize_energy_band p q w isenv f f' en e0 e1 : (forall j, 0 <= w j) -> 0 < en ->
  float_energy u p w isenv f e0 -> e0 <> 0 -> float_rescale_energy u en e0 f f' -> float_energy u q w isenv f' e1 ->
  (1 - u) ^ (q + 10) / (1 + u) ^ (p + 5) <= e1 / en <= (1 + u) ^ (q + 10) / (1 - u) ^ (p + 5).
Proof.
  intros Hw Hen H0 Hne (r & s & Hr & Hs & Hsc) H1.
  set (h := if isenv then / 2 else 1). assert (Hh : 0 < h) by (unfold h; destruct isenv; lra).
  pose proof (weighted_nonneg w f Hw) as HW. pose proof (weighted_nonneg w f' Hw) as HW'.
  apply float_energy_band in H0; [|exact Hw]. apply float_energy_band in H1; [|exact Hw]. fold h in H0, H1.
  assert (HhW : 0 <= h * weighted w f) by nra.
  pose proof (band_nonneg _ _ _ HhW H0) as He0. assert (He0' : 0 < e0) by lra.
  assert (HW0 : 0 < weighted w f).
  { destruct HW as [?|E]; [assumption|]. exfalso. rewrite <- E, Rmult_0_r in H0. destruct H0. lra. }
  assert (Hq : 0 < en / e0) by (apply Rdiv_lt_0_compat; assumption).
  apply near_band in Hr; [|lra]. pose proof (band_nonneg _ _ _ (Rlt_le _ _ Hq) Hr) as Hr0.
  apply near_sq in Hs. rewrite pow2_sqrt in Hs by exact Hr0.
  assert (S2 : band u 3 (en / e0) (s ^ 2)) by (apply (band_trans 1 2 _ r); [lra | exact Hr | exact Hs]).
  pose proof (scale_weighted w s f f' Hw Hsc) as Bw.
  assert (B1 : band u (q + 10) (en / e0 * (h * weighted w f)) e1).
  { replace (q + 10)%nat with ((3 + 2) + (q + 5))%nat by lia. eapply band_trans; [nra| |exact H1].
    replace (en / e0 * (h * weighted w f)) with (h * (en / e0 * weighted w f)) by ring.
    apply band_scal; [lra|]. eapply band_trans; [nra| |exact Bw].
    replace 3%nat with (3 + 0)%nat by lia. apply band_mult; [lra | lra | exact S2 | apply band_refl]. }
  destruct B1 as [L U], H0 as [L0 U0].
  set (x := h * weighted w f) in *. assert (Hx : 0 < x) by (unfold x; nra).
  pose proof (lo_pos (p + 5)) as Hl. pose proof (hi_ge1 (p + 5)) as Hh1. pose proof (lo_pos (q + 10)). pose proof (hi_ge1 (q + 10)).
  set (l5 := (1 - u) ^ (p + 5)) in *. set (h5 := (1 + u) ^ (p + 5)) in *.
  set (l10 := (1 - u) ^ (q + 10)) in *. set (h10 := (1 + u) ^ (q + 10)) in *.
  assert (X1 : / h5 <= x / e0).
  { apply Rmult_le_reg_r with (h5 * e0); [nra|]. replace (/ h5 * (h5 * e0)) with e0 by (field; lra).
    replace (x / e0 * (h5 * e0)) with (h5 * x) by (field; lra). exact U0. }
  assert (X2 : x / e0 <= / l5).
  { apply Rmult_le_reg_r with (l5 * e0); [nra|]. replace (/ l5 * (l5 * e0)) with e0 by (field; lra).
    replace (x / e0 * (l5 * e0)) with (l5 * x) by (field; lra). exact L0. }
  replace (en / e0 * x) with (en * (x / e0)) in L, U by (field; lra).
  assert (X0 : 0 < x / e0) by (apply Rdiv_lt_0_compat; assumption).
  set (y := x / e0) in *. clearbody y.
  split.
  - apply Rmult_le_reg_r with en; [exact Hen|]. replace (e1 / en * en) with e1 by (field; lra).
    apply Rle_trans with (2 := L). unfold Rdiv. rewrite Rmult_assoc, (Rmult_comm (/ h5)).
    apply Rmult_le_compat_l; [lra|]. apply Rmult_le_compat_l; lra.
  - apply Rmult_le_reg_r with en; [exact Hen|]. replace (e1 / en * en) with e1 by (field; lra).
    apply Rle_trans with (1 := U). unfold Rdiv. rewrite Rmult_assoc, (Rmult_comm (/ l5)).
    apply Rmult_le_compat_l; [lra|]. apply Rmult_le_compat_l; lra.
Qed.

Lemma abs_band s f f' i j k : 0 <= s -> float_scale u s f f' -> inb f i j k ->
  band u 1 (s * Cmod (at3 f i j k)) (Cmod (at3 f' i j k)).
Proof.
  intros Hs H Hb. destruct (scale_sq s f f' i j k H Hb) as [A B]. pose proof (Cmod_ge_0 (at3 f i j k)). pose proof (Cmod_ge_0 (at3 f' i j k)).
  unfold band. rewrite !pow_1.
  split; apply Rsqr_incr_0_var; unfold Rsqr; try nra.
  apply Rmult_le_pos; [lra|]. nra.
Qed.
Lemma normalize_field_band f f' amp m0 m1 : 0 < amp ->
  float_abs_max u f m0 -> m0 <> 0 -> float_rescale_field u amp m0 f f' -> float_abs_max u f' m1 ->
  (1 - u) ^ 3 / (1 + u) <= m1 / amp <= (1 + u) ^ 3 / (1 - u).
Proof.
  intros Ha (a & Na & (i0 & j0 & k0 & B0 & E0) & M0) Hne (s & Hs & Hsc) (b & Nb & (i1 & j1 & k1 & B1 & E1) & M1).
  assert (Eb : forall i j k, inb f i j k <-> inb f' i j k).
  { intros i j k. unfold inb, dim0, dim1, dim2. rewrite (proj1 Hsc). reflexivity. }
  assert (Hm0 : 0 < m0).
  { pose proof (near_band _ _ (Cmod_ge_0 _) (Na _ _ _ B0)) as B. apply band_nonneg in B; [lra | apply Cmod_ge_0]. }
  assert (Hq : 0 < amp / m0) by (apply Rdiv_lt_0_compat; assumption).
  apply near_band in Hs; [|lra]. pose proof (band_nonneg _ _ _ (Rlt_le _ _ Hq) Hs) as Hs0.
  assert (K : forall i j k, inb f i j k -> band u 3 (amp / m0 * Cmod (at3 f i j k)) (b i j k)).
  { intros i j k Hb. pose proof (abs_band s f f' i j k Hs0 Hsc Hb) as B. pose proof (Cmod_ge_0 (at3 f i j k)) as Hc.
    pose proof (near_band _ _ (Cmod_ge_0 _) (Nb _ _ _ (proj1 (Eb _ _ _) Hb))) as Bn.
    change 3%nat with ((1 + 1) + 1)%nat. eapply band_trans; [nra| |exact Bn]. eapply band_trans; [nra| |exact B].
    apply (band_mult 1 0); [lra | exact Hc | exact Hs | apply band_refl]. }
  assert (A1 : forall i j k, inb f i j k -> (1 - u) * Cmod (at3 f i j k) <= m0).
  { intros i j k Hb. apply Rle_trans with (2 := M0 _ _ _ Hb).
    pose proof (near_band _ _ (Cmod_ge_0 _) (Na _ _ _ Hb)) as [B _]. rewrite pow_1 in B. exact B. }
  assert (A2 : m0 <= (1 + u) * Cmod (at3 f i0 j0 k0)).
  { pose proof (near_band _ _ (Cmod_ge_0 _) (Na _ _ _ B0)) as [_ B]. rewrite pow_1 in B. rewrite E0. exact B. }
  assert (Eamp : amp = amp / m0 * m0) by (field; lra).
  set (r := amp / m0) in *.
  pose proof (lo_pos 3) as L3. pose proof (hi_ge1 3) as H3.
  split.
  - apply Rmult_le_reg_r with ((1 + u) * amp); [nra|].
    replace ((1 - u) ^ 3 / (1 + u) * ((1 + u) * amp)) with ((1 - u) ^ 3 * amp) by (field; lra).
    replace (m1 / amp * ((1 + u) * amp)) with ((1 + u) * m1) by (field; lra).
    pose proof (proj1 (K _ _ _ B0)) as L. pose proof (M1 _ _ _ (proj1 (Eb _ _ _) B0)) as L'.
    apply Rle_trans with ((1 + u) * ((1 - u) ^ 3 * (r * Cmod (at3 f i0 j0 k0)))); [|apply Rmult_le_compat_l; lra].
    rewrite Eamp. replace ((1 + u) * ((1 - u) ^ 3 * (r * Cmod (at3 f i0 j0 k0)))) with ((1 - u) ^ 3 * (r * ((1 + u) * Cmod (at3 f i0 j0 k0)))) by ring.
    apply Rmult_le_compat_l; [lra|]. apply Rmult_le_compat_l; lra.
  - apply Rmult_le_reg_r with ((1 - u) * amp); [nra|].
    replace ((1 + u) ^ 3 / (1 - u) * ((1 - u) * amp)) with ((1 + u) ^ 3 * amp) by (field; lra).
    replace (m1 / amp * ((1 - u) * amp)) with ((1 - u) * m1) by (field; lra).
    pose proof (proj2 (K _ _ _ (proj2 (Eb _ _ _) B1))) as U. pose proof (A1 _ _ _ (proj2 (Eb _ _ _) B1)) as U'.
    rewrite E1. apply Rle_trans with ((1 - u) * ((1 + u) ^ 3 * (r * Cmod (at3 f i1 j1 k1)))); [apply Rmult_le_compat_l; lra|].
    rewrite Eamp. replace ((1 - u) * ((1 + u) ^ 3 * (r * Cmod (at3 f i1 j1 k1)))) with ((1 + u) ^ 3 * (r * ((1 - u) * Cmod (at3 f i1 j1 k1)))) by ring.
    apply Rmult_le_compat_l; [lra|]. apply Rmult_le_compat_l; lra.
Qed.
End Band.

(** From products to a plain relative error. *)
Lemma bernoulli u n : 0 <= u <= 1 -> 1 - INR n * u <= (1 - u) ^ n.
Proof.
  intros Hu. induction n as [|n IH]; [cbn; lra|]. rewrite S_INR. cbn [pow].
  destruct (Rle_dec 0 (1 - INR n * u)).
  - pose proof (pos_INR n). assert (0 <= INR n * u * u) by (repeat apply Rmult_le_pos; lra). nra.
  - assert (0 <= (1 - u) ^ n) by (apply pow_le; lra). pose proof (pos_INR n). nra.
Qed.
Lemma ratio_error u a b x : 0 <= u < 1 -> INR (a + b) * u <= / 2 ->
  (1 - u) ^ a / (1 + u) ^ b <= x <= (1 + u) ^ a / (1 - u) ^ b -> Rabs (x - 1) <= 2 * INR (a + b) * u.
Proof.
  intros Hu HK [L U]. pose proof (bernoulli u (a + b) ltac:(lra)) as B. rewrite pow_add in B.
  assert (Hla : 0 < (1 - u) ^ a) by (apply pow_lt; lra). assert (Hlb : 0 < (1 - u) ^ b) by (apply pow_lt; lra).
  assert (Inv : forall n, (1 - u) ^ n * (1 + u) ^ n <= 1).
  { intros n. rewrite <- Rpow_mult_distr. apply Rle_trans with (1 ^ n); [apply pow_incr; nra | rewrite pow1; lra]. }
  assert (Hhb : 1 <= (1 + u) ^ b) by (apply pow_R1_Rle; lra).
  pose proof (Inv a) as Ia. pose proof (Inv b) as Ib. pose proof (pos_INR (a + b)) as HN.
  set (K := INR (a + b)) in *. assert (0 <= K * u) by nra. rewrite Rmult_assoc. set (k := K * u) in *. clearbody k.
  set (la := (1 - u) ^ a) in *. set (lb := (1 - u) ^ b) in *. set (ha := (1 + u) ^ a) in *. set (hb := (1 + u) ^ b) in *.
  clearbody la lb ha hb.
  assert (lb <= / hb). { apply Rmult_le_reg_r with hb; [lra|]. rewrite Rinv_l; lra. }
  assert (ha <= / la). { apply Rmult_le_reg_r with la; [lra|]. rewrite Rinv_l; lra. }
  apply Rabs_le. split.
  - assert (la * lb <= la / hb) by (apply Rmult_le_compat_l; lra). lra.
  - assert (ha / lb <= / la / lb) by (apply Rmult_le_compat_r; [left; apply Rinv_0_lt_compat; lra | lra]).
    assert (E : / la / lb = / (la * lb)) by (field; lra). rewrite E in H2.
    assert (/ (la * lb) <= 1 + 2 * k).
    { apply Rmult_le_reg_r with (la * lb); [apply Rmult_lt_0_compat; lra|]. rewrite Rinv_l by nra. nra. }
    lra.
Qed.

(** ** The exact model is the case u = 0. *)
Lemma near_0 x y : near 0 x y <-> y = x.
Proof.
  split.
  - intros (d & Hd & ->). apply Rabs_le_inv in Hd. replace d with 0 by lra. ring.
  - intros ->. exists 0. rewrite Rabs_R0. split; [lra|ring].
Qed.
Lemma energy_exact d g env p e : (forall j, 0 <= cell_volume d g j) ->
  float_energy 0 p (fun j => cell_volume d g j * eps0) (g_isenv g) env e -> e = energy_of d g env.
Proof.
  intros Hv H. apply float_energy_band in H; [|lra|].
  - destruct H as [A B]. rewrite Rminus_0_r in A. rewrite Rplus_0_r in B. rewrite pow1, Rmult_1_l in A, B.
    unfold energy_of, weighted in *. destruct (g_isenv g); lra.
  - intros j. apply Rmult_le_pos; [apply Hv | left; exact eps0_pos].
Qed.

(** ** A deterministic rounding is an instance. *)
Section Instance.
Context (u : R) (rnd : R -> R) (Hrnd : forall x, near u x (rnd x)).
Lemma sum_exists l : exists p s, (p <= length l)%nat /\ float_sum u p l s.
Proof.
  induction l as [|x l (p & s & Hp & IH)]; [exists 0%nat, 0; split; [cbn; lia|constructor]|].
  exists (S (Nat.max 0 p)), (rnd (x + s)). split; [cbn [length]; lia|].
  change (x :: l) with ([x] ++ l). econstructor; [constructor | exact IH | apply Hrnd].
Qed.
Lemma energy_exists w isenv env : exists p e, float_energy u p w isenv env e.
Proof.
  pose (ts := fun i j k => rnd (w j * rnd (rnd (Cmod (at3 env i j k)) * rnd (Cmod (at3 env i j k))))).
  destruct (sum_exists (flat3 (dim0 env) (dim1 env) (dim2 env) ts)) as (p & s & _ & Hs).
  exists p, (if isenv then rnd (s * / 2) else s), ts, s. split; [|split; [exact Hs|destruct isenv; [apply Hrnd|reflexivity]]].
  intros i j k _. exists (rnd (Cmod (at3 env i j k))), (rnd (rnd (Cmod (at3 env i j k)) * rnd (Cmod (at3 env i j k)))).
  split; [apply Hrnd|]. split; apply Hrnd.
Qed.
Lemma rescale_exists en cur f : exists f', float_rescale_energy u en cur f f'.
Proof.
  pose (s := rnd (sqrt (rnd (en / cur)))).
  exists (mkArr (shp f) (dty f) (fun i j k => (rnd (s * Re (at3 f i j k)), rnd (s * Im (at3 f i j k))))).
  exists (rnd (en / cur)), s. split; [apply Hrnd|]. split; [apply Hrnd|]. split; [reflexivity|].
  intros i j k _. split; apply Hrnd.
Qed.
End Instance.
Local Instance prec53 : Prec_gt_0 53. Proof. unfold Prec_gt_0; lia. Qed.
Lemma double_near x : near u64 x (round radix2 (FLX_exp 53) ZnearestE x).
Proof.
  destruct (relative_error_N_FLX_ex radix2 53 ltac:(lia) (fun z => negb (Z.even z)) x) as (e & He & E).
  exists e. split; [|exact E]. rewrite <- u64_bpow. exact He.
Qed.

(** ** The computed weights are never negative. *)
Lemma b64_nonneg x : 0 <= x -> 0 <= b64 x.
Proof. intros H. rewrite <- b64_0. apply b64_le, H. Qed.
Lemma b64_opp x : b64 (- x) = - b64 x.
Proof. unfold b64. apply round_NE_opp. Qed.
Lemma weight_rt64_nonneg r dr dt : 0 <= r -> 0 <= dr -> 0 <= dt -> 0 <= weight_rt64 r dr dt.
Proof.
  intros Hr Hd Ht. unfold weight_rt64. cbn zeta.
  pose proof c_light_pos. pose proof eps0_pos. pose proof PI_RGT_0.
  assert (Hh : 0 <= b64 (/ 2 * dr)) by (apply b64_nonneg; lra).
  set (h := b64 (/ 2 * dr)) in *.
  assert (Ha : b64 (r - h) <= b64 (r + h)) by (apply b64_le; lra).
  assert (Hb : - b64 (r - h) <= b64 (r + h)) by (rewrite <- b64_opp; apply b64_le; lra).
  assert (Hq : b64 (b64 (r - h) * b64 (r - h)) <= b64 (b64 (r + h) * b64 (r + h))) by (apply b64_le; nra).
  apply b64_nonneg, Rmult_le_pos; [|lra]. apply b64_nonneg, Rmult_le_pos; [|apply b64_nonneg, Rmult_le_pos; lra].
  apply b64_nonneg, Rmult_le_pos; apply b64_nonneg; lra.
Qed.
Lemma weight_xyt64_nonneg dx dy dt : 0 <= dx -> 0 <= dy -> 0 <= dt -> 0 <= weight_xyt64 dx dy dt.
Proof.
  intros Hx Hy Ht. unfold weight_xyt64. pose proof c_light_pos. pose proof eps0_pos.
  apply b64_nonneg, Rmult_le_pos; [|lra]. apply b64_nonneg, Rmult_le_pos; apply b64_nonneg, Rmult_le_pos; lra.
Qed.
