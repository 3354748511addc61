(** Riemann sums of the spectrum (C90). *)
From Coquelicot Require Import Coquelicot.
From Verif Require Import PyBase CSum LaserSpec ConvergeSpec ConvergeProofs FullSpectrumSpec DurConvProofs SpecConvSpec.
Open Scope R_scope.

Lemma cis_lip a b : Rabs (cos a - cos b) <= Rabs (a - b) /\ Rabs (sin a - sin b) <= Rabs (a - b).
Proof.
  split.
  - destruct (MVT_abs cos (fun x => - sin x) b a) as (c & Hc & _).
    { intros c _. apply derivable_pt_lim_cos. }
    rewrite Hc, Rabs_Ropp. rewrite <- (Rmult_1_l (Rabs (a - b))) at 2. apply Rmult_le_compat_r; [apply Rabs_pos|].
    apply Rabs_le. pose proof (SIN_bound c). lra.
  - destruct (MVT_abs sin cos b a) as (c & Hc & _).
    { intros c _. apply derivable_pt_lim_sin. }
    rewrite Hc. rewrite <- (Rmult_1_l (Rabs (a - b))) at 2. apply Rmult_le_compat_r; [apply Rabs_pos|].
    apply Rabs_le. pose proof (COS_bound c). lra.
Qed.
Lemma Cmod_parts z : Rabs (Re z) <= Cmod z /\ Rabs (Im z) <= Cmod z.
Proof.
  pose proof (Rmax_Cmod z) as H. unfold Re, Im. split; (eapply Rle_trans; [|exact H]); [apply Rmax_l|apply Rmax_r].
Qed.
Lemma Cmod_parts2 z : Cmod z <= Rabs (Re z) + Rabs (Im z).
Proof.
  unfold Cmod, Re, Im. rewrite <- (sqrt_pow2 (Rabs (fst z) + Rabs (snd z))).
  - apply sqrt_le_1_alt. pose proof (Rabs_pos (fst z)). pose proof (Rabs_pos (snd z)).
    rewrite (pow2_abs (fst z)) || idtac. replace (fst z ^ 2) with (Rabs (fst z) ^ 2) by apply pow2_abs.
    replace (snd z ^ 2) with (Rabs (snd z) ^ 2) by apply pow2_abs. nra.
  - apply Rplus_le_le_0_compat; apply Rabs_pos.
Qed.

Section Field.
Variables (K x0 x1 y0 y1 t0 t1 : R) (E : R -> R -> R -> C).
Hypothesis (Bx : x0 < x1) (By : y0 < y1) (Bt : t0 < t1) (HK : 0 <= K) (HL : lip_field K x0 x1 y0 y1 t0 t1 E).
Definition Bf : R := Cmod (E x0 y0 t0) + K * ((x1 - x0) + (y1 - y0) + (t1 - t0)).
Lemma Bf_pos : 0 <= Bf.
Proof. unfold Bf. pose proof (Cmod_ge_0 (E x0 y0 t0)). assert (0 <= K * (x1 - x0 + (y1 - y0) + (t1 - t0))) by (apply Rmult_le_pos; lra). lra. Qed.
Lemma field_bnd x y t : x0 <= x <= x1 -> y0 <= y <= y1 -> t0 <= t <= t1 -> Cmod (E x y t) <= Bf.
Proof.
  intros Ix Iy It. replace (E x y t) with (Cplus (E x0 y0 t0) (Cminus (E x y t) (E x0 y0 t0))) by ring.
  eapply Rle_trans; [apply Cmod_triangle|]. unfold Bf. apply Rplus_le_compat_l.
  eapply Rle_trans; [apply HL; lra|]. apply Rmult_le_compat_l; [exact HK|]. rewrite !Rabs_right by lra. lra.
Qed.
Lemma field_lip_intensity : lip_intensity (4 * K * Bf) x0 x1 y0 y1 t0 t1 E.
Proof.
  intros x x' y y' t t' Ix Ix' Iy Iy' It It'.
  pose proof (HL x x' y y' t t' Ix Ix' Iy Iy' It It') as HD.
  pose proof (field_bnd x y t Ix Iy It) as HB. pose proof (field_bnd x' y' t' Ix' Iy' It') as HB'.
  set (z := E x y t) in *. set (z' := E x' y' t') in *. set (d := Rabs (x - x') + Rabs (y - y') + Rabs (t - t')) in *.
  destruct (Cmod_parts (Cminus z z')) as (D1 & D2). destruct (Cmod_parts z) as (Z1 & Z2). destruct (Cmod_parts z') as (Z1' & Z2').
  assert (G : forall a b, Rabs (a - b) <= K * d -> Rabs a <= Bf -> Rabs b <= Bf -> Rabs (a * a - b * b) <= 2 * Bf * (K * d)).
  { intros a b Hd Ha Hb. replace (a * a - b * b) with ((a + b) * (a - b)) by ring. rewrite Rabs_mult.
    apply Rmult_le_compat; try apply Rabs_pos; [|exact Hd]. eapply Rle_trans; [apply Rabs_triang|]. lra. }
  unfold Cnorm2. replace (fst z * fst z + snd z * snd z - (fst z' * fst z' + snd z' * snd z')) with
    ((fst z * fst z - fst z' * fst z') + (snd z * snd z - snd z' * snd z')) by ring.
  eapply Rle_trans; [apply Rabs_triang|]. replace (4 * K * Bf * d) with (2 * Bf * (K * d) + 2 * Bf * (K * d)) by ring.
  apply Rplus_le_compat; apply G; try (unfold Re, Im in *; lra).
  - unfold Re in D1. replace (fst z - fst z') with (fst (Cminus z z')) by reflexivity. lra.
  - unfold Im in D2. replace (snd z - snd z') with (snd (Cminus z z')) by reflexivity. lra.
Qed.

(** The two quadratures of E exp(i v t). *)
Definition Fre (v x y t : R) : R := Re (Cmult (E x y t) (cis (v * t))).
Definition Fim (v x y t : R) : R := Im (Cmult (E x y t) (cis (v * t))).
Variable V : R.
Hypothesis (HV : 0 <= V).
Definition Kf : R := 2 * (K + Bf * V).
Lemma Kf_pos : 0 <= Kf.
Proof. unfold Kf. pose proof Bf_pos. assert (0 <= Bf * V) by (apply Rmult_le_pos; assumption). lra. Qed.
Lemma quad_lip v x x' y y' t t' : Rabs v <= V -> x0 <= x <= x1 -> x0 <= x' <= x1 -> y0 <= y <= y1 -> y0 <= y' <= y1 -> t0 <= t <= t1 -> t0 <= t' <= t1 ->
  Cmod (Cminus (Cmult (E x y t) (cis (v * t))) (Cmult (E x' y' t') (cis (v * t')))) <= Kf * (Rabs (x - x') + Rabs (y - y') + Rabs (t - t')).
Proof.
  intros Hv Ix Ix' Iy Iy' It It'.
  pose proof (HL x x' y y' t t' Ix Ix' Iy Iy' It It') as HD. pose proof (field_bnd x' y' t' Ix' Iy' It') as HB'.
  set (z := E x y t) in *. set (z' := E x' y' t') in *.
  replace (Cminus (Cmult z (cis (v * t))) (Cmult z' (cis (v * t')))) with
    (Cplus (Cmult (Cminus z z') (cis (v * t))) (Cmult z' (Cminus (cis (v * t)) (cis (v * t'))))) by ring.
  eapply Rle_trans; [apply Cmod_triangle|]. rewrite !Cmod_mult.
  assert (C1 : Cmod (cis (v * t)) = 1).
  { unfold Cmod, cis; cbn [fst snd]. pose proof (sin2_cos2 (v * t)) as Q. unfold Rsqr in Q.
    replace (cos (v * t) ^ 2 + sin (v * t) ^ 2) with (sin (v * t) * sin (v * t) + cos (v * t) * cos (v * t)) by ring. rewrite Q. apply sqrt_1. }
  assert (C2 : Cmod (Cminus (cis (v * t)) (cis (v * t'))) <= 2 * (V * Rabs (t - t'))).
  { eapply Rle_trans; [apply Cmod_parts2|]. destruct (cis_lip (v * t) (v * t')) as (Q1 & Q2).
    assert (Q3 : Rabs (v * t - v * t') <= V * Rabs (t - t')).
    { rewrite <- Rmult_minus_distr_l, Rabs_mult. apply Rmult_le_compat_r; [apply Rabs_pos|exact Hv]. }
    unfold cis, Cminus, Cplus, Copp, Re, Im; cbn [fst snd].
    change (cos (v * t) + - cos (v * t')) with (cos (v * t) - cos (v * t')). change (sin (v * t) + - sin (v * t')) with (sin (v * t) - sin (v * t')). lra. }
  rewrite C1, Rmult_1_r. pose proof (Rabs_pos (x - x')). pose proof (Rabs_pos (y - y')). pose proof (Rabs_pos (t - t')).
  assert (Q4 : Cmod z' * Cmod (Cminus (cis (v * t)) (cis (v * t'))) <= Bf * (2 * (V * Rabs (t - t')))).
  { apply Rmult_le_compat; try apply Cmod_ge_0; assumption. }
  pose proof Bf_pos as PB. assert (PBV : 0 <= Bf * V) by (apply Rmult_le_pos; assumption).
  unfold Kf. set (d := Rabs (x - x') + Rabs (y - y') + Rabs (t - t')) in *.
  assert (0 <= K * d) by (apply Rmult_le_pos; unfold d; lra).
  assert (Bf * V * Rabs (t - t') <= Bf * V * d) by (apply Rmult_le_compat_l; [exact PBV|unfold d; lra]). lra.
Qed.
Lemma Fre_lip v : Rabs v <= V -> lip3 Kf x0 x1 y0 y1 t0 t1 (Fre v).
Proof.
  intros Hv x x' y y' t t' Ix Ix' Iy Iy' It It'. eapply Rle_trans; [|apply (quad_lip v); eassumption].
  unfold Fre. match goal with |- _ <= Cmod ?z => destruct (Cmod_parts z) as (Q & _) end. exact Q.
Qed.
Lemma Fim_lip v : Rabs v <= V -> lip3 Kf x0 x1 y0 y1 t0 t1 (Fim v).
Proof.
  intros Hv x x' y y' t t' Ix Ix' Iy Iy' It It'. eapply Rle_trans; [|apply (quad_lip v); eassumption].
  unfold Fim. match goal with |- _ <= Cmod ?z => destruct (Cmod_parts z) as (_ & Q) end. exact Q.
Qed.
Lemma cis_mod a : Cmod (cis a) = 1.
Proof.
  unfold Cmod, cis; cbn [fst snd]. pose proof (sin2_cos2 a) as Q. unfold Rsqr in Q.
  replace (cos a ^ 2 + sin a ^ 2) with (sin a * sin a + cos a * cos a) by ring. rewrite Q. apply sqrt_1.
Qed.
Lemma F_bnd v x y t : x0 <= x <= x1 -> y0 <= y <= y1 -> t0 <= t <= t1 -> Rabs (Fre v x y t) <= Bf /\ Rabs (Fim v x y t) <= Bf.
Proof.
  intros Ix Iy It. pose proof (field_bnd x y t Ix Iy It) as H. unfold Fre, Fim.
  destruct (Cmod_parts (Cmult (E x y t) (cis (v * t)))) as (Q1 & Q2). rewrite Cmod_mult, cis_mod, Rmult_1_r in Q1, Q2. lra.
Qed.

(** Power at the transverse point (x,y): continuous and sampled. *)
Definition Qc (v x y : R) : R := RInt (Fre v x y) t0 t1 ^ 2 + RInt (Fim v x y) t0 t1 ^ 2.
Definition Qn (nt : nat) (v x y : R) : R := riem (Fre v x y) t0 t1 nt ^ 2 + riem (Fim v x y) t0 t1 nt ^ 2.
Definition Wt : R := t1 - t0.
Definition BI : R := Wt * Bf.
Lemma Wt_pos : 0 < Wt. Proof. unfold Wt; lra. Qed.
Lemma BI_pos : 0 <= BI.
Proof. unfold BI. pose proof Bf_pos. pose proof Wt_pos. apply Rmult_le_pos; lra. Qed.
Lemma sq_close a b d B : Rabs a <= B -> Rabs (b - a) <= d -> Rabs (b ^ 2 - a ^ 2) <= d * (2 * B + d).
Proof.
  intros Ha Hd. replace (b ^ 2 - a ^ 2) with ((b - a) * (2 * a + (b - a))) by ring. rewrite Rabs_mult.
  apply Rmult_le_compat; try apply Rabs_pos; [exact Hd|]. eapply Rle_trans; [apply Rabs_triang|].
  rewrite Rabs_mult, (Rabs_right 2) by lra. lra.
Qed.
Lemma F_ex f x y v : (f = Fre \/ f = Fim) -> Rabs v <= V -> x0 <= x <= x1 -> y0 <= y <= y1 -> ex_RInt (f v x y) t0 t1.
Proof.
  intros Hf Hv Ix Iy. pose proof Kf_pos.
  apply (lip_ex Kf t0 t1); try lra. apply (lip2_1 Kf y0 y1 t0 t1 (f v x) y); [|exact Iy].
  apply (lip3_yt Kf x0 x1 y0 y1 t0 t1 (f v) x); [|exact Ix]. destruct Hf as [->| ->]; [apply Fre_lip|apply Fim_lip]; exact Hv.
Qed.
Lemma F_int f x y v : (f = Fre \/ f = Fim) -> Rabs v <= V -> x0 <= x <= x1 -> y0 <= y <= y1 -> Rabs (RInt (f v x y) t0 t1) <= BI.
Proof.
  intros Hf Hv Ix Iy. unfold BI, Wt. apply RInt_bnd; [lra|apply F_ex; assumption|]. intros t It. destruct (F_bnd v x y t Ix Iy It) as (Q1 & Q2).
  destruct Hf as [->| ->]; assumption.
Qed.
Lemma F_riem f x y v nt : (f = Fre \/ f = Fim) -> Rabs v <= V -> x0 <= x <= x1 -> y0 <= y <= y1 -> (2 <= nt)%nat ->
  Rabs (riem (f v x y) t0 t1 nt - RInt (f v x y) t0 t1) <= (Kf * Wt + Bf) * spacing t0 t1 nt.
Proof.
  intros Hf Hv Ix Iy Hn. apply riem_RInt; try assumption; [apply Kf_pos| |].
  - apply (lip2_1 Kf y0 y1 t0 t1 (f v x) y); [|exact Iy].
    apply (lip3_yt Kf x0 x1 y0 y1 t0 t1 (f v) x); [|exact Ix]. destruct Hf as [->| ->]; [apply Fre_lip|apply Fim_lip]; exact Hv.
  - intros t It. destruct (F_bnd v x y t Ix Iy It) as (Q1 & Q2). destruct Hf as [->| ->]; assumption.
Qed.
Lemma Q_close x y v nt : Rabs v <= V -> x0 <= x <= x1 -> y0 <= y <= y1 -> (2 <= nt)%nat ->
  let d := (Kf * Wt + Bf) * spacing t0 t1 nt in Rabs (Qn nt v x y - Qc v x y) <= 2 * (d * (2 * BI + d)).
Proof.
  intros Hv Ix Iy Hn d. unfold Qn, Qc.
  pose proof (sq_close _ _ d BI (F_int Fre x y v (or_introl eq_refl) Hv Ix Iy) (F_riem Fre x y v nt (or_introl eq_refl) Hv Ix Iy Hn)) as S1.
  pose proof (sq_close _ _ d BI (F_int Fim x y v (or_intror eq_refl) Hv Ix Iy) (F_riem Fim x y v nt (or_intror eq_refl) Hv Ix Iy Hn)) as S2.
  match goal with |- Rabs ((?a + ?b) - (?c + ?e)) <= _ => replace ((a + b) - (c + e)) with ((a - c) + (b - e)) by ring end.
  eapply Rle_trans; [apply Rabs_triang|]. lra.
Qed.
Lemma Qc_bnd x y v : Rabs v <= V -> x0 <= x <= x1 -> y0 <= y <= y1 -> Rabs (Qc v x y) <= 2 * BI ^ 2.
Proof.
  intros Hv Ix Iy. pose proof (F_int Fre x y v (or_introl eq_refl) Hv Ix Iy) as S1. pose proof (F_int Fim x y v (or_intror eq_refl) Hv Ix Iy) as S2.
  unfold Qc. apply pow_maj_Rabs with (n := 2%nat) in S1. apply pow_maj_Rabs with (n := 2%nat) in S2.
  match goal with |- Rabs (?a ^ 2 + ?b ^ 2) <= _ => pose proof (pow2_ge_0 a); pose proof (pow2_ge_0 b) end. rewrite Rabs_right by lra. lra.
Qed.
Definition KQ : R := 4 * BI * (Kf * Wt).
Lemma KQ_pos : 0 <= KQ.
Proof. unfold KQ. pose proof BI_pos. pose proof Kf_pos. pose proof Wt_pos. apply Rmult_le_pos; [lra|apply Rmult_le_pos; lra]. Qed.
Lemma Qc_lip v : Rabs v <= V -> lip2 KQ x0 x1 y0 y1 (Qc v).
Proof.
  intros Hv x x' y y' Ix Ix' Iy Iy'. unfold Qc.
  assert (G : forall f, (f = Fre \/ f = Fim) -> Rabs (RInt (f v x y) t0 t1 ^ 2 - RInt (f v x' y') t0 t1 ^ 2) <= 2 * BI * (Kf * Wt * (Rabs (x - x') + Rabs (y - y')))).
  { intros f Hf. match goal with |- Rabs (?a ^ 2 - ?b ^ 2) <= _ => replace (a ^ 2 - b ^ 2) with ((a + b) * (a - b)) by ring end.
    rewrite Rabs_mult. apply Rmult_le_compat; try apply Rabs_pos.
    - eapply Rle_trans; [apply Rabs_triang|]. pose proof (F_int f x y v Hf Hv Ix Iy). pose proof (F_int f x' y' v Hf Hv Ix' Iy'). lra.
    - apply (lip3_xy Kf x0 x1 y0 y1 t0 t1 (f v) Bt Kf_pos); try assumption. destruct Hf as [->| ->]; [apply Fre_lip|apply Fim_lip]; exact Hv. }
  match goal with |- Rabs ((?a + ?b) - (?c + ?e)) <= _ => replace ((a + b) - (c + e)) with ((a - c) + (b - e)) by ring end.
  eapply Rle_trans; [apply Rabs_triang|]. pose proof (G Fre (or_introl eq_refl)). pose proof (G Fim (or_intror eq_refl)). unfold KQ. lra.
Qed.

Lemma spec_conv : exists A, 0 <= A /\ forall v n0 n1 nt, Rabs v <= V -> (2 <= n0)%nat -> (2 <= n1)%nat -> (2 <= nt)%nat ->
  Rabs (riem2 (Qn nt v) x0 x1 y0 y1 n0 n1 - RInt2 (Qc v) x0 x1 y0 y1) <= A * (spacing x0 x1 n0 + spacing y0 y1 n1 + spacing t0 t1 nt).
Proof.
  pose proof Kf_pos as P1. pose proof Bf_pos as P2. pose proof BI_pos as P3. pose proof KQ_pos as P4. pose proof Wt_pos as P5.
  set (c := Kf * Wt + Bf). assert (Pc : 0 <= c) by (unfold c; assert (0 <= Kf * Wt) by (apply Rmult_le_pos; lra); lra).
  set (Wx := x1 - x0). set (Wy := y1 - y0). assert (PW : 0 < Wx /\ 0 < Wy) by (unfold Wx, Wy; lra). destruct PW as (PWx & PWy).
  set (a1 := 2 * Wx * (2 * Wy * (2 * (c * (2 * BI + c * Wt))))).
  set (a2 := 2 * Wx * (KQ * Wy + 2 * BI ^ 2)). set (a3 := KQ * Wy * Wx + Wy * (2 * BI ^ 2)).
  assert (PB2 : 0 <= 2 * BI ^ 2) by (pose proof (pow2_ge_0 BI); lra).
  assert (Q1 : 0 <= a1) by (unfold a1; nn). assert (Q2 : 0 <= a2) by (unfold a2; nn). assert (Q3 : 0 <= a3) by (unfold a3; nn).
  exists (a1 + a2 + a3). split; [lra|]. intros v n0 n1 nt Hv N0 N1 N2.
  pose proof (spacing_pos x0 x1 n0 Bx N0) as Sx. pose proof (spacing_pos y0 y1 n1 By N1) as Sy. pose proof (spacing_pos t0 t1 nt Bt N2) as St.
  pose proof (riem2_RInt2 KQ (2 * BI ^ 2) x0 x1 y0 y1 (Qc v) n0 n1 Bx By N0 N1 P4 PB2 (Qc_lip v Hv) (fun x y Ix Iy => Qc_bnd x y v Hv Ix Iy)) as R1.
  assert (Hle : spacing t0 t1 nt <= Wt).
  { unfold spacing, Wt. apply le_INR in N2. simpl in N2. apply (Rmult_le_reg_r (INR nt - 1)); [lra|].
    replace ((t1 - t0) / (INR nt - 1) * (INR nt - 1)) with (t1 - t0) by (field; lra). nra. }
  set (hx := spacing x0 x1 n0) in *. set (hy := spacing y0 y1 n1) in *. set (ht := spacing t0 t1 nt) in *.
  assert (R2 : Rabs (riem2 (Qn nt v) x0 x1 y0 y1 n0 n1 - riem2 (Qc v) x0 x1 y0 y1 n0 n1) <= a1 * ht).
  { unfold riem2, a1. replace (2 * Wx * (2 * Wy * (2 * (c * (2 * BI + c * Wt)))) * ht) with (2 * Wx * (2 * Wy * (2 * (c * ht * (2 * BI + c * Wt))))) by ring.
    assert (Pe : 0 <= 2 * (c * ht * (2 * BI + c * Wt))).
    { apply Rmult_le_pos; [lra|]. apply Rmult_le_pos; [apply Rmult_le_pos; lra|]. assert (0 <= c * Wt) by (apply Rmult_le_pos; lra). lra. }
    apply riem_close; [exact Bx|exact N0| |].
    - apply Rmult_le_pos; [lra|exact Pe].
    - intros x Ix. apply riem_close; [exact By|exact N1|exact Pe|]. intros y Iy.
      eapply Rle_trans; [apply (Q_close x y v nt Hv Ix Iy N2)|]. fold c ht. apply Rmult_le_compat_l; [lra|].
      apply Rmult_le_compat_l; [apply Rmult_le_pos; lra|]. apply Rplus_le_compat_l, Rmult_le_compat_l; assumption. }
  match goal with |- Rabs (?a - ?b) <= _ => replace (a - b) with ((a - riem2 (Qc v) x0 x1 y0 y1 n0 n1) + (riem2 (Qc v) x0 x1 y0 y1 n0 n1 - b)) by ring end.
  eapply Rle_trans; [apply Rabs_triang|]. fold Wx Wy in R1.
  replace (2 * Wx * ((KQ * Wy + 2 * BI ^ 2) * hy)) with (a2 * hy) in R1 by (unfold a2; ring).
  fold a3 in R1.
  assert (0 <= a1 * hx /\ 0 <= a1 * hy /\ 0 <= a2 * hx /\ 0 <= a2 * ht /\ 0 <= a3 * hy /\ 0 <= a3 * ht) by (repeat split; apply Rmult_le_pos; lra). lra.
Qed.
Lemma RInt2_bnd v : Rabs v <= V -> Rabs (RInt2 (Qc v) x0 x1 y0 y1) <= (x1 - x0) * ((y1 - y0) * (2 * BI ^ 2)).
Proof.
  intros Hv. pose proof KQ_pos. unfold RInt2. apply RInt_bnd; [lra| |].
  - apply (lip_ex (KQ * (y1 - y0)) x0 x1); try lra; [apply Rmult_le_pos; lra|].
    apply (inner_lip KQ x0 x1 y0 y1 (Qc v) By H (Qc_lip v Hv)).
  - apply (inner_bnd KQ (2 * BI ^ 2) x0 x1 y0 y1 (Qc v) By H (Qc_lip v Hv)). intros x y Ix Iy. apply Qc_bnd; assumption.
Qed.

(** Rings: y = 0. *)
Hypothesis (R0 : 0 <= x0) (Y0 : y0 <= 0 <= y1).
Definition Gc (v r : R) : R := r * Qc v r 0.
Lemma Gc_lip v : Rabs v <= V -> lip1 (2 * BI ^ 2 + x1 * KQ) x0 x1 (Gc v) /\ bnd1 (x1 * (2 * BI ^ 2)) x0 x1 (Gc v).
Proof.
  intros Hv. split.
  - intros r r' Ir Ir'. unfold Gc. replace (r * Qc v r 0 - r' * Qc v r' 0) with ((r - r') * Qc v r 0 + r' * (Qc v r 0 - Qc v r' 0)) by ring.
    eapply Rle_trans; [apply Rabs_triang|]. rewrite !Rabs_mult. rewrite (Rabs_right r') by lra.
    pose proof (Qc_bnd r 0 v Hv Ir Y0) as Q1. pose proof (Qc_lip v Hv r r' 0 0 Ir Ir' Y0 Y0) as Q2. rewrite abs0, Rplus_0_r in Q2.
    pose proof (Rabs_pos (r - r')) as P. pose proof KQ_pos.
    assert (Rabs (r - r') * Rabs (Qc v r 0) <= Rabs (r - r') * (2 * BI ^ 2)) by (apply Rmult_le_compat_l; assumption).
    assert (r' * Rabs (Qc v r 0 - Qc v r' 0) <= x1 * (KQ * Rabs (r - r'))) by (apply Rmult_le_compat; try lra; apply Rabs_pos). lra.
  - intros r Ir. unfold Gc. rewrite Rabs_mult, (Rabs_right r) by lra. apply Rmult_le_compat; try lra; [apply Rabs_pos|apply Qc_bnd; assumption].
Qed.
Lemma spec_conv_rt : exists A, 0 <= A /\ forall v n1 nt, Rabs v <= V -> (2 <= n1)%nat -> (2 <= nt)%nat ->
  Rabs (riem (fun r => r * Qn nt v r 0) x0 x1 n1 - RInt (Gc v) x0 x1) <= A * (spacing x0 x1 n1 + spacing t0 t1 nt).
Proof.
  pose proof Kf_pos as P1. pose proof Bf_pos as P2. pose proof BI_pos as P3. pose proof KQ_pos as P4. pose proof Wt_pos as P5.
  set (c := Kf * Wt + Bf). assert (Pc : 0 <= c) by (unfold c; assert (0 <= Kf * Wt) by (apply Rmult_le_pos; lra); lra).
  set (Wx := x1 - x0). assert (PWx : 0 < Wx) by (unfold Wx; lra). assert (Px1 : 0 <= x1) by lra.
  set (a1 := 2 * Wx * (x1 * (2 * (c * (2 * BI + c * Wt))))).
  set (a3 := (2 * BI ^ 2 + x1 * KQ) * Wx + x1 * (2 * BI ^ 2)).
  assert (PB2 : 0 <= 2 * BI ^ 2) by (pose proof (pow2_ge_0 BI); lra).
  assert (Q1 : 0 <= a1) by (unfold a1; nn). assert (Q3 : 0 <= a3) by (unfold a3; nn).
  exists (a1 + a3). split; [lra|]. intros v n1 nt Hv N1 N2.
  pose proof (spacing_pos x0 x1 n1 Bx N1) as Sx. pose proof (spacing_pos t0 t1 nt Bt N2) as St.
  assert (Hle : spacing t0 t1 nt <= Wt).
  { unfold spacing, Wt. apply le_INR in N2. simpl in N2. apply (Rmult_le_reg_r (INR nt - 1)); [lra|].
    replace ((t1 - t0) / (INR nt - 1) * (INR nt - 1)) with (t1 - t0) by (field; lra). nra. }
  destruct (Gc_lip v Hv) as (GL & GB).
  set (hx := spacing x0 x1 n1) in *. set (ht := spacing t0 t1 nt) in *.
  eapply Rle_trans; [apply (riem_step (Gc v) _ x0 x1 n1 _ _ (x1 * (2 * (c * ht * (2 * BI + c * Wt)))) Bx N1) with (4 := GL) (5 := GB)|].
  - assert (0 <= c * Wt) by (apply Rmult_le_pos; lra). nn.
  - assert (0 <= x1 * KQ) by (apply Rmult_le_pos; lra). lra.
  - intros r Ir. unfold Gc. rewrite <- Rmult_minus_distr_l, Rabs_mult, (Rabs_right r) by lra.
    apply Rmult_le_compat; try lra; [apply Rabs_pos|].
    eapply Rle_trans; [apply (Q_close r 0 v nt Hv Ir Y0 N2)|]. fold c ht. apply Rmult_le_compat_l; [lra|].
    apply Rmult_le_compat_l; [apply Rmult_le_pos; lra|]. apply Rplus_le_compat_l, Rmult_le_compat_l; assumption.
  - fold Wx hx a3. replace (2 * Wx * (x1 * (2 * (c * ht * (2 * BI + c * Wt))))) with (a1 * ht) by (unfold a1; ring).
    assert (0 <= a1 * hx /\ 0 <= a3 * ht) by (repeat split; apply Rmult_le_pos; lra). lra.
Qed.
Lemma Gc_int_bnd v : Rabs v <= V -> Rabs (RInt (Gc v) x0 x1) <= (x1 - x0) * (x1 * (2 * BI ^ 2)).
Proof.
  intros Hv. destruct (Gc_lip v Hv) as (GL & GB). pose proof KQ_pos. pose proof (pow2_ge_0 BI). apply RInt_bnd; [lra| |exact GB].
  apply (lip_ex (2 * BI ^ 2 + x1 * KQ) x0 x1); try lra; [|exact GL]. assert (0 <= x1 * KQ) by (apply Rmult_le_pos; lra). lra.
Qed.
End Field.
