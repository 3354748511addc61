(** Truncated moments of Gaussian intensities and their limits (used by C88 and C89). *)
From Coquelicot Require Import Coquelicot.
From Verif Require Import PyBase CSum LaserSpec ConvergeSpec ConvergeProofs ZernikeOrtho ParaxialProofs TransShapeProofs GaussInt DurConvSpec DurConvProofs.
Open Scope R_scope.

Definition gk (w c x : R) : R := exp (-2 * (x - c) ^ 2 / w ^ 2).
Lemma gk_pos w c x : 0 < gk w c x.
Proof. apply exp_pos. Qed.
Lemma gk_arg w c x : 0 < w -> 0 <= 2 * (x - c) ^ 2 / w ^ 2.
Proof. intros Hw. apply Rmult_le_pos; [pose proof (pow2_ge_0 (x - c)); lra|]. left. apply Rinv_0_lt_compat, pow_lt, Hw. Qed.
Lemma exp_le_1' a : 0 <= a -> exp (- a) <= 1.
Proof. intros H. rewrite <- exp_0. destruct H as [H|<-]; [left; apply exp_increasing; lra|rewrite Ropp_0; lra]. Qed.
Lemma gk_le1 w c x : 0 < w -> gk w c x <= 1.
Proof.
  intros Hw. unfold gk. replace (-2 * (x - c) ^ 2 / w ^ 2) with (- (2 * (x - c) ^ 2 / w ^ 2)) by (unfold Rdiv; ring).
  apply exp_le_1', gk_arg, Hw.
Qed.
Lemma gk_cont w c x : continuous (gk w c) x.
Proof. unfold gk. apply (@ex_derive_continuous R_AbsRing R_NormedModule). auto_derive. exact I. Qed.
Lemma gk_ex w c a b : ex_RInt (gk w c) a b.
Proof. apply (@ex_RInt_continuous R_CompleteNormedModule). intros x _. apply gk_cont. Qed.

(** |exp(-p) - exp(-q)| <= |p - q| for p, q >= 0 *)
Lemma exp_lip p q : 0 <= p -> 0 <= q -> Rabs (exp (- p) - exp (- q)) <= Rabs (p - q).
Proof.
  assert (H : forall p q, 0 <= p -> p <= q -> 0 <= exp (- p) - exp (- q) <= q - p).
  { intros a b Ha Hab. split.
    - destruct Hab as [Hab|<-]; [|lra]. assert (exp (- b) < exp (- a)) by (apply exp_increasing; lra). lra.
    - replace (exp (- a) - exp (- b)) with (exp (- a) * (1 - exp (- (b - a)))).
      + pose proof (exp_le_1' a Ha). pose proof (exp_pos (- a)). pose proof (exp_ineq1_le (- (b - a))). nra.
      + rewrite Rmult_minus_distr_l, <- exp_plus, Rmult_1_r. f_equal. f_equal. ring. }
  intros Hp Hq. destruct (Rle_dec p q) as [L|L].
  - specialize (H p q Hp L). rewrite (Rabs_right (exp _ - _)), (Rabs_left1 (p - q)) by lra. lra.
  - specialize (H q p Hq ltac:(lra)). rewrite (Rabs_left1 (exp _ - _)), (Rabs_right (p - q)) by lra. lra.
Qed.
Lemma gk_lip w c lo hi : 0 < w -> lo < hi -> exists K, 0 <= K /\ lip1 K lo hi (gk w c).
Proof.
  intros Hw Hl. destruct (poly2_lip (fun x => 2 * (x - c) ^ 2 / w ^ 2) lo hi Hl) as (K & _ & PK & _ & HK & _).
  - exists (2 * c ^ 2 / w ^ 2), (-4 * c / w ^ 2), (2 / w ^ 2). intros t. unfold Rdiv. ring.
  - exists K. split; [exact PK|]. intros x y Ix Iy. unfold gk.
    replace (-2 * (x - c) ^ 2 / w ^ 2) with (- (2 * (x - c) ^ 2 / w ^ 2)) by (unfold Rdiv; ring).
    replace (-2 * (y - c) ^ 2 / w ^ 2) with (- (2 * (y - c) ^ 2 / w ^ 2)) by (unfold Rdiv; ring).
    eapply Rle_trans; [apply exp_lip; apply gk_arg; exact Hw|]. exact (HK x y Ix Iy).
Qed.

(** ** Antiderivatives *)
Definition gint (w c lo hi : R) : R := RInt (gk w c) lo hi.
Lemma sqrt2_pos : 0 < sqrt 2.
Proof. apply sqrt_lt_R0. lra. Qed.
Lemma sqrt2_sq : sqrt 2 * sqrt 2 = 2.
Proof. apply sqrt_sqrt. lra. Qed.
Lemma gint_val w c lo hi : 0 < w ->
  gint w c lo hi = w / sqrt 2 * (gG (sqrt 2 * (hi - c) / w) - gG (sqrt 2 * (lo - c) / w)).
Proof.
  intros Hw. pose proof sqrt2_pos as P2. unfold gint. apply is_RInt_unique.
  replace (w / sqrt 2 * (gG (sqrt 2 * (hi - c) / w) - gG (sqrt 2 * (lo - c) / w))) with
    (minus ((fun x => w / sqrt 2 * gG (sqrt 2 * (x - c) / w)) hi) ((fun x => w / sqrt 2 * gG (sqrt 2 * (x - c) / w)) lo))
    by (unfold minus, plus, opp; simpl; ring).
  apply (@is_RInt_derive R_CompleteNormedModule (fun x => w / sqrt 2 * gG (sqrt 2 * (x - c) / w))).
  - intros x _. replace (gk w c x) with (w / sqrt 2 * (sqrt 2 / w * exp (- (sqrt 2 * (x - c) / w) ^ 2))).
    + apply (is_derive_scal (fun x => gG (sqrt 2 * (x - c) / w))).
      apply (is_derive_comp gG (fun x => sqrt 2 * (x - c) / w)); [apply gG_derive|]. auto_derive; [exact I|]. field. lra.
    + unfold gk. replace (- (sqrt 2 * (x - c) / w) ^ 2) with (-2 * (x - c) ^ 2 / w ^ 2); [field; lra|].
      replace (- (sqrt 2 * (x - c) / w) ^ 2) with (- (sqrt 2 * sqrt 2) * (x - c) ^ 2 / w ^ 2) by (field; lra). rewrite sqrt2_sq. field. lra.
  - intros x _. apply gk_cont.
Qed.
Lemma gint_pos w c lo hi : lo < hi -> 0 < gint w c lo hi.
Proof. intros H. apply RInt_gt_0; [exact H| |]; intros; [apply gk_pos|apply gk_cont]. Qed.
Lemma gint_m1 w c lo hi : 0 < w -> RInt (fun t => (t - c) * gk w c t) lo hi = w ^ 2 / 4 * (gk w c lo - gk w c hi).
Proof.
  intros Hw. apply is_RInt_unique.
  replace (w ^ 2 / 4 * (gk w c lo - gk w c hi)) with
    (minus ((fun x => - (w ^ 2 / 4) * gk w c x) hi) ((fun x => - (w ^ 2 / 4) * gk w c x) lo)) by (unfold minus, plus, opp; simpl; field).
  apply (@is_RInt_derive R_CompleteNormedModule (fun x => - (w ^ 2 / 4) * gk w c x)).
  - intros x _. unfold gk. auto_derive; [exact I|].
    set (G := exp _). replace (exp (-2 * (x - c) ^ 2 / w ^ 2)) with G by (unfold G; f_equal; unfold Rdiv; ring). field. lra.
  - intros x _. unfold gk. apply (@ex_derive_continuous R_AbsRing R_NormedModule). auto_derive. exact I.
Qed.
Lemma gint_m2 w c lo hi : 0 < w -> RInt (fun t => (t - c) ^ 2 * gk w c t) lo hi =
  w ^ 2 / 4 * (gint w c lo hi + ((lo - c) * gk w c lo - (hi - c) * gk w c hi)).
Proof.
  intros Hw.
  assert (D : is_RInt (fun t => (t - c) ^ 2 * gk w c t - w ^ 2 / 4 * gk w c t) lo hi
     (w ^ 2 / 4 * ((lo - c) * gk w c lo - (hi - c) * gk w c hi))).
  { replace (w ^ 2 / 4 * ((lo - c) * gk w c lo - (hi - c) * gk w c hi)) with
    (minus ((fun x => - (w ^ 2 / 4) * ((x - c) * gk w c x)) hi) ((fun x => - (w ^ 2 / 4) * ((x - c) * gk w c x)) lo)) by (unfold minus, plus, opp; simpl; field).
    apply (@is_RInt_derive R_CompleteNormedModule (fun x => - (w ^ 2 / 4) * ((x - c) * gk w c x))).
    - intros x _. unfold gk. auto_derive; [exact I|].
      set (G := exp _). replace (exp (-2 * (x - c) ^ 2 / w ^ 2)) with G by (unfold G; f_equal; unfold Rdiv; ring). field. lra.
    - intros x _. unfold gk. apply (@ex_derive_continuous R_AbsRing R_NormedModule). auto_derive. exact I. }
  pose proof (@is_RInt_plus R_NormedModule _ _ _ _ _ _ D
     (@is_RInt_scal R_NormedModule _ _ _ (w ^ 2 / 4) _ (@RInt_correct R_CompleteNormedModule _ _ _ (gk_ex w c lo hi)))) as Q.
  apply is_RInt_unique. fold (gint w c lo hi) in Q.
  replace (w ^ 2 / 4 * (gint w c lo hi + ((lo - c) * gk w c lo - (hi - c) * gk w c hi))) with
    (plus (w ^ 2 / 4 * ((lo - c) * gk w c lo - (hi - c) * gk w c hi)) (scal (w ^ 2 / 4) (gint w c lo hi)))
    by (unfold plus, scal; simpl; unfold mult; simpl; ring).
  apply (is_RInt_same _ _ _ _ _) with (2 := Q). intros x _. unfold plus, scal; simpl; unfold mult; simpl. ring.
Qed.

(** ** Limits for windows that grow on both sides *)
Definition to_whole (c : R) (F : R -> R -> R) (l : R) : Prop :=
  forall eps, 0 < eps -> exists T, 0 < T /\ forall lo hi, lo <= c - T -> c + T <= hi -> Rabs (F lo hi - l) < eps.
Lemma gG_odd x : gG (- x) = - gG x.
Proof.
  unfold gG. pose proof (RInt_comp_lin (V := R_CompleteNormedModule) (fun t => exp (- t ^ 2)) (-1) 0 0 x) as H.
  replace (-1 * 0 + 0) with 0 in H by ring. replace (-1 * x + 0) with (- x) in H by ring. rewrite <- H by smooth.
  transitivity (RInt (fun y => opp (exp (- y ^ 2))) 0 x).
  - apply RInt_ext. intros y _. unfold scal, opp; simpl. unfold mult; simpl. replace (-1 * y + 0) with (- y) by ring.
    replace (- (- y * (- y * 1))) with (- (y * (y * 1))) by ring. eqR. ring.
  - apply (@RInt_opp R_CompleteNormedModule). smooth.
Qed.
Lemma gG_eps eps : 0 < eps -> exists X, 0 < X /\ forall x, X <= x -> Rabs (gG x - sqrt PI / 2) < eps.
Proof.
  intros He. pose proof gG_lim as L. unfold to_inf in L. apply is_lim_spec in L. destruct (L (mkposreal eps He)) as (X & HX). simpl in HX.
  exists (Rabs X + 1). pose proof (Rabs_pos X). pose proof (Rle_abs X). split; [lra|]. intros x Hx. apply HX. lra.
Qed.
Lemma gint_lim w c : 0 < w -> to_whole c (gint w c) (w * sqrt (PI / 2)).
Proof.
  intros Hw eps He. pose proof sqrt2_pos as P2. pose proof PI_RGT_0 as Ppi.
  set (q := w / sqrt 2). assert (Pq : 0 < q) by (apply Rdiv_lt_0_compat; lra).
  destruct (gG_eps (eps / (2 * q))) as (X & PX & HX); [apply Rdiv_lt_0_compat; lra|].
  exists (q * X). split; [apply Rmult_lt_0_compat; lra|]. intros lo hi Hlo Hhi. rewrite gint_val by exact Hw. fold q.
  assert (E : w * sqrt (PI / 2) = q * (2 * (sqrt PI / 2))).
  { unfold q. unfold Rdiv at 1. rewrite sqrt_mult by lra. rewrite sqrt_inv by lra. field. lra. }
  rewrite E.
  assert (H1 : X <= sqrt 2 * (hi - c) / w).
  { replace (sqrt 2 * (hi - c) / w) with ((hi - c) / q) by (unfold q; field; lra). apply (Rmult_le_reg_l q); [exact Pq|].
    replace (q * ((hi - c) / q)) with (hi - c) by (field; lra). lra. }
  assert (H2 : X <= - (sqrt 2 * (lo - c) / w)).
  { replace (- (sqrt 2 * (lo - c) / w)) with ((c - lo) / q) by (unfold q; field; lra). apply (Rmult_le_reg_l q); [exact Pq|].
    replace (q * ((c - lo) / q)) with (c - lo) by (field; lra). lra. }
  apply HX in H1. apply HX in H2. rewrite gG_odd in H2.
  set (u := gG (sqrt 2 * (hi - c) / w)) in *. set (v := gG (sqrt 2 * (lo - c) / w)) in *. set (s := sqrt PI / 2) in *.
  replace (q * (u - v) - q * (2 * s)) with (q * ((u - s) + (- v - s))) by ring.
  rewrite Rabs_mult, (Rabs_right q) by lra.
  apply Rle_lt_trans with (q * (Rabs (u - s) + Rabs (- v - s))); [apply Rmult_le_compat_l; [lra|apply Rabs_triang]|].
  replace eps with (q * (eps / (2 * q) + eps / (2 * q))) by (field; lra). apply Rmult_lt_compat_l; lra.
Qed.
Lemma gk_tail w c T x : 0 < w -> 0 < T -> T <= Rabs (x - c) -> gk w c x <= w ^ 2 / (2 * T ^ 2) /\ Rabs ((x - c) * gk w c x) <= w ^ 2 / (2 * T).
Proof.
  intros Hw HT Hx. set (u := Rabs (x - c)) in *.
  assert (Pw : 0 < w ^ 2) by (apply pow_lt, Hw). assert (Pu : 0 < u) by lra. assert (Pu2 : 0 < u ^ 2) by (apply pow_lt, Pu).
  assert (E : (x - c) ^ 2 = u ^ 2) by (unfold u; rewrite <- !Rsqr_pow2, <- Rsqr_abs; reflexivity).
  assert (B : gk w c x <= w ^ 2 / (2 * u ^ 2)).
  { unfold gk. rewrite E. set (p := 2 * u ^ 2 / w ^ 2). replace (-2 * u ^ 2 / w ^ 2) with (- p) by (unfold p, Rdiv; ring).
    assert (Pp : 0 < p) by (apply Rdiv_lt_0_compat; lra). rewrite exp_Ropp. replace (w ^ 2 / (2 * u ^ 2)) with (/ p) by (unfold p; field; lra).
    apply Rinv_le_contravar; [exact Pp|]. pose proof (exp_ineq1_le p). lra. }
  assert (T2 : T ^ 2 <= u ^ 2) by (apply pow_incr; lra). assert (PT2 : 0 < T ^ 2) by (apply pow_lt, HT).
  split.
  - eapply Rle_trans; [exact B|]. apply Rmult_le_compat_l; [lra|]. apply Rinv_le_contravar; lra.
  - rewrite Rabs_mult, (Rabs_right (gk w c x)) by (left; apply gk_pos). fold u.
    apply Rle_trans with (u * (w ^ 2 / (2 * u ^ 2))); [apply Rmult_le_compat_l; lra|].
    replace (u * (w ^ 2 / (2 * u ^ 2))) with (w ^ 2 / (2 * u)) by (field; lra).
    apply Rmult_le_compat_l; [lra|]. apply Rinv_le_contravar; lra.
Qed.
Lemma to_whole_plus c F G a b : to_whole c F a -> to_whole c G b -> to_whole c (fun lo hi => F lo hi + G lo hi) (a + b).
Proof.
  intros HF HG eps He. destruct (HF (eps / 2) ltac:(lra)) as (T1 & P1 & H1). destruct (HG (eps / 2) ltac:(lra)) as (T2 & P2 & H2).
  exists (T1 + T2). split; [lra|]. intros lo hi Hl Hh. specialize (H1 lo hi ltac:(lra) ltac:(lra)). specialize (H2 lo hi ltac:(lra) ltac:(lra)).
  replace (F lo hi + G lo hi - (a + b)) with ((F lo hi - a) + (G lo hi - b)) by ring. eapply Rle_lt_trans; [apply Rabs_triang|]. lra.
Qed.
Lemma to_whole_scal c F a k : to_whole c F a -> to_whole c (fun lo hi => k * F lo hi) (k * a).
Proof.
  intros HF eps He. pose proof (Rabs_pos k). destruct (HF (eps / (Rabs k + 1))) as (T1 & P1 & H1); [apply Rdiv_lt_0_compat; lra|].
  exists T1. split; [exact P1|]. intros lo hi Hl Hh. specialize (H1 lo hi Hl Hh). rewrite <- Rmult_minus_distr_l, Rabs_mult.
  apply Rle_lt_trans with ((Rabs k) * (eps / (Rabs k + 1))); [apply Rmult_le_compat_l; lra|].
  assert (0 < eps / (Rabs k + 1)) by (apply Rdiv_lt_0_compat; lra).
  apply Rlt_le_trans with ((Rabs k + 1) * (eps / (Rabs k + 1))); [lra|]. right. field. lra.
Qed.
Lemma tail_bound c (F : R -> R) k : 0 < k -> (forall T x, 0 < T -> 1 <= T -> T <= Rabs (x - c) -> Rabs (F x) <= k / T) ->
  to_whole c (fun lo _ => F lo) 0 /\ to_whole c (fun _ hi => F hi) 0.
Proof.
  intros Hk H. assert (G : forall eps, 0 < eps -> exists T, 0 < T /\ forall x, T <= Rabs (x - c) -> Rabs (F x - 0) < eps).
  { intros eps He. assert (P : 0 < k / eps) by (apply Rdiv_lt_0_compat; lra). exists (1 + k / eps). split; [lra|]. intros x Hx. rewrite Rminus_0_r.
    eapply Rle_lt_trans; [apply (H (1 + k / eps)); lra|]. apply (Rmult_lt_reg_l (1 + k / eps)); [lra|].
    replace ((1 + k / eps) * (k / (1 + k / eps))) with k by (field; split; [lra|]; lra).
    replace ((1 + k / eps) * eps) with (eps + k) by (field; lra). lra. }
  split; intros eps He; destruct (G eps He) as (T & PT & HT); exists T; (split; [exact PT|]); intros lo hi Hl Hh; apply HT; unfold Rabs; destruct Rcase_abs; lra.
Qed.
Lemma gint_m1_lim w c : 0 < w -> to_whole c (fun lo hi => RInt (fun t => (t - c) * gk w c t) lo hi) 0.
Proof.
  intros Hw. assert (Pw : 0 < w ^ 2) by (apply pow_lt, Hw).
  destruct (tail_bound c (gk w c) (w ^ 2 / 2) ltac:(lra)) as (A & B).
  { intros T x HT H1 Hx. destruct (gk_tail w c T x Hw HT Hx) as (Q & _). rewrite Rabs_right by (left; apply gk_pos).
    eapply Rle_trans; [exact Q|]. replace (w ^ 2 / 2 / T) with (w ^ 2 / (2 * T)) by (field; lra).
    apply Rmult_le_compat_l; [lra|]. apply Rinv_le_contravar; [lra|]. nra. }
  pose proof (to_whole_scal c _ _ (w ^ 2 / 4) (to_whole_plus c _ _ _ _ A (to_whole_scal c _ _ (-1) B))) as Q.
  intros eps He. destruct (Q eps He) as (T & PT & HT). exists T. split; [exact PT|]. intros lo hi Hl Hh. specialize (HT lo hi Hl Hh).
  rewrite gint_m1 by exact Hw. rewrite Rmult_0_r, Rplus_0_r, Rmult_0_r in HT.
  replace (gk w c lo - gk w c hi) with (gk w c lo + -1 * gk w c hi) by ring. exact HT.
Qed.
Lemma gint_m2_lim w c : 0 < w -> to_whole c (fun lo hi => RInt (fun t => (t - c) ^ 2 * gk w c t) lo hi) (w ^ 2 / 4 * (w * sqrt (PI / 2))).
Proof.
  intros Hw. assert (Pw : 0 < w ^ 2) by (apply pow_lt, Hw).
  destruct (tail_bound c (fun x => (x - c) * gk w c x) (w ^ 2 / 2) ltac:(lra)) as (A & B).
  { intros T x HT H1 Hx. destruct (gk_tail w c T x Hw HT Hx) as (_ & Q). replace (w ^ 2 / 2 / T) with (w ^ 2 / (2 * T)) by (field; lra). exact Q. }
  pose proof (to_whole_scal c _ _ (w ^ 2 / 4) (to_whole_plus c _ _ _ _ (gint_lim w c Hw) (to_whole_plus c _ _ _ _ A (to_whole_scal c _ _ (-1) B)))) as Q.
  intros eps He. destruct (Q eps He) as (T & PT & HT). exists T. split; [exact PT|]. intros lo hi Hl Hh. specialize (HT lo hi Hl Hh).
  rewrite gint_m2 by exact Hw. rewrite Rmult_0_r, !Rplus_0_r in HT.
  replace ((lo - c) * gk w c lo - (hi - c) * gk w c hi) with ((lo - c) * gk w c lo + -1 * ((hi - c) * gk w c hi)) by ring. exact HT.
Qed.

(** ** Duration of a separable Gaussian pulse *)
Lemma rms_shift I c : lin2 I -> I (fun _ => 1) <> 0 ->
  rms_duration I = sqrt (I (fun t => (t - c) ^ 2) / I (fun _ => 1) - (I (fun t => t - c) / I (fun _ => 1)) ^ 2).
Proof.
  intros HI H. rewrite (rms_moments I HI H). destruct HI as (HL & HX). f_equal.
  assert (P1 : poly2 (fun t => (-2 * c) * t + c ^ 2 * 1)) by (exists (c ^ 2), (-2 * c), 0; intros; ring).
  rewrite (HX (fun t => (t - c) ^ 2) (fun t => 1 * t ^ 2 + 1 * ((-2 * c) * t + c ^ 2 * 1))) by (intros; ring).
  rewrite (HL (fun t => t ^ 2) (fun t => (-2 * c) * t + c ^ 2 * 1) 1 1 poly2_t2 P1).
  rewrite (HL (fun t => t) (fun _ => 1) (-2 * c) (c ^ 2) poly2_t poly2_1).
  rewrite (HX (fun t => t - c) (fun t => 1 * t + (- c) * 1)) by (intros; ring).
  rewrite (HL (fun t => t) (fun _ => 1) 1 (- c) poly2_t poly2_1). field. exact H.
Qed.
Lemma rms_gauss tau c : 0 < tau -> forall eps, 0 < eps -> exists T, 0 < T /\ forall lo hi, lo <= c - T -> c + T <= hi ->
  forall I k, lin2 I -> 0 < k ->
  (forall phi, poly2 phi -> I phi = k * RInt (fun t => phi t * gk tau c t) lo hi) ->
  Rabs (rms_duration I - tau / 2) < eps.
Proof.
  intros Ht eps He. pose proof PI_RGT_0 as Ppi. assert (Ps : 0 < sqrt (PI / 2)) by (apply sqrt_lt_R0; lra).
  set (Z := tau * sqrt (PI / 2)). assert (PZ : 0 < Z) by (apply Rmult_lt_0_compat; lra).
  destruct (std_cont Z 0 (tau ^ 2 / 4 * Z) PZ eps He) as (d & Pd & HD).
  destruct (gint_lim tau c Ht d Pd) as (T0 & P0 & H0). destruct (gint_m1_lim tau c Ht d Pd) as (T1 & P1 & H1).
  destruct (gint_m2_lim tau c Ht d Pd) as (T2 & P2 & H2).
  exists (T0 + T1 + T2). split; [lra|]. intros lo hi Hl Hh I k HI Hk HM.
  specialize (H0 lo hi ltac:(lra) ltac:(lra)). specialize (H1 lo hi ltac:(lra) ltac:(lra)). specialize (H2 lo hi ltac:(lra) ltac:(lra)).
  destruct (HD _ _ _ H0 H1 H2) as (PG & HC).
  assert (E0 : I (fun _ => 1) = k * gint tau c lo hi).
  { rewrite (HM _ poly2_1). f_equal. apply RInt_ext. intros t _. eqR. ring. }
  assert (Q1 : poly2 (fun t => t - c)) by (exists (- c), 1, 0; intros; ring).
  assert (Q2 : poly2 (fun t => (t - c) ^ 2)) by (exists (c ^ 2), (-2 * c), 1; intros; ring).
  assert (NZ : I (fun _ => 1) <> 0) by (rewrite E0; apply Rgt_not_eq, Rmult_lt_0_compat; assumption).
  rewrite (rms_shift I c HI NZ), (HM _ Q1), (HM _ Q2), E0.
  replace (tau / 2) with (sqrt (tau ^ 2 / 4 * Z / Z - (0 / Z) ^ 2)).
  - match goal with |- Rabs (sqrt ?a - _) < _ => match type of HC with Rabs (sqrt ?b - _) < _ => replace a with b end end; [exact HC|].
    field. split; lra.
  - replace (tau ^ 2 / 4 * Z / Z - (0 / Z) ^ 2) with ((tau / 2) ^ 2) by (field; lra). apply sqrt_pow2. lra.
Qed.
