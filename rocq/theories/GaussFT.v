(** The Fourier transform of a Gaussian over large windows (used by C90). *)
From Coquelicot Require Import Coquelicot.
From Verif Require Import PyBase CSum LaserSpec ConvergeProofs ZernikeOrtho ParaxialProofs TransShapeProofs GaussInt DurConvProofs GaussMoments.
Open Scope R_scope.

Definition Ic (w c a b v : R) : R := RInt (fun t => gk w c t * cos (v * (t - c))) a b.
Definition Is (w c a b v : R) : R := RInt (fun t => gk w c t * sin (v * (t - c))) a b.

Lemma c2_pow2 f a b : continuity_2d_pt f a b -> continuity_2d_pt (fun u v => f u v ^ 2) a b.
Proof. intros Hf. apply (continuity_2d_pt_ext (fun u v => f u v * f u v)); [intros; ring|]. apply continuity_2d_pt_mult; exact Hf. Qed.
Lemma c2_gk w c a b : continuity_2d_pt (fun _ t => gk w c t) a b.
Proof.
  apply (continuity_1d_2d_pt_comp (gk w c) (fun _ t => t)); [|apply continuity_2d_pt_id2].
  apply continuity_pt_filterlim, gk_cont.
Qed.
Lemma c2_sub (c a b : R) : continuity_2d_pt (fun u t => t - c) a b.
Proof. apply continuity_2d_pt_minus; [apply continuity_2d_pt_id2|apply continuity_2d_pt_const]. Qed.
Lemma c2_arg (c a b : R) : continuity_2d_pt (fun u t => u * (t - c)) a b.
Proof. apply continuity_2d_pt_mult; [apply continuity_2d_pt_id1|apply c2_sub]. Qed.

Lemma gk_derive w c t : w <> 0 -> is_derive (gk w c) t (- (4 * (t - c) / w ^ 2) * gk w c t).
Proof.
  intros Hw. unfold gk. auto_derive; [exact I|]. eqR. unfold Rdiv. simpl. set (e := exp _). set (i := / _).
  match goal with |- ?a = _ => ring_simplify a end. ring.
Qed.
Lemma Ic_derive (w c a b v : R) : 0 < w -> is_derive (Ic w c a b) v
  (w ^ 2 / 4 * ((gk w c b * sin (v * (b - c)) - gk w c a * sin (v * (a - c))) - v * Ic w c a b v)).
Proof.
  intros Hw.
  assert (D : forall u t, is_derive (fun u => gk w c t * cos (u * (t - c))) u (- (gk w c t * ((t - c) * sin (u * (t - c)))))).
  { intros u t. auto_derive; [exact I|]. eqR. ring. }
  assert (E1 : ex_RInt (fun t => gk w c t * cos (v * (t - c))) a b) by (unfold gk; smooth).
  assert (E2 : is_RInt (fun t => - (4 * (t - c) / w ^ 2) * gk w c t * sin (v * (t - c)) + gk w c t * (v * cos (v * (t - c)))) a b
     (minus (gk w c b * sin (v * (b - c))) (gk w c a * sin (v * (a - c))))).
  { apply (@is_RInt_derive R_CompleteNormedModule (fun t => gk w c t * sin (v * (t - c)))).
    - intros t _. apply (dmul (gk w c) (fun t => sin (v * (t - c)))); [apply gk_derive; lra|]. auto_derive; [exact I|]. eqR. change (t + - c) with (t - c). ring.
    - intros t _. unfold gk. cont1. }
  assert (E3 : RInt (fun t => Derive (fun u => gk w c t * cos (u * (t - c))) v) a b =
    w ^ 2 / 4 * ((gk w c b * sin (v * (b - c)) - gk w c a * sin (v * (a - c))) - v * Ic w c a b v)).
  { apply is_RInt_unique.
    apply (is_RInt_ext (fun t => scal (w ^ 2 / 4) (minus (- (4 * (t - c) / w ^ 2) * gk w c t * sin (v * (t - c)) + gk w c t * (v * cos (v * (t - c))))
       (scal v (gk w c t * cos (v * (t - c))))))).
    - intros t _. symmetry. etransitivity; [apply (is_derive_unique _ _ _ (D v t))|].
      unfold scal, minus, plus, opp; cbn -[pow]. unfold mult; cbn -[pow]. field. lra.
    - apply (@is_RInt_scal R_NormedModule), (@is_RInt_minus R_NormedModule); [exact E2|].
      apply (@is_RInt_scal R_NormedModule), (@RInt_correct R_CompleteNormedModule), E1. }
  rewrite <- E3.
  apply (is_derive_RInt_param (fun u t => gk w c t * cos (u * (t - c))) a b v).
  - apply filter_forall. intros y t _. eexists. apply D.
  - intros t _. apply (continuity_2d_pt_ext (fun u t => - (gk w c t * ((t - c) * sin (u * (t - c)))))).
    { intros u s. symmetry. apply is_derive_unique, D. }
    apply continuity_2d_pt_opp, continuity_2d_pt_mult; [apply c2_gk|]. apply continuity_2d_pt_mult; [apply c2_sub|].
    apply continuity_1d_2d_pt_comp; [apply continuity_sin|apply c2_arg].
  - apply filter_forall. intros y. unfold gk. smooth.
Qed.

Lemma Is_derive (w c a b v : R) : 0 < w -> is_derive (Is w c a b) v
  (w ^ 2 / 4 * (- (gk w c b * cos (v * (b - c)) - gk w c a * cos (v * (a - c))) - v * Is w c a b v)).
Proof.
  intros Hw.
  assert (D : forall u t, is_derive (fun u => gk w c t * sin (u * (t - c))) u (gk w c t * ((t - c) * cos (u * (t - c))))).
  { intros u t. auto_derive; [exact I|]. eqR. ring. }
  assert (E1 : ex_RInt (fun t => gk w c t * sin (v * (t - c))) a b) by (unfold gk; smooth).
  assert (E2 : is_RInt (fun t => - (4 * (t - c) / w ^ 2) * gk w c t * cos (v * (t - c)) + gk w c t * (v * - sin (v * (t - c)))) a b
     (minus (gk w c b * cos (v * (b - c))) (gk w c a * cos (v * (a - c))))).
  { apply (@is_RInt_derive R_CompleteNormedModule (fun t => gk w c t * cos (v * (t - c)))).
    - intros t _. apply (dmul (gk w c) (fun t => cos (v * (t - c)))); [apply gk_derive; lra|]. auto_derive; [exact I|]. eqR. change (t + - c) with (t - c). ring.
    - intros t _. unfold gk. cont1. }
  assert (E3 : RInt (fun t => Derive (fun u => gk w c t * sin (u * (t - c))) v) a b =
    w ^ 2 / 4 * (- (gk w c b * cos (v * (b - c)) - gk w c a * cos (v * (a - c))) - v * Is w c a b v)).
  { apply is_RInt_unique.
    apply (is_RInt_ext (fun t => scal (w ^ 2 / 4) (minus (opp (- (4 * (t - c) / w ^ 2) * gk w c t * cos (v * (t - c)) + gk w c t * (v * - sin (v * (t - c)))))
       (scal v (gk w c t * sin (v * (t - c))))))).
    - intros t _. symmetry. etransitivity; [apply (is_derive_unique _ _ _ (D v t))|].
      unfold scal, minus, plus, opp; cbn -[pow]. unfold mult; cbn -[pow]. field. lra.
    - apply (@is_RInt_scal R_NormedModule), (@is_RInt_minus R_NormedModule); [apply (@is_RInt_opp R_NormedModule), E2|].
      apply (@is_RInt_scal R_NormedModule), (@RInt_correct R_CompleteNormedModule), E1. }
  rewrite <- E3.
  apply (is_derive_RInt_param (fun u t => gk w c t * sin (u * (t - c))) a b v).
  - apply filter_forall. intros y t _. eexists. apply D.
  - intros t _. apply (continuity_2d_pt_ext (fun u t => gk w c t * ((t - c) * cos (u * (t - c))))).
    { intros u s. symmetry. apply is_derive_unique, D. }
    apply continuity_2d_pt_mult; [apply c2_gk|]. apply continuity_2d_pt_mult; [apply c2_sub|].
    apply continuity_1d_2d_pt_comp; [apply continuity_cos|apply c2_arg].
  - apply filter_forall. intros y. unfold gk. smooth.
Qed.

Lemma exp_le_inc a b : a <= b -> exp a <= exp b.
Proof. intros [H| ->]; [left; apply exp_increasing, H|right; reflexivity]. Qed.
(** f' = k (h - v f) with |h| <= H gives |f(v) exp(k v^2/2) - f(0)| <= k H |v| exp(k v^2/2). *)
Lemma ode_bound k H V (f h : R -> R) : 0 < k -> 0 <= H -> (forall v, is_derive f v (k * (h v - v * f v))) -> (forall v, Rabs (h v) <= H) ->
  forall v, Rabs v <= V -> Rabs (f v * exp (k * v ^ 2 / 2) - f 0) <= k * exp (k * V ^ 2 / 2) * H * V.
Proof.
  intros Hk HH Hd Hh v Hv.
  assert (D : forall u, is_derive (fun u => f u * exp (k * u ^ 2 / 2)) u (k * h u * exp (k * u ^ 2 / 2))).
  { intros u. replace (k * h u * exp (k * u ^ 2 / 2)) with (k * (h u - u * f u) * exp (k * u ^ 2 / 2) + f u * (k * u * exp (k * u ^ 2 / 2))) by ring.
    apply (dmul f (fun u => exp (k * u ^ 2 / 2))); [apply Hd|]. auto_derive; [exact I|]. eqR. simpl. set (e := exp _). field. }
  destruct (MVT_gen (fun u => f u * exp (k * u ^ 2 / 2)) 0 v (fun u => k * h u * exp (k * u ^ 2 / 2))) as (x & Ix & E).
  - intros; apply D.
  - intros z _. apply continuity_pt_filterlim. apply (@ex_derive_continuous R_AbsRing R_NormedModule (fun u => f u * exp (k * u ^ 2 / 2)) z). eexists. apply D.
  - replace (k * 0 ^ 2 / 2) with 0 in E by (simpl; field). rewrite exp_0, Rmult_1_r in E. rewrite E.
    rewrite Rminus_0_r, !Rabs_mult, (Rabs_right k), (Rabs_right (exp _)) by (try lra; left; apply exp_pos).
    assert (Hx : Rabs x <= V).
    { eapply Rle_trans; [|exact Hv]. revert Ix. unfold Rmin, Rmax, Rabs. repeat (destruct Rle_dec || destruct Rcase_abs); lra. }
    assert (Hx2 : x ^ 2 <= V ^ 2) by (rewrite <- (pow2_abs x); apply pow_incr; split; [apply Rabs_pos|exact Hx]).
    assert (He : exp (k * x ^ 2 / 2) <= exp (k * V ^ 2 / 2)) by (apply exp_le_inc; nra).
    pose proof (exp_pos (k * x ^ 2 / 2)). pose proof (exp_pos (k * V ^ 2 / 2)). pose proof (Rabs_pos (h x)). pose proof (Rabs_pos v). pose proof (Hh x).
    apply Rmult_le_compat; [|assumption| |exact Hv].
    + apply Rmult_le_pos; [apply Rmult_le_pos|]; lra.
    + replace (k * exp (k * V ^ 2 / 2) * H) with (k * H * exp (k * V ^ 2 / 2)) by ring.
      apply Rmult_le_compat; [apply Rmult_le_pos; lra|lra| |exact He]. apply Rmult_le_compat_l; lra.
Qed.

Lemma gk_ends w c : 0 < w -> forall eps, 0 < eps -> exists T, 0 < T /\ forall lo hi, lo <= c - T -> c + T <= hi -> gk w c lo + gk w c hi < eps.
Proof.
  intros Hw eps He. set (q := w ^ 2 / eps). assert (Pw : 0 < w ^ 2) by (apply pow_lt, Hw). assert (Pq : 0 < q) by (apply Rdiv_lt_0_compat; assumption).
  set (T := 1 + q). assert (PT : 1 < T) by (unfold T; lra).
  exists T. split; [lra|]. intros lo hi Hl Hh.
  destruct (gk_tail w c T lo Hw ltac:(lra)) as (Q1 & _); [rewrite Rabs_left1; lra|].
  destruct (gk_tail w c T hi Hw ltac:(lra)) as (Q2 & _); [rewrite Rabs_right; lra|].
  apply Rle_lt_trans with (w ^ 2 / T ^ 2).
  - replace (w ^ 2 / T ^ 2) with (w ^ 2 / (2 * T ^ 2) + w ^ 2 / (2 * T ^ 2)) by (field; lra). lra.
  - assert (PT2 : 0 < T ^ 2) by (apply pow_lt; lra). apply (Rmult_lt_reg_r (T ^ 2)); [exact PT2|]. replace (w ^ 2 / T ^ 2 * T ^ 2) with (w ^ 2) by (field; lra).
    replace (w ^ 2) with (eps * q) by (unfold q; field; lra). apply Rmult_lt_compat_l; [exact He|]. unfold T. simpl. nra.
Qed.
Lemma osc w c lo hi (x y : R) : 0 < w -> Rabs x <= 1 -> Rabs y <= 1 -> Rabs (gk w c hi * x - gk w c lo * y) <= gk w c lo + gk w c hi.
Proof.
  intros Hw Hx Hy. pose proof (gk_pos w c lo). pose proof (gk_pos w c hi). unfold Rminus. eapply Rle_trans; [apply Rabs_triang|].
  rewrite Rabs_Ropp, !Rabs_mult, !(Rabs_right (gk w c _)) by lra. nra.
Qed.
Lemma Is_0 w c a b : Is w c a b 0 = 0.
Proof.
  unfold Is. rewrite (RInt_ext _ (fun _ => 0)).
  - rewrite (@RInt_const R_CompleteNormedModule). unfold scal; simpl; unfold mult; simpl. ring.
  - intros t _. rewrite Rmult_0_l, sin_0. eqR. ring.
Qed.
Lemma Ic_0 w c a b : Ic w c a b 0 = gint w c a b.
Proof. unfold Ic, gint. apply RInt_ext. intros t _. rewrite Rmult_0_l, cos_0. eqR. ring. Qed.
Lemma sc1 x : Rabs (sin x) <= 1 /\ Rabs (cos x) <= 1.
Proof. split; apply Rabs_le; [pose proof (SIN_bound x)|pose proof (COS_bound x)]; lra. Qed.
Lemma ft_lim w c V : 0 < w -> 0 <= V -> forall eps, 0 < eps -> exists T, 0 < T /\ forall lo hi, lo <= c - T -> c + T <= hi ->
  forall v, Rabs v <= V -> Rabs (Ic w c lo hi v - w * sqrt (PI / 2) * exp (- (w ^ 2 * v ^ 2 / 8))) < eps /\ Rabs (Is w c lo hi v) < eps.
Proof.
  intros Hw HV eps He. set (k := w ^ 2 / 4). assert (Pk : 0 < k) by (unfold k; pose proof (pow_lt w 2 Hw); lra).
  set (B := k * exp (k * V ^ 2 / 2) * V).
  assert (PB : 0 <= B) by (unfold B; pose proof (exp_pos (k * V ^ 2 / 2)); apply Rmult_le_pos; [apply Rmult_le_pos|]; lra).
  destruct (gk_ends w c Hw (eps / 2 / (B + 1))) as (T1 & P1 & H1); [apply Rdiv_lt_0_compat; lra|].
  destruct (gint_lim w c Hw (eps / 2) ltac:(lra)) as (T2 & P2 & H2).
  exists (T1 + T2). split; [lra|]. intros lo hi Hl Hh v Hv.
  specialize (H1 lo hi ltac:(lra) ltac:(lra)). specialize (H2 lo hi ltac:(lra) ltac:(lra)).
  set (H := gk w c lo + gk w c hi) in *. assert (PH : 0 <= H) by (unfold H; pose proof (gk_pos w c lo); pose proof (gk_pos w c hi); lra).
  assert (Q : B * H < eps / 2).
  { apply Rle_lt_trans with ((B + 1) * H); [nra|]. replace (eps / 2) with ((B + 1) * (eps / 2 / (B + 1))) by (field; lra). apply Rmult_lt_compat_l; lra. }
  assert (OC : Rabs (Ic w c lo hi v * exp (k * v ^ 2 / 2) - Ic w c lo hi 0) <= B * H).
  { replace (B * H) with (k * exp (k * V ^ 2 / 2) * H * V) by (unfold B; ring).
    apply (ode_bound k H V (Ic w c lo hi) (fun v => gk w c hi * sin (v * (hi - c)) - gk w c lo * sin (v * (lo - c))) Pk PH).
    - intros u. apply Ic_derive, Hw.
    - intros u. apply osc; [exact Hw| |]; apply sc1.
    - exact Hv. }
  assert (OS : Rabs (Is w c lo hi v * exp (k * v ^ 2 / 2) - Is w c lo hi 0) <= B * H).
  { replace (B * H) with (k * exp (k * V ^ 2 / 2) * H * V) by (unfold B; ring).
    apply (ode_bound k H V (Is w c lo hi) (fun v => - (gk w c hi * cos (v * (hi - c)) - gk w c lo * cos (v * (lo - c)))) Pk PH).
    - intros u. apply Is_derive, Hw.
    - intros u. rewrite Rabs_Ropp. apply osc; [exact Hw| |]; apply sc1.
    - exact Hv. }
  rewrite Ic_0 in OC. rewrite Is_0, Rminus_0_r in OS.
  set (e := exp (- (w ^ 2 * v ^ 2 / 8))). assert (Pe : 0 < e) by apply exp_pos.
  assert (Le : e <= 1) by (apply exp_le_1'; pose proof (pow2_ge_0 w); pose proof (pow2_ge_0 v); apply Rmult_le_pos; [apply Rmult_le_pos|]; lra).
  assert (Ee : exp (k * v ^ 2 / 2) * e = 1).
  { unfold e. rewrite <- exp_plus. replace (k * v ^ 2 / 2 + - (w ^ 2 * v ^ 2 / 8)) with 0 by (unfold k; field). apply exp_0. }
  assert (G : forall x, Rabs (x * e) <= Rabs x).
  { intros x. rewrite Rabs_mult, (Rabs_right e) by lra. rewrite <- (Rmult_1_r (Rabs x)) at 2. apply Rmult_le_compat_l; [apply Rabs_pos|exact Le]. }
  split.
  - set (X := exp (k * v ^ 2 / 2)) in *. set (g := gint w c lo hi) in *. set (s := w * sqrt (PI / 2)) in *.
    replace (Ic w c lo hi v - s * e) with ((Ic w c lo hi v * X - g) * e + (g - s) * e).
    2:{ transitivity (Ic w c lo hi v * (X * e) - s * e); [ring|rewrite Ee; ring]. }
    eapply Rle_lt_trans; [apply Rabs_triang|]. pose proof (G (Ic w c lo hi v * X - g)). pose proof (G (g - s)). lra.
  - replace (Is w c lo hi v) with (Is w c lo hi v * exp (k * v ^ 2 / 2) * e) by (rewrite Rmult_assoc, Ee; ring).
    eapply Rle_lt_trans; [apply G|]. lra.
Qed.
