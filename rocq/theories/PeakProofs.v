(** C97: the amplitude of a combined profile with a requested energy. *)
From Coquelicot Require Import Coquelicot.
From Verif Require Import PyBase CSum NpFFT NumPy GridModel GridSpec GridProofs LaserSpec GridObs EnergyModel EnergyProofs LaserModel OpticsModel LaserOps
  LaserInv LaserInitProofs AngularProofs HistoryProofs OpticsProofs OpticsProofs2 LaserExamples ConvergeSpec ConvergeProofs ConvergeLaser
  AnalysisModel DurationProofs ZernikeOrtho DurConvSpec DurConvProofs DurConvLaser ProfileModel AnalyticModel AnalyticProofs NpMath GaussInt GaussMoments GaussLaserSpec GaussLaser
  SepSpec SepProofs PolarSpec HGOrtho LGProofs LGOrtho PeakSpec.
Open Scope R_scope.

(** ** Algebra of tame functions *)
Lemma tame_bound f : tame2 f -> forall M, exists B, 0 <= B /\ forall x y, Rabs x <= M -> Rabs y <= M -> Rabs (f x y) <= B.
Proof.
  intros H M. destruct (Rle_dec 0 M) as [HM|HM].
  2:{ exists 0. split; [lra|]. intros x y Hx. pose proof (Rabs_pos x). lra. }
  destruct (H M) as (K & PK & HK). exists (Rabs (f 0 0) + K * (M + M)). split.
  - pose proof (Rabs_pos (f 0 0)). assert (0 <= K * (M + M)) by (apply Rmult_le_pos; lra). lra.
  - intros x y Hx Hy. assert (Z : Rabs 0 <= M) by (rewrite Rabs_R0; exact HM). specialize (HK x 0 y 0 Hx Z Hy Z). rewrite !Rminus_0_r in HK.
    replace (f x y) with (f 0 0 + (f x y - f 0 0)) by ring. eapply Rle_trans; [apply Rabs_triang|]. apply Rplus_le_compat_l.
    eapply Rle_trans; [exact HK|]. apply Rmult_le_compat_l; lra.
Qed.
Lemma tame_ext f g : (forall x y, f x y = g x y) -> tame2 f -> tame2 g.
Proof. intros E H M. destruct (H M) as (K & PK & HK). exists K. split; [exact PK|]. intros. rewrite <- !E. apply HK; assumption. Qed.
Lemma tame_const c : tame2 (fun _ _ => c).
Proof. intros M. exists 0. split; [lra|]. intros. rewrite Rminus_diag_eq, Rabs_R0 by reflexivity. lra. Qed.
Lemma tame_x : tame2 (fun x _ => x).
Proof. intros M. exists 1. split; [lra|]. intros x x' y y' _ _ _ _. pose proof (Rabs_pos (y - y')). lra. Qed.
Lemma tame_y : tame2 (fun _ y => y).
Proof. intros M. exists 1. split; [lra|]. intros x x' y y' _ _ _ _. pose proof (Rabs_pos (x - x')). lra. Qed.
Lemma tame_plus f g : tame2 f -> tame2 g -> tame2 (fun x y => f x y + g x y).
Proof.
  intros Hf Hg M. destruct (Hf M) as (K & PK & HK). destruct (Hg M) as (J & PJ & HJ). exists (K + J). split; [lra|].
  intros x x' y y' A B C D. replace (f x y + g x y - (f x' y' + g x' y')) with ((f x y - f x' y') + (g x y - g x' y')) by ring.
  eapply Rle_trans; [apply Rabs_triang|]. rewrite Rmult_plus_distr_r. apply Rplus_le_compat; auto.
Qed.
Lemma tame_mult f g : tame2 f -> tame2 g -> tame2 (fun x y => f x y * g x y).
Proof.
  intros Hf Hg M. destruct (Hf M) as (K & PK & HK). destruct (Hg M) as (J & PJ & HJ).
  destruct (tame_bound f Hf M) as (B & PB & HB). destruct (tame_bound g Hg M) as (D & PD & HD).
  exists (K * D + B * J). split; [assert (0 <= K * D) by (apply Rmult_le_pos; assumption); assert (0 <= B * J) by (apply Rmult_le_pos; assumption); lra|].
  intros x x' y y' X X' Y Y'. replace (f x y * g x y - f x' y' * g x' y') with ((f x y - f x' y') * g x y + f x' y' * (g x y - g x' y')) by ring.
  eapply Rle_trans; [apply Rabs_triang|]. rewrite !Rabs_mult, Rmult_plus_distr_r. set (d := Rabs (x - x') + Rabs (y - y')).
  assert (Pd : 0 <= d) by (unfold d; pose proof (Rabs_pos (x - x')); pose proof (Rabs_pos (y - y')); lra). apply Rplus_le_compat.
  - replace (K * D * d) with (K * d * D) by ring. apply Rmult_le_compat; [apply Rabs_pos|apply Rabs_pos|apply HK; assumption|apply HD; assumption].
  - rewrite Rmult_assoc. apply Rmult_le_compat; [apply Rabs_pos|apply Rabs_pos|apply HB; assumption|apply HJ; assumption].
Qed.
Lemma tame_scal c f : tame2 f -> tame2 (fun x y => c * f x y).
Proof. intros H. apply (tame_mult (fun _ _ => c) f); [apply tame_const|exact H]. Qed.
Lemma tame_pow f n : tame2 f -> tame2 (fun x y => f x y ^ n).
Proof. intros H. induction n as [|n IH]; cbn [pow]; [apply tame_const|]. apply (tame_mult f (fun x y => f x y ^ n)); assumption. Qed.
Lemma tame_rsum n (f : nat -> R -> R -> R) : (forall i, tame2 (f i)) -> tame2 (fun x y => rsum n (fun i => f i x y)).
Proof. intros H. induction n as [|n IH]; cbn [rsum]; [apply tame_const|]. apply (tame_plus (fun x y => rsum n (fun i => f i x y)) (f n)); [exact IH|apply H]. Qed.
Lemma tame_exp_neg f : tame2 f -> (forall x y, 0 <= f x y) -> tame2 (fun x y => exp (- f x y)).
Proof.
  intros H P M. destruct (H M) as (K & PK & HK). exists K. split; [exact PK|]. intros. eapply Rle_trans; [apply exp_lip; apply P|]. apply HK; assumption.
Qed.
Lemma tame_hermite n f : tame2 f -> tame2 (fun x y => hermite n (f x y)).
Proof.
  intros H. unfold hermite.
  assert (G : tame2 (fun x y => fst (hermite2 n (f x y))) /\ tame2 (fun x y => snd (hermite2 n (f x y)))).
  { induction n as [|n [IH1 IH2]].
    - cbn [hermite2 fst snd]. split; [apply tame_const|apply tame_scal, H].
    - split.
      + refine (tame_ext _ _ _ IH2). intros x y. cbn [hermite2]. destruct (hermite2 n (f x y)). reflexivity.
      + apply (tame_ext (fun x y => (2 * f x y) * snd (hermite2 n (f x y)) + (- (2 * INR (Datatypes.S n))) * fst (hermite2 n (f x y)))).
        * intros x y. cbn [hermite2]. destruct (hermite2 n (f x y)). cbn [fst snd]. ring.
        * apply (tame_plus (fun x y => (2 * f x y) * snd (hermite2 n (f x y)))); [|apply tame_scal, IH1].
          apply (tame_mult (fun x y => 2 * f x y)); [apply tame_scal, H|exact IH2]. }
  apply G.
Qed.
Lemma tame_genlaguerre p k f : tame2 f -> tame2 (fun x y => genlaguerre p k (f x y)).
Proof.
  intros H. unfold genlaguerre. apply (tame_rsum (Datatypes.S p) (fun i x y => (-1) ^ i * (INR (fact (p + k)) / (INR (fact (p - i)) * INR (fact (k + i)))) * f x y ^ i / INR (fact i))).
  intros i. apply (tame_ext (fun x y => ((-1) ^ i * (INR (fact (p + k)) / (INR (fact (p - i)) * INR (fact (k + i)))) / INR (fact i)) * f x y ^ i)); [intros; unfold Rdiv; ring|].
  apply tame_scal, tame_pow, H.
Qed.
Lemma tame_1 f : tame2 (fun x _ => f x) -> tame1 f.
Proof.
  intros H M. destruct (H M) as (K & PK & HK). exists K. split; [exact PK|]. intros x x' X X'. specialize (HK x x' x x X X' X X).
  rewrite (Rminus_diag_eq x x eq_refl), Rabs_R0, Rplus_0_r in HK. exact HK.
Qed.
Lemma tame_of1 f : tame1 f -> tame2 (fun x _ => f x).
Proof.
  intros H M. destruct (H M) as (K & PK & HK). exists K. split; [exact PK|]. intros x x' y y' X X' _ _. eapply Rle_trans; [apply HK; assumption|].
  apply Rmult_le_compat_l; [exact PK|]. pose proof (Rabs_pos (y - y')). lra.
Qed.
Lemma tame1_ex f a b : tame1 f -> ex_RInt f a b.
Proof.
  intros H. destruct (H (Rmax (Rabs a) (Rabs b))) as (K & PK & HK). set (M := Rmax (Rabs a) (Rabs b)) in *.
  pose proof (Rmax_l (Rabs a) (Rabs b)) as Ma. pose proof (Rmax_r (Rabs a) (Rabs b)) as Mb. fold M in Ma, Mb.
  apply (lip_ex K (- M) M f); [|  |exact PK|].
  - apply Rabs_le_between. exact Ma.
  - apply Rabs_le_between. exact Mb.
  - intros x y Hx Hy. apply HK; apply Rabs_le_between; assumption.
Qed.
Lemma tame_slice f x : tame2 f -> tame1 (f x).
Proof.
  intros H M. destruct (H (Rmax (Rabs x) M)) as (K & PK & HK). exists K. split; [exact PK|]. intros y y' Y Y'.
  pose proof (Rmax_l (Rabs x) M). pose proof (Rmax_r (Rabs x) M). specialize (HK x x y y'). rewrite (Rminus_diag_eq x x eq_refl), Rabs_R0, Rplus_0_l in HK. apply HK; lra.
Qed.

(** ** Intensity and energy of a product *)
Lemma Cnorm2_mult a b : Cnorm2 (Cmult a b) = Cnorm2 a * Cnorm2 b.
Proof. unfold Cnorm2, Cmult. cbn [fst snd]. ring. Qed.
Lemma product_lip trans long lo0 hi0 lo1 hi1 t0 t1 : tame2 (fun x y => Cnorm2 (trans x y)) -> tame1 (fun t => Cnorm2 (long t)) ->
  exists K, 0 <= K /\ lip_intensity K lo0 hi0 lo1 hi1 t0 t1 (fun x y t => Cmult (trans x y) (long t)).
Proof.
  intros HT HL.
  set (M := Rabs lo0 + Rabs hi0 + (Rabs lo1 + Rabs hi1) + (Rabs t0 + Rabs t1)).
  assert (PM : forall lo hi x, Rabs lo + Rabs hi <= M -> lo <= x <= hi -> Rabs x <= M).
  { intros lo hi x Hm Hx. eapply Rle_trans; [|exact Hm]. pose proof (Rle_abs hi). pose proof (Rabs_pos hi). pose proof (Rabs_pos lo). pose proof (Rle_abs (- lo)) as Q. rewrite Rabs_Ropp in Q.
    apply Rabs_le. lra. }
  pose proof (Rabs_pos lo0). pose proof (Rabs_pos hi0). pose proof (Rabs_pos lo1). pose proof (Rabs_pos hi1). pose proof (Rabs_pos t0). pose proof (Rabs_pos t1).
  destruct (HT M) as (K & PK & HK). destruct (HL M) as (J & PJ & HJ).
  destruct (tame_bound _ HT M) as (B & PB & HB). destruct (tame_bound _ (tame_of1 _ HL) M) as (D & PD & HD).
  assert (P1 : 0 <= K * D) by (apply Rmult_le_pos; assumption). assert (P2 : 0 <= B * J) by (apply Rmult_le_pos; assumption).
  exists (K * D + B * J). split; [lra|]. intros x x' y y' t t' X X' Y Y' T T'. rewrite !Cnorm2_mult.
  assert (Ax : Rabs x <= M) by (apply (PM lo0 hi0); [unfold M; lra|exact X]). assert (Ax' : Rabs x' <= M) by (apply (PM lo0 hi0); [unfold M; lra|exact X']).
  assert (Ay : Rabs y <= M) by (apply (PM lo1 hi1); [unfold M; lra|exact Y]). assert (Ay' : Rabs y' <= M) by (apply (PM lo1 hi1); [unfold M; lra|exact Y']).
  assert (At : Rabs t <= M) by (apply (PM t0 t1); [unfold M; lra|exact T]). assert (At' : Rabs t' <= M) by (apply (PM t0 t1); [unfold M; lra|exact T']).
  set (f := Cnorm2 (trans x y)). set (f' := Cnorm2 (trans x' y')). set (g := Cnorm2 (long t)). set (g' := Cnorm2 (long t')).
  replace (f * g - f' * g') with ((f - f') * g + f' * (g - g')) by ring. eapply Rle_trans; [apply Rabs_triang|]. rewrite !Rabs_mult.
  assert (Q1 : Rabs (f - f') * Rabs g <= K * (Rabs (x - x') + Rabs (y - y')) * D)
    by (apply Rmult_le_compat; [apply Rabs_pos|apply Rabs_pos|apply HK; assumption|apply (HD t t); assumption]).
  assert (Q2 : Rabs f' * Rabs (g - g') <= B * (J * Rabs (t - t')))
    by (apply Rmult_le_compat; [apply Rabs_pos|apply Rabs_pos|apply HB; assumption|apply HJ; assumption]).
  pose proof (Rabs_pos (x - x')). pose proof (Rabs_pos (y - y')). pose proof (Rabs_pos (t - t')).
  assert (0 <= K * D * Rabs (t - t')) by (apply Rmult_le_pos; assumption).
  assert (0 <= B * J * (Rabs (x - x') + Rabs (y - y'))) by (apply Rmult_le_pos; lra). lra.
Qed.
Lemma U_product trans long x0 x1 y0 y1 t0 t1 : tame2 (fun x y => Cnorm2 (trans x y)) -> tame1 (fun t => Cnorm2 (long t)) ->
  ex_RInt (fun x => RInt (fun y => Cnorm2 (trans x y)) y0 y1) x0 x1 ->
  U_xyt x0 x1 y0 y1 t0 t1 (fun x y t => Cmult (trans x y) (long t)) =
  eps0 / 2 * c_light * (RInt (fun x => RInt (fun y => Cnorm2 (trans x y)) y0 y1) x0 x1 * RInt (fun t => Cnorm2 (long t)) t0 t1).
Proof.
  intros HT HL HX. unfold U_xyt. f_equal. set (D := RInt (fun t => Cnorm2 (long t)) t0 t1).
  rewrite (RInt_ext _ (fun x => D * RInt (fun y => Cnorm2 (trans x y)) y0 y1)).
  - rewrite RInt_scal' by exact HX. eqR. ring.
  - intros x _. rewrite (RInt_ext _ (fun y => D * Cnorm2 (trans x y))).
    + apply RInt_scal'. apply (tame1_ex (fun y => Cnorm2 (trans x y))). apply (tame_slice (fun x y => Cnorm2 (trans x y))), HT.
    + intros y _. rewrite (RInt_ext _ (fun t => Cnorm2 (trans x y) * Cnorm2 (long t))) by (intros t _; apply Cnorm2_mult).
      rewrite RInt_scal' by (apply tame1_ex, HL). fold D. eqR. ring.
Qed.
Lemma tame_inner f y0 y1 : tame2 f -> tame1 (fun x => RInt (f x) y0 y1).
Proof.
  intros H M. set (N := Rmax M (Rmax (Rabs y0) (Rabs y1))). destruct (H N) as (K & PK & HK).
  exists (K * Rabs (y1 - y0)). split; [apply Rmult_le_pos; [exact PK|apply Rabs_pos]|]. intros x x' X X'.
  pose proof (Rmax_l M (Rmax (Rabs y0) (Rabs y1))) as N1. pose proof (Rmax_r M (Rmax (Rabs y0) (Rabs y1))) as N2. fold N in N1, N2.
  pose proof (Rmax_l (Rabs y0) (Rabs y1)). pose proof (Rmax_r (Rabs y0) (Rabs y1)).
  assert (EX : forall x, ex_RInt (f x) y0 y1) by (intros; apply tame1_ex, tame_slice, H).
  assert (G : forall a b, a <= b -> Rabs a <= N -> Rabs b <= N -> (forall x, ex_RInt (f x) a b) -> Rabs (RInt (f x) a b - RInt (f x') a b) <= (b - a) * (K * Rabs (x - x'))).
  { intros a b Hab Na Nb Hex. apply RInt_close; try apply Hex; [exact Hab|]. intros y Hy. 
    assert (Ny : Rabs y <= N) by (apply Rabs_le_between in Na, Nb; apply Rabs_le_between; lra).
    specialize (HK x x' y y ltac:(lra) ltac:(lra) Ny Ny). rewrite (Rminus_diag_eq y y eq_refl), Rabs_R0, Rplus_0_r in HK. exact HK. }
  destruct (Rle_dec y0 y1) as [L|L].
  - rewrite (Rabs_right (y1 - y0)) by lra. replace (K * (y1 - y0) * Rabs (x - x')) with ((y1 - y0) * (K * Rabs (x - x'))) by ring. apply G; try lra; exact EX.
  - rewrite (Rabs_left (y1 - y0)) by lra. rewrite <- (opp_RInt_swap (f x)), <- (opp_RInt_swap (f x')) by (apply ex_RInt_swap, EX).
    unfold opp; simpl. replace (- RInt (f x) y1 y0 - - RInt (f x') y1 y0) with (- (RInt (f x) y1 y0 - RInt (f x') y1 y0)) by ring. rewrite Rabs_Ropp.
    replace (K * - (y1 - y0) * Rabs (x - x')) with ((y0 - y1) * (K * Rabs (x - x'))) by ring. apply G; try lra. intros; apply ex_RInt_swap, EX.
Qed.
Lemma prod2_cont a b : forall eps, 0 < eps -> exists d, 0 < d /\ forall x y, Rabs (x - a) < d -> Rabs (y - b) < d -> Rabs (x * y - a * b) < eps.
Proof.
  intros eps He. destruct (prod3_cont a b 1 eps He) as (d & Pd & HD). exists d. split; [exact Pd|]. intros x y Hx Hy.
  assert (H1 : Rabs (1 - 1) < d) by (rewrite Rminus_diag_eq, Rabs_R0 by reflexivity; exact Pd).
  specialize (HD x y 1 Hx Hy H1). rewrite !Rmult_1_r in HD. exact HD.
Qed.
Lemma energy_const_pos P D : 0 < P -> 0 < D -> 0 < eps0 / 2 * c_light * (P * D).
Proof.
  intros HP HD. pose proof eps0_pos. pose proof c_light_pos. apply Rmult_lt_0_compat; [apply Rmult_lt_0_compat; lra|]. apply Rmult_lt_0_compat; assumption.
Qed.
Lemma U_product_lim trans long P D : tame2 (fun x y => Cnorm2 (trans x y)) -> tame1 (fun t => Cnorm2 (long t)) ->
  beam_power trans P -> pulse_duration long D ->
  forall eps, 0 < eps -> exists W, 0 < W /\ forall x0 x1 y0 y1 t0 t1,
  x0 <= - W -> W <= x1 -> y0 <= - W -> W <= y1 -> t0 <= - W -> W <= t1 ->
  Rabs (U_xyt x0 x1 y0 y1 t0 t1 (fun x y t => Cmult (trans x y) (long t)) - eps0 / 2 * c_light * (P * D)) < eps.
Proof.
  intros HT HL HP HD eps He. pose proof eps0_pos as Pe. pose proof c_light_pos as Pc. set (k := eps0 / 2 * c_light).
  assert (Pk : 0 < k) by (unfold k; apply Rmult_lt_0_compat; lra).
  destruct (prod2_cont P D (eps / k)) as (d & Pd & Hc); [apply Rdiv_lt_0_compat; assumption|].
  destruct (HP d Pd) as (W1 & P1 & H1). destruct (HD d Pd) as (W2 & P2 & H2). exists (W1 + W2). split; [lra|].
  intros x0 x1 y0 y1 t0 t1 X0 X1 Y0 Y1 T0 T1. rewrite U_product; [|exact HT|exact HL|apply tame1_ex, (tame_inner (fun x y => Cnorm2 (trans x y))), HT]. fold k.
  rewrite <- Rmult_minus_distr_l, Rabs_mult, (Rabs_right k) by lra. replace eps with (k * (eps / k)) by (field; lra).
  apply Rmult_lt_compat_l; [exact Pk|]. apply Hc; [apply H1; lra|apply H2; lra].
Qed.
Lemma c97_xyt l px py E long trans p nm nte P D :
  combined_profile l [px; py] (Some E) long trans = Ok p -> 0 <= E ->
  tame2 (fun x y => Cnorm2 (trans x y)) -> tame1 (fun t => Cnorm2 (long t)) ->
  beam_power trans P -> pulse_duration long D -> 0 < P -> 0 < D ->
  forall eps, 0 < eps -> exists W, 0 < W /\ forall x0 x1 y0 y1 t0 t1,
  x0 <= - W -> W <= x1 -> y0 <= - W -> W <= y1 -> t0 <= - W -> W <= t1 ->
  exists N, forall n0 n1 nt, (N <= n0)%nat -> (N <= n1)%nat -> (N <= nt)%nat ->
  exists L a s, laser_init Xyt [x0;y0;t0] [x1;y1;t1] [n0;n1;nt] p nm nte = Ok L /\
    snd (get_temporal_field (l_grid L)) = Ok a /\ Rabs (s - peak_factor E P D) < eps /\
    forall i j k, (i < n0)%nat -> (j < n1)%nat -> (k < nt)%nat ->
      at3 a i j k = Cmult (RtoC s) (Cmult (trans (coord x0 x1 n0 i) (coord y0 y1 n1 j)) (long (coord t0 t1 nt k))).
Proof.
  intros H HE HT HL HP HD PP PD eps He. pose proof (energy_const_pos P D PP PD) as PU. set (U := eps0 / 2 * c_light * (P * D)) in *.
  destruct (sqrt_ratio_cont E U HE PU (eps / 2) ltac:(lra)) as (d & Pd & Hc).
  destruct (U_product_lim trans long P D HT HL HP HD d Pd) as (W & PW & HW). exists W. split; [exact PW|].
  intros x0 x1 y0 y1 t0 t1 X0 X1 Y0 Y1 S0 S1. specialize (HW _ _ _ _ _ _ X0 X1 Y0 Y1 S0 S1). destruct (Hc _ HW) as (PUw & HR).
  destruct (product_lip trans long x0 x1 y0 y1 t0 t1 HT HL) as (K & PK & LK).
  destruct (combined_eval _ _ _ _ _ _ H) as (Hev & Hen & _).
  assert (Hdt : p_dtype p = Complex128) by (unfold combined_profile, profile_init in H; cbn [bind] in H; injection H as <-; reflexivity).
  destruct (c86_xyt_field K [x0;y0;t0] [x1;y1;t1] p nm nte E eq_refl eq_refl) with (eps := eps / 2) as (N & HN); cbn [nth]; try rewrite Hev; try assumption; try lra.
  exists N. intros n0 n1 nt N0 N1 N2. destruct (HN n0 n1 nt N0 N1 N2) as (L & a & s & HI & Ha & Hs & Hv). exists L, a, s.
  split; [exact HI|]. split; [exact Ha|]. split.
  - cbn [nth] in Hs. rewrite Hev in Hs. unfold peak_factor. fold U. set (Q := sqrt (E / U_xyt _ _ _ _ _ _ _)) in *. set (Q' := sqrt (E / U)) in *.
    replace (s - Q') with ((s - Q) + (Q - Q')) by ring. eapply Rle_lt_trans; [apply Rabs_triang|]. lra.
  - intros i j k Hi Hj Hk. rewrite (Hv i j k Hi Hj Hk), Hev. reflexivity.
Qed.
