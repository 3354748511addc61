From Coq Require Import Lra Lia Psatz.
From Coquelicot Require Import Coquelicot.
From Verif Require Import PyBase CSum NumPy NpMath LaserSpec AnalyticModel ModesModel ModesSpec ModesProofs ConvergeProofs HGConvSpec.
Open Scope R_scope.

(** ** Families of functions, Lipschitz and bounded on every square uniformly in a parameter. *)
Section Family.
Context (P : R -> Prop).
Definition LL (g : R -> R -> R -> R) : Prop := forall X, 0 < X -> exists K B, 0 <= K /\ 0 <= B /\
  forall p, P p -> lip2 K (- X) X (- X) X (g p) /\ (forall x y, - X <= x <= X -> - X <= y <= X -> Rabs (g p x y) <= B).
Lemma LL_const c B : (forall p, P p -> Rabs (c p) <= B) -> 0 <= B -> LL (fun p _ _ => c p).
Proof.
  intros H HB X HX. exists 0, B. split; [lra|]. split; [exact HB|]. intros p Hp. split; [|intros; apply H, Hp].
  intros x x' y y' _ _ _ _. rewrite Rminus_diag_eq by reflexivity. rewrite Rabs_R0. lra.
Qed.
Lemma LL_x : LL (fun _ x _ => x).
Proof.
  intros X HX. exists 1, X. split; [lra|]. split; [lra|]. intros p _. split; [|intros; apply Rabs_le; lra].
  intros x x' y y' _ _ _ _. pose proof (Rabs_pos (y - y')). lra.
Qed.
Lemma LL_y : LL (fun _ _ y => y).
Proof.
  intros X HX. exists 1, X. split; [lra|]. split; [lra|]. intros p _. split; [|intros; apply Rabs_le; lra].
  intros x x' y y' _ _ _ _. pose proof (Rabs_pos (x - x')). lra.
Qed.
Lemma LL_plus g h : LL g -> LL h -> LL (fun p x y => g p x y + h p x y).
Proof.
  intros Hg Hh X HX. destruct (Hg X HX) as (K & B & HK & HB & H). destruct (Hh X HX) as (K' & B' & HK' & HB' & H').
  exists (K + K'), (B + B'). split; [lra|]. split; [lra|]. intros p Hp. destruct (H p Hp) as [L U]. destruct (H' p Hp) as [L' U'].
  split.
  - intros x x' y y' Hx Hx' Hy Hy'. specialize (L x x' y y' Hx Hx' Hy Hy'). specialize (L' x x' y y' Hx Hx' Hy Hy').
    replace (g p x y + h p x y - (g p x' y' + h p x' y')) with ((g p x y - g p x' y') + (h p x y - h p x' y')) by ring.
    eapply Rle_trans; [apply Rabs_triang|]. lra.
  - intros x y Hx Hy. eapply Rle_trans; [apply Rabs_triang|]. specialize (U x y Hx Hy). specialize (U' x y Hx Hy). lra.
Qed.
Lemma LL_mult g h : LL g -> LL h -> LL (fun p x y => g p x y * h p x y).
Proof.
  intros Hg Hh X HX. destruct (Hg X HX) as (K & B & HK & HB & H). destruct (Hh X HX) as (K' & B' & HK' & HB' & H').
  exists (K * B' + B * K'), (B * B'). split; [nra|]. split; [nra|]. intros p Hp. destruct (H p Hp) as [L U]. destruct (H' p Hp) as [L' U'].
  split.
  - intros x x' y y' Hx Hx' Hy Hy'. specialize (L x x' y y' Hx Hx' Hy Hy'). specialize (L' x x' y y' Hx Hx' Hy Hy').
    specialize (U x' y' Hx' Hy'). specialize (U' x y Hx Hy).
    replace (g p x y * h p x y - g p x' y' * h p x' y') with ((g p x y - g p x' y') * h p x y + g p x' y' * (h p x y - h p x' y')) by ring.
    eapply Rle_trans; [apply Rabs_triang|]. rewrite !Rabs_mult. set (D := Rabs (x - x') + Rabs (y - y')) in *.
    assert (0 <= D) by (unfold D; pose proof (Rabs_pos (x - x')); pose proof (Rabs_pos (y - y')); lra).
    rewrite Rmult_plus_distr_r. apply Rplus_le_compat.
    + apply Rle_trans with ((K * D) * B'); [|right; ring]. apply Rmult_le_compat; try apply Rabs_pos; assumption.
    + apply Rle_trans with (B * (K' * D)); [|right; ring]. apply Rmult_le_compat; try apply Rabs_pos; assumption.
  - intros x y Hx Hy. rewrite Rabs_mult. apply Rmult_le_compat; try apply Rabs_pos; [apply U | apply U']; assumption.
Qed.
Lemma LL_ext g h : (forall p, P p -> forall x y, g p x y = h p x y) -> LL g -> LL h.
Proof.
  intros E H X HX. destruct (H X HX) as (K & B & HK & HB & HL). exists K, B. split; [exact HK|]. split; [exact HB|].
  intros p Hp. destruct (HL p Hp) as [L U]. split.
  - intros x x' y y' Hx Hx' Hy Hy'. rewrite <- !E by exact Hp. apply L; assumption.
  - intros x y Hx Hy. rewrite <- E by exact Hp. apply U; assumption.
Qed.
(* exp is 1-Lipschitz below 0 *)
Lemma exp_lip u v : u <= 0 -> v <= 0 -> Rabs (exp u - exp v) <= Rabs (u - v).
Proof.
  assert (A : forall u v, u <= v -> v <= 0 -> exp v - exp u <= v - u).
  { intros a b Hab Hb. replace (exp b - exp a) with (exp b * (1 - exp (a - b))).
    2: { rewrite Rmult_minus_distr_l, Rmult_1_r, <- exp_plus. f_equal. f_equal. ring. }
    pose proof (exp_ineq1_le (a - b)). assert (exp b <= 1). { rewrite <- exp_0. destruct (Req_dec b 0); [subst; lra|]. left. apply exp_increasing. lra. }
    pose proof (exp_pos b). assert (exp (a - b) <= 1). { rewrite <- exp_0. destruct (Req_dec (a - b) 0) as [->|]; [lra|]. left. apply exp_increasing. lra. } nra. }
  intros Hu Hv. destruct (Rle_dec u v) as [H|H].
  - assert (M : exp u <= exp v). { destruct (Req_dec u v); [subst; lra|]. left. apply exp_increasing. lra. }
    rewrite !Rabs_left1 by lra. specialize (A u v H Hv). lra.
  - assert (M : exp v <= exp u). { left. apply exp_increasing. lra. }
    rewrite !Rabs_right by lra. specialize (A v u ltac:(lra) Hu). lra.
Qed.
Lemma LL_exp g : (forall p x y, P p -> g p x y <= 0) -> LL g -> LL (fun p x y => exp (g p x y)).
Proof.
  intros N H X HX. destruct (H X HX) as (K & B & HK & HB & HL). exists K, 1. split; [exact HK|]. split; [lra|].
  intros p Hp. destruct (HL p Hp) as [L U]. split.
  - intros x x' y y' Hx Hx' Hy Hy'. eapply Rle_trans; [apply exp_lip; apply N, Hp|]. apply L; assumption.
  - intros x y Hx Hy. rewrite Rabs_right by (left; apply exp_pos). rewrite <- exp_0. pose proof (N p x y Hp).
    destruct (Req_dec (g p x y) 0) as [->|]; [lra|]. left. apply exp_increasing. lra.
Qed.
Lemma LL_hermite2 n g : LL g -> LL (fun p x y => fst (hermite2 n (g p x y))) /\ LL (fun p x y => snd (hermite2 n (g p x y))).
Proof.
  intros Hg. induction n as [|n [IH1 IH2]].
  - cbn. split; [apply (LL_const (fun _ => 1) 1); [intros; rewrite Rabs_R1; lra|lra]|].
    apply (LL_mult (fun _ _ _ => 2) g); [|exact Hg]. apply (LL_const (fun _ => 2) 2); [intros; rewrite Rabs_right; lra|lra].
  - split.
    + apply (LL_ext (fun p x y => snd (hermite2 n (g p x y)))); [|exact IH2]. intros p _ x y. cbn. destruct (hermite2 n (g p x y)). reflexivity.
    + apply (LL_ext (fun p x y => 2 * g p x y * snd (hermite2 n (g p x y)) + (- (2 * INR (S n))) * fst (hermite2 n (g p x y)))).
      { intros p _ x y. cbn [hermite2]. destruct (hermite2 n (g p x y)). cbn [fst snd]. ring. }
      pose proof (pos_INR (S n)).
      apply LL_plus; apply LL_mult; try assumption.
      * apply (LL_mult (fun _ _ _ => 2) g); [|exact Hg]. apply (LL_const (fun _ => 2) 2); [intros; rewrite Rabs_right; lra|lra].
      * apply (LL_const (fun _ => - (2 * INR (S n))) (2 * INR (S n))); [intros; rewrite Rabs_Ropp, Rabs_right; lra|lra].
Qed.
Lemma LL_hermite n g : LL g -> LL (fun p x y => hermite n (g p x y)).
Proof. intros H. apply (LL_hermite2 n g H). Qed.
Lemma LL_fixed f : locally_lipschitz f -> LL (fun _ x y => Re (f x y)) /\ LL (fun _ x y => Im (f x y)).
Proof.
  intros H.
  assert (A : forall prt : C -> R, (forall z, Rabs (prt z) <= Cmod z) -> (forall z w, prt (Cminus z w) = prt z - prt w) -> LL (fun _ x y => prt (f x y))).
  { intros prt Hb Hs X HX. destruct (H X HX) as (K & HK).
    exists (Rabs K), (Cmod (f 0 0) + Rabs K * (X + X)). pose proof (Rabs_pos K). pose proof (Cmod_ge_0 (f 0 0)). split; [lra|]. split; [nra|].
    assert (L : forall x x' y y', - X <= x <= X -> - X <= x' <= X -> - X <= y <= X -> - X <= y' <= X ->
      Rabs (prt (f x y) - prt (f x' y')) <= Rabs K * (Rabs (x - x') + Rabs (y - y'))).
    { intros x x' y y' Hx Hx' Hy Hy'. rewrite <- Hs. eapply Rle_trans; [apply Hb|]. eapply Rle_trans; [apply HK; apply Rabs_le; assumption|].
      apply Rmult_le_compat_r; [pose proof (Rabs_pos (x - x')); pose proof (Rabs_pos (y - y')); lra | apply Rle_abs]. }
    intros p _. split; [exact L|]. intros x y Hx Hy. specialize (L x 0 y 0 Hx ltac:(lra) Hy ltac:(lra)).
    replace (prt (f x y)) with (prt (f 0 0) + (prt (f x y) - prt (f 0 0))) by ring. eapply Rle_trans; [apply Rabs_triang|].
    apply Rplus_le_compat; [apply Hb|]. eapply Rle_trans; [exact L|]. apply Rmult_le_compat_l; [lra|]. rewrite !Rminus_0_r.
    apply Rplus_le_compat; apply Rabs_le; assumption. }
  split; apply A.
  - intros z. eapply Rle_trans; [|apply Rmax_Cmod]. apply Rmax_l.
  - intros z w. unfold Cminus, Cplus, Copp, Re. cbn. ring.
  - intros z. eapply Rle_trans; [|apply Rmax_Cmod]. apply Rmax_r.
  - intros z w. unfold Cminus, Cplus, Copp, Im. cbn. ring.
Qed.
End Family.

(** ** The modes. *)
Lemma hg_waist_plane w i j x y : w <> 0 -> hg_trans_at w i j 0 x y =
  RtoC (sqrt (2 / PI) * sqrt (1 / (2 ^ i * INR (fact i) * w)) * sqrt (1 / (2 ^ j * INR (fact j) * w)) *
        hermite i (sqrt 2 * / w * x) * hermite j (sqrt 2 * / w * y) * exp (- (/ w * / w) * (x * x + y * y))).
Proof.
  intros Hw. unfold hg_trans_at. cbn zeta. rewrite Ropp_0.
  assert (E1 : Cmod (1, 0) = 1) by (change (1, 0) with (RtoC 1); rewrite Cmod_1; reflexivity).
  assert (Ea : angle (1, 0) = 0).
  { unfold angle. rewrite E1. cbn [Re Im fst snd]. rewrite (proj2 (Rleb_true 0 0)) by lra.
    destruct (Reqb 1 0) eqn:B; [apply Reqb_true in B; lra|]. replace (1 / 1) with 1 by field. apply acos_1. }
  rewrite E1, Ea, Rmult_1_r. change (1, 0) with (RtoC 1).
  replace (Cdiv (RtoC 1) (RtoC 1)) with (RtoC 1) by (unfold RtoC, Cdiv, Cmult, Cinv; cbn; f_equal; field).
  replace (Cminus (Cdiv (RtoC (- (x ^ 2 + y ^ 2))) (Cmult (RtoC (w ^ 2)) (RtoC 1))) (Cmult (Cmult Ci (RtoC (INR (i + j)))) (RtoC 0)))
    with (RtoC (- (/ w * / w) * (x * x + y * y))).
  2: { unfold RtoC, Cdiv, Cmult, Cminus, Copp, Cplus, Cinv, Ci; cbn. f_equal; field; auto. }
  unfold cexp, cis. cbn [RtoC Re Im fst snd]. rewrite cos_0, sin_0.
  replace (sqrt 2 * x / w) with (sqrt 2 * / w * x) by (field; exact Hw).
  replace (sqrt 2 * y / w) with (sqrt 2 * / w * y) by (field; exact Hw).
  unfold RtoC, Cmult; cbn. f_equal; ring.
Qed.

Section Modes.
Context (wa wb : R) (Ha : 0 < wa) (Hab : wa <= wb).
Definition inrange (w : R) : Prop := wa <= w <= wb.
Lemma LL_inv : LL inrange (fun w _ _ => / w).
Proof.
  apply (LL_const inrange (fun w => / w) (/ wa)); [|left; apply Rinv_0_lt_compat; lra].
  intros w [H _]. rewrite Rabs_right by (left; apply Rinv_0_lt_compat; lra). apply Rinv_le_contravar; lra.
Qed.
Lemma LL_amp n : LL inrange (fun w _ _ => sqrt (1 / (2 ^ n * INR (fact n) * w))).
Proof.
  assert (Hn : 0 < 2 ^ n * INR (fact n)) by (apply Rmult_lt_0_compat; [apply pow_lt; lra | apply INR_fact_lt_0]).
  apply (LL_const inrange (fun w => sqrt (1 / (2 ^ n * INR (fact n) * w))) (sqrt (1 / (2 ^ n * INR (fact n) * wa)))); [|apply sqrt_pos].
  intros w [H _]. rewrite Rabs_right by (apply Rle_ge, sqrt_pos). apply sqrt_le_1_alt. unfold Rdiv. rewrite !Rmult_1_l.
  apply Rinv_le_contravar; [apply Rmult_lt_0_compat; lra | apply Rmult_le_compat_l; lra].
Qed.
Lemma LL_num c : 0 <= c -> LL inrange (fun _ _ _ => c).
Proof. intros H. apply (LL_const inrange (fun _ => c) c); [intros; rewrite Rabs_right; lra | exact H]. Qed.
Lemma LL_mode i j : LL inrange (fun w x y => sqrt (2 / PI) * sqrt (1 / (2 ^ i * INR (fact i) * w)) * sqrt (1 / (2 ^ j * INR (fact j) * w)) *
        hermite i (sqrt 2 * / w * x) * hermite j (sqrt 2 * / w * y) * exp (- (/ w * / w) * (x * x + y * y))).
Proof.
  assert (Hs : LL inrange (fun w _ _ => sqrt 2 * / w)) by (apply (LL_mult inrange (fun _ _ _ => sqrt 2) (fun w _ _ => / w)); [apply LL_num, sqrt_pos | apply LL_inv]).
  apply (LL_mult inrange (fun w x y => _) (fun w x y => exp (- (/ w * / w) * (x * x + y * y)))).
  - apply (LL_mult inrange (fun w x y => _) (fun w x y => hermite j (sqrt 2 * / w * y))).
    + apply (LL_mult inrange (fun w x y => _) (fun w x y => hermite i (sqrt 2 * / w * x))).
      * apply (LL_mult inrange (fun w x y => sqrt (2 / PI) * sqrt (1 / (2 ^ i * INR (fact i) * w))) (fun w x y => sqrt (1 / (2 ^ j * INR (fact j) * w)))); [|apply LL_amp].
        apply (LL_mult inrange (fun w x y => sqrt (2 / PI)) (fun w x y => sqrt (1 / (2 ^ i * INR (fact i) * w)))); [apply LL_num, sqrt_pos | apply LL_amp].
      * apply (LL_hermite inrange i (fun w x y => sqrt 2 * / w * x)). apply (LL_mult inrange (fun w x y => sqrt 2 * / w) (fun w x y => x)); [exact Hs | apply LL_x].
    + apply (LL_hermite inrange j (fun w x y => sqrt 2 * / w * y)). apply (LL_mult inrange (fun w x y => sqrt 2 * / w) (fun w x y => y)); [exact Hs | apply LL_y].
  - apply (LL_exp inrange (fun w x y => - (/ w * / w) * (x * x + y * y))).
    + intros w x y _. nra.
    + apply (LL_mult inrange (fun w x y => - (/ w * / w)) (fun w x y => x * x + y * y)).
      * apply (LL_ext inrange (fun w _ _ => (-1) * (/ w * / w))); [intros; ring|].
        apply (LL_mult inrange (fun w x y => -1) (fun w x y => / w * / w)).
        -- apply (LL_const inrange (fun _ => -1) 1); [intros; rewrite Rabs_left; lra | lra].
        -- apply (LL_mult inrange (fun w x y => / w) (fun w x y => / w)); apply LL_inv.
      * apply (LL_plus inrange (fun w x y => x * x) (fun w x y => y * y)).
        -- apply (LL_mult inrange (fun w x y => x) (fun w x y => x)); apply LL_x.
        -- apply (LL_mult inrange (fun w x y => y) (fun w x y => y)); apply LL_y.
Qed.
Lemma LL_overlap f i j : locally_lipschitz f -> LL inrange (fun w x y => Re (Cmult (f x y) (hg_trans_at w i j 0 x y))).
Proof.
  intros H. destruct (LL_fixed inrange f H) as [Hf _]. pose proof (LL_mult inrange _ _ Hf (LL_mode i j)) as HM.
  eapply LL_ext; [|exact HM]. intros w [Hw _] x y. cbn beta. rewrite hg_waist_plane by lra.
  set (u := _ * exp _). unfold Cmult, RtoC, Re. cbn [fst snd]. ring.
Qed.
End Modes.

(** ** The sum on the grid as a double Riemann sum, and the change of window. *)
Lemma axis_is_coord r N a : (2 <= N)%nat -> axis_point 0 r N a = coord (- ((INR N - 1) * r / 2)) ((INR N - 1) * r / 2) N a.
Proof.
  intros H. apply le_INR in H. change (INR 2) with (1 + 1) in H. unfold axis_point, coord. unfold LaserSpec.spacing. field. lra.
Qed.
Lemma axis_spacing r N : (2 <= N)%nat -> spacing (- ((INR N - 1) * r / 2)) ((INR N - 1) * r / 2) N = r.
Proof. intros H. apply le_INR in H. change (INR 2) with (1 + 1) in H. unfold spacing. field. lra. Qed.
Lemma weight_riem2 f r N w i j : (2 <= N)%nat -> mode_weight f 0 0 r N N w i j =
  riem2 (fun x y => Re (Cmult (f x y) (hg_trans_at w i j 0 x y))) (- ((INR N - 1) * r / 2)) ((INR N - 1) * r / 2) (- ((INR N - 1) * r / 2)) ((INR N - 1) * r / 2) N N.
Proof.
  intros H. unfold mode_weight, riem2, riem. rewrite !axis_spacing by exact H. rewrite rsum_swap.
  rewrite (rsum_scal_l N r). rewrite <- Rmult_assoc. replace (r * r) with (r ^ 2) by ring. rewrite Rmult_comm. f_equal.
  apply rsum_ext. intros a _. apply rsum_ext. intros b _. rewrite !axis_is_coord by exact H. reflexivity.
Qed.
Lemma shift1 (F : R -> R) B Y X a : 0 <= a <= Y -> 0 <= X <= Y -> 0 <= B -> (forall u v, - Y <= u <= Y -> - Y <= v <= Y -> ex_RInt F u v) -> bnd1 B (- Y) Y F ->
  Rabs (RInt F (- X) X - RInt F (- a) a) <= 2 * B * Rabs (X - a).
Proof.
  assert (A : forall X a, 0 <= a <= Y -> 0 <= X <= Y -> 0 <= B -> (forall u v, - Y <= u <= Y -> - Y <= v <= Y -> ex_RInt F u v) -> bnd1 B (- Y) Y F ->
    a <= X -> Rabs (RInt F (- X) X - RInt F (- a) a) <= 2 * B * Rabs (X - a)).
  { intros X0 a0 H0 HX HB He Hb Hle.
    rewrite <- (RInt_Chasles F (- X0) (- a0) X0) by (apply He; lra). rewrite <- (RInt_Chasles F (- a0) a0 X0) by (apply He; lra).
    change (@plus _) with Rplus. replace (RInt F (- X0) (- a0) + (RInt F (- a0) a0 + RInt F a0 X0) - RInt F (- a0) a0) with (RInt F (- X0) (- a0) + RInt F a0 X0) by ring.
    eapply Rle_trans; [apply Rabs_triang|]. rewrite (Rabs_right (X0 - a0)) by lra.
    assert (P1 : Rabs (RInt F (- X0) (- a0)) <= (- a0 - - X0) * B) by (apply RInt_bnd; [lra | apply He; lra | intros x Hx; apply Hb; lra]).
    assert (P2 : Rabs (RInt F a0 X0) <= (X0 - a0) * B) by (apply RInt_bnd; [lra | apply He; lra | intros x Hx; apply Hb; lra]).
    lra. }
  intros H0 HX HB He Hb. destruct (Rle_dec a X) as [H|H]; [apply A; assumption|].
  rewrite Rabs_minus_sym, (Rabs_minus_sym X a). apply A; try assumption. lra.
Qed.
Lemma shift2 K B Y X a f : 0 < a <= Y -> 0 < X <= Y -> 0 <= K -> 0 <= B -> lip2 K (- Y) Y (- Y) Y f ->
  (forall x y, - Y <= x <= Y -> - Y <= y <= Y -> Rabs (f x y) <= B) ->
  Rabs (RInt2 f (- X) X (- X) X - RInt2 f (- a) a (- a) a) <= 8 * Y * B * Rabs (X - a).
Proof.
  intros Ha HX HK HB HL HU. unfold RInt2.
  assert (Hin : forall b, 0 < b <= Y -> lip1 (K * (b - - b)) (- Y) Y (fun x => RInt (f x) (- b) b)).
  { intros b Hb. apply inner_lip; [lra | exact HK |]. intros x x' y y' Hx Hx' Hy Hy'. apply HL; lra. }
  assert (Hex : forall b u v, 0 < b <= Y -> - Y <= u <= Y -> - Y <= v <= Y -> ex_RInt (fun x => RInt (f x) (- b) b) u v).
  { intros b u v Hb Hu Hv. apply (lip_ex (K * (b - - b)) (- Y) Y); try assumption; [apply Rmult_le_pos; lra | apply Hin, Hb]. }
  set (GX := fun x => RInt (f x) (- X) X). set (Ga := fun x => RInt (f x) (- a) a).
  replace (RInt GX (- X) X - RInt Ga (- a) a) with ((RInt GX (- X) X - RInt Ga (- X) X) + (RInt Ga (- X) X - RInt Ga (- a) a)) by ring.
  eapply Rle_trans; [apply Rabs_triang|]. pose proof (Rabs_pos (X - a)) as HP. set (D := Rabs (X - a)) in *.
  assert (P1 : Rabs (RInt GX (- X) X - RInt Ga (- X) X) <= (X - - X) * (2 * B * D)).
  { apply RInt_close; [lra | apply Hex; lra | apply Hex; lra |]. intros x Hx. apply (shift1 (f x) B Y X a); [lra | lra | exact HB | |].
    - intros u v Hu Hv. apply (lip_ex K (- Y) Y); try assumption. apply (lip2_1 _ _ _ _ _ _ _ HL). lra.
    - intros y Hy. apply HU; lra. }
  assert (P2 : Rabs (RInt Ga (- X) X - RInt Ga (- a) a) <= 2 * (2 * Y * B) * D).
  { apply (shift1 Ga (2 * Y * B) Y X a); [lra | lra | apply Rmult_le_pos; lra | intros; apply Hex; lra |].
    intros x Hx. apply Rle_trans with ((a - - a) * B); [|apply Rmult_le_compat_r; lra].
    apply RInt_bnd; [lra | | intros y Hy; apply HU; lra]. apply (lip_ex K (- Y) Y); try lra. apply (lip2_1 _ _ _ _ _ _ _ HL Hx). }
  assert (P3 : (X - - X) * (2 * B * D) <= 2 * Y * (2 * B * D)) by (apply Rmult_le_compat_r; [apply Rmult_le_pos; lra | lra]).
  lra.
Qed.

(** ** The sum on the grid against the integral over |x|, |y| <= 5 w0. *)
Lemma window_riem2 K B w0 r N (g : R -> R -> R) : 0 < r -> r <= w0 -> (2 <= N)%nat -> 10 * w0 < INR N * r <= 10 * w0 + 2 * r -> 0 <= K -> 0 <= B ->
  lip2 K (- (6 * w0)) (6 * w0) (- (6 * w0)) (6 * w0) g -> (forall x y, - (6 * w0) <= x <= 6 * w0 -> - (6 * w0) <= y <= 6 * w0 -> Rabs (g x y) <= B) ->
  let X := (INR N - 1) * r / 2 in let Y := 6 * w0 in
  Rabs (riem2 g (- X) X (- X) X N N - RInt2 g (- (5 * w0)) (5 * w0) (- (5 * w0)) (5 * w0)) <= (4 * Y * (2 * K * Y + B) + (4 * K * Y * Y + 2 * Y * B) + 4 * Y * B) * r.
Proof.
  intros Hr Hrw N2 Nb HK HB HL HU X Y.
  assert (EX : 2 * X = INR N * r - r) by (unfold X; field).
  assert (HX : 0 < X <= Y) by (unfold Y; lra). fold Y in HL, HU.
  assert (P1 : Rabs (riem2 g (- X) X (- X) X N N - RInt2 g (- X) X (- X) X) <=
     2 * (X - - X) * ((K * (X - - X) + B) * spacing (- X) X N) + (K * (X - - X) * (X - - X) + (X - - X) * B) * spacing (- X) X N).
  { apply riem2_RInt2; try lra; try assumption.
    - intros x x' y y' Hx Hx' Hy Hy'. apply HL; lra.
    - intros x y Hx Hy. apply HU; lra. }
  assert (ES : spacing (- X) X N = r) by (apply axis_spacing, N2). rewrite ES in P1.
  assert (P2 := shift2 K B Y X (5 * w0) g ltac:(unfold Y; lra) HX HK HB HL HU).
  assert (P3 : Rabs (X - 5 * w0) <= r / 2) by (apply Rabs_le; lra).
  replace (riem2 g (- X) X (- X) X N N - RInt2 g (- (5 * w0)) (5 * w0) (- (5 * w0)) (5 * w0)) with
    ((riem2 g (- X) X (- X) X N N - RInt2 g (- X) X (- X) X) + (RInt2 g (- X) X (- X) X - RInt2 g (- (5 * w0)) (5 * w0) (- (5 * w0)) (5 * w0))) by ring.
  eapply Rle_trans; [apply Rabs_triang|].
  assert (Q2 : 8 * Y * B * Rabs (X - 5 * w0) <= 8 * Y * B * (r / 2)) by (apply Rmult_le_compat_l; [apply Rmult_le_pos; lra | exact P3]).
  assert (Q0 : X * X <= Y * Y) by (apply Rmult_le_compat; lra).
  assert (Q1 : 2 * (X - - X) * ((K * (X - - X) + B) * r) + (K * (X - - X) * (X - - X) + (X - - X) * B) * r <=
     (4 * Y * (2 * K * Y + B) + (4 * K * Y * Y + 2 * Y * B)) * r).
  { replace (2 * (X - - X) * ((K * (X - - X) + B) * r) + (K * (X - - X) * (X - - X) + (X - - X) * B) * r) with ((12 * (K * (X * X)) + 6 * (X * B)) * r) by ring.
    replace ((4 * Y * (2 * K * Y + B) + (4 * K * Y * Y + 2 * Y * B)) * r) with ((12 * (K * (Y * Y)) + 6 * (Y * B)) * r) by ring.
    apply Rmult_le_compat_r; [lra|]. assert (K * (X * X) <= K * (Y * Y)) by (apply Rmult_le_compat_l; assumption).
    assert (X * B <= Y * B) by (apply Rmult_le_compat_r; lra). lra. }
  lra.
Qed.

(** ** C102, for a waist in a given range *)
Lemma c102_range f w0 wa wb i j : 0 < w0 -> 0 < wa <= wb -> locally_lipschitz f -> exists M, 0 <= M /\ forall r nx ny wt w,
  0 < r <= w0 -> wa <= w <= wb -> (i < nx)%nat -> (j < ny)%nat ->
  hermite_gauss_decomposition (analytic f w0 0 0) nx ny r = Ok (wt, Some w) ->
  exists v, wt i j = Some v /\ Rabs (v - square_overlap f (hg_trans_at w i j 0) (5 * w0)) <= M * r.
Proof.
  intros Hw0 [Hwa Hab] Hf. set (Y := 6 * w0). assert (HY : 0 < Y) by (unfold Y; lra).
  destruct (LL_overlap wa wb Hwa f i j Hf Y HY) as (K & B & HK & HB & HLU).
  exists (4 * Y * (2 * K * Y + B) + (4 * K * Y * Y + 2 * Y * B) + 4 * Y * B). split.
  { repeat first [apply Rplus_le_le_0_compat | apply Rmult_le_pos]; lra. }
  intros r nx ny wt w [Hr Hrw] Hw Hi Hj HD.
  destruct (c55_window f w0 nx ny r Hr ltac:(lra)) as (N & wt' & waist & HD' & Ne & Nb & _ & HW).
  rewrite HD in HD'. injection HD' as <- <-. exists (mode_weight f 0 0 r N N w i j). split; [apply HW; try assumption; [reflexivity | lra]|].
  assert (N2 : (2 <= N)%nat) by (destruct N as [|[|N]]; [simpl in Nb; lra|discriminate|lia]).
  destruct (HLU w Hw) as [HL HU]. rewrite weight_riem2 by exact N2.
  apply (window_riem2 K B w0 r N (fun x y => Re (Cmult (f x y) (hg_trans_at w i j 0 x y)))); assumption.
Qed.
