(** Proofs for C55, C69. *)
From Coq Require Import FunctionalExtensionality.
From Verif Require Import PyBase CSum NumPy GridModel GridProofs NpMath NpMathProofs DataModel MomentProofs TransDataProofs AnalyticModel SpeckleModel SpeckleBound ModesModel ModesSpec.
Open Scope R_scope.

Lemma even_2z z : (0 <= z)%Z -> Nat.even (Z.to_nat (z * 2 + 2)) = true.
Proof. intros H. apply Nat.even_spec. exists (Z.to_nat (z + 1)). lia. Qed.
Lemma hg_count_spec lo hi r : 0 < r -> lo <= hi ->
  let n := hg_count lo hi r in (2 <= n)%Z /\ Nat.even (Z.to_nat n) = true /\ hi - lo < IZR n * r <= hi - lo + 2 * r.
Proof.
  intros Hr Hl n. unfold n, hg_count. set (z := Int_part ((hi - lo) / (2 * r))). assert (B : IZR z <= (hi - lo) / (2 * r) < IZR z + 1) by apply Int_part_bound.
  assert (Q : 0 <= (hi - lo) / (2 * r)) by (apply Rmult_le_pos; [lra|left; apply Rinv_0_lt_compat; lra]).
  assert (Z0 : (0 <= z)%Z) by (assert (A : -1 < IZR z) by lra; apply lt_IZR in A; lia).
  split; [lia|]. split; [apply even_2z, Z0|]. rewrite plus_IZR, mult_IZR. assert (E : hi - lo = (hi - lo) / (2 * r) * (2 * r)) by (field; lra). nra.
Qed.
Lemma hg_axis_ok lo hi r : 0 < r -> lo <= hi ->
  exists n x, hg_axis lo hi r = Ok x /\ length x = n /\ (2 <= n)%nat /\ Nat.even n = true /\ hi - lo < INR n * r <= hi - lo + 2 * r /\
    forall i, (i < n)%nat -> vget x i = axis_point ((lo + hi) / 2) r n i.
Proof.
  intros Hr Hl. destruct (hg_count_spec lo hi r Hr Hl) as (H2 & He & Hb). unfold hg_axis. set (n := hg_count lo hi r) in *. destruct (Z.ltb_spec n 0); [lia|].
  exists (Z.to_nat n). eexists. split; [reflexivity|]. assert (En : IZR n = INR (Z.to_nat n)) by (rewrite INR_IZR_INZ, Z2Nat.id by lia; reflexivity).
  split; [apply linspace_length|]. split; [lia|]. split; [exact He|]. split; [rewrite <- En; exact Hb|]. intros i Hi.
  rewrite linspace_nth by lia. rewrite En. unfold axis_point. assert (INR (Z.to_nat n) - 1 <> 0) by (rewrite <- En; assert (2 <= IZR n) by (apply IZR_le; lia); lra). field. assumption.
Qed.
Lemma axis_step_ok x n c r : length x = n -> (2 <= n)%nat -> (forall i, (i < n)%nat -> vget x i = axis_point c r n i) -> axis_step x = Ok r.
Proof.
  intros L H2 H. unfold axis_step. rewrite L. destruct (Nat.leb_spec 2 n); [|lia]. f_equal. rewrite !H by lia. unfold axis_point. simpl INR. ring.
Qed.
Lemma isclose_refl r : isclose_hg r r = true.
Proof.
  unfold isclose_hg. apply Rleb_true. replace (r - r) with 0 by ring. rewrite Rabs_R0. pose proof (Rabs_pos r).
  assert (0 < / 10 ^ 8) by (apply Rinv_0_lt_compat; lra). assert (0 < / 10 ^ 10) by (apply Rinv_0_lt_compat; lra). nra.
Qed.
Lemma Re_csum n f : Re (csum n f) = rsum n (fun i => Re (f i)).
Proof. induction n as [|n IH]; [reflexivity|]. cbn [csum rsum]. rewrite <- IH. reflexivity. Qed.
Lemma overlap_weight f x y n m cx cy r w i j : length x = n -> length y = m ->
  (forall a, (a < n)%nat -> vget x a = axis_point cx r n a) -> (forall b, (b < m)%nat -> vget y b = axis_point cy r m b) ->
  grid_overlap x y f (hg_trans_at w i j 0) * r * r = mode_weight f cx cy r n m w i j.
Proof.
  intros Lx Ly Hx Hy. unfold grid_overlap, mode_weight. rewrite Lx, Ly, Re_csum, Rmult_assoc. f_equal; [|ring]. apply rsum_ext. intros b Hb. rewrite Re_csum. apply rsum_ext. intros a Ha.
  rewrite Hx, Hy by assumption. reflexivity.
Qed.
(** ** argmax *)
Lemma argmax_from_spec l : forall pre best v k, length pre = k -> (best < k)%nat -> nth best pre 0 = v -> (forall q, (q < k)%nat -> nth q pre 0 <= v) ->
  let r := argmax_from l k best v in (r < k + length l)%nat /\ forall q, (q < k + length l)%nat -> nth q (pre ++ l) 0 <= nth r (pre ++ l) 0.
Proof.
  induction l as [|a l IH]; intros pre best v k Lk Hb Hv Hq.
  - cbn. rewrite app_nil_r, Nat.add_0_r. split; [exact Hb|]. intros q Hq'. rewrite Hv. apply Hq. exact Hq'.
  - cbn [argmax_from length]. replace (pre ++ a :: l) with ((pre ++ [a]) ++ l) by (rewrite <- app_assoc; reflexivity). replace (k + S (length l))%nat with (S k + length l)%nat by lia.
    assert (La : length (pre ++ [a]) = S k) by (rewrite app_length; simpl; lia).
    destruct (Rltb v a) eqn:B; [apply PyBase.Rltb_true in B|apply PyBase.Rltb_false in B]; apply IH; try exact La; try lia.
    + rewrite app_nth2 by lia. rewrite Lk, Nat.sub_diag. reflexivity.
    + intros q Hq'. destruct (Nat.eq_dec q k) as [->|]; [rewrite app_nth2, Lk, Nat.sub_diag by lia; simpl; lra|]. rewrite app_nth1 by lia. specialize (Hq q ltac:(lia)). lra.
    + rewrite app_nth1 by lia. exact Hv.
    + intros q Hq'. destruct (Nat.eq_dec q k) as [->|]; [rewrite app_nth2, Lk, Nat.sub_diag by lia; simpl; lra|]. rewrite app_nth1 by lia. apply Hq. lia.
Qed.
Lemma np_argmax_spec l : l <> [] -> (np_argmax l < length l)%nat /\ forall q, (q < length l)%nat -> nth q l 0 <= nth (np_argmax l) l 0.
Proof.
  destruct l as [|a l]; [congruence|]. intros _. unfold np_argmax. apply (argmax_from_spec l [a] 0 a 1); try reflexivity; try lia. intros q Hq. replace q with 0%nat by lia. simpl. lra.
Qed.
(** ** The decomposition, for bounds lo <= hi in both directions *)
Lemma decomposition_val p nx ny r lox loy hix hiy : 0 < r -> hg_bounds p = Ok ((lox, loy), (hix, hiy)) -> lox <= hix -> loy <= hiy ->
  exists N M wt waist, hermite_gauss_decomposition p nx ny r = Ok (wt, waist) /\
    Nat.even N = true /\ Nat.even M = true /\ hix - lox < INR N * r <= hix - lox + 2 * r /\ hiy - loy < INR M * r <= hiy - loy + 2 * r /\
    (forall i j w, (i < nx)%nat -> (j < ny)%nat -> waist = Some w -> w <> 0 -> wt i j = Some (mode_weight (tp_eval p) ((lox + hix) / 2) ((loy + hiy) / 2) r N M w i j)) /\
    (exists x y, hg_axis lox hix r = Ok x /\ hg_axis loy hiy r = Ok y /\ length x = N /\ length y = M /\ estimate_best_HG_waist x y (tp_eval p) = Ok waist).
Proof.
  intros Hr Hb H1 H2. destruct (hg_axis_ok lox hix r Hr H1) as (N & x & Ax & Lx & N2 & Ne & Nb & Xv). destruct (hg_axis_ok loy hiy r Hr H2) as (M & y & Ay & Ly & M2 & Me & Mb & Yv).
  exists N, M. unfold hermite_gauss_decomposition. destruct (Reqb r 0) eqn:B; [apply Reqb_true in B; lra|]. rewrite Hb. cbn [bind fst snd]. rewrite Ax. cbn [bind]. rewrite Ay. cbn [bind].
  pose proof (axis_step_ok x N _ r Lx N2 Xv) as Sx. pose proof (axis_step_ok y M _ r Ly M2 Yv) as Sy.
  assert (We : exists wst, estimate_best_HG_waist x y (tp_eval p) = Ok wst).
  { unfold estimate_best_HG_waist. rewrite Sx, Sy. cbn [bind]. rewrite isclose_refl. cbn [pyassert bind]. destruct (waist_estimate _ _ _ _) as [w|]; [destruct (Reqb w 0)|]; eauto. }
  rewrite Sx, Sy. cbn [bind]. destruct We as (wst & We). rewrite We. cbn [bind]. do 2 eexists. split; [reflexivity|].
  do 4 (split; [assumption|]). split.
  - intros i j w Hi Hj Hw Hw0. destruct (Nat.ltb_spec i nx); [|lia]. destruct (Nat.ltb_spec j ny); [|lia]. cbn [andb]. f_equal. rewrite Hw. destruct (Reqb w 0) eqn:B0; [apply Reqb_true in B0; contradiction|].
    apply overlap_weight; assumption.
  - exists x, y. auto.
Qed.
Lemma axis_covers c r n u h : 0 < r -> (2 <= n)%nat -> 2 * h < INR n * r -> Rabs (u - c) <= h -> exists i, (i < n)%nat /\ Rabs (u - axis_point c r n i) <= r / 2.
Proof.
  intros Hr Hn Hh Hu. set (v := (u - c) / r + INR n / 2). assert (E : u - c = (v - INR n / 2) * r) by (unfold v; field; lra).
  assert (Hv : 0 < v < INR n). { destruct (Rabs_def2 (u - c) (INR n / 2 * r) ltac:(lra)) as (D1 & D2). split; nra. }
  pose proof (Int_part_bound v) as B. set (z := Int_part v) in *. assert (Z0 : (0 <= z < Z.of_nat n)%Z).
  { split; [assert (A : -1 < IZR z) by lra; apply lt_IZR in A; lia|]. assert (A : IZR z < IZR (Z.of_nat n)) by (rewrite <- INR_IZR_INZ; lra). apply lt_IZR in A. exact A. }
  exists (Z.to_nat z). split; [lia|]. unfold axis_point. rewrite (INR_IZR_INZ (Z.to_nat z)), Z2Nat.id by lia.
  replace (u - (c + (IZR z - (INR n - 1) / 2) * r)) with ((v - IZR z - 1 / 2) * r) by (replace u with (c + (v - INR n / 2) * r) by lra; field). rewrite Rabs_mult, (Rabs_pos_eq r) by lra.
  assert (Rabs (v - IZR z - 1 / 2) <= 1 / 2) by (apply Rabs_le; lra). nra.
Qed.
(** C55, zero offsets *)
Lemma c55_window f w0 nx ny r : 0 < r -> 0 <= w0 ->
  exists N wt waist, hermite_gauss_decomposition (analytic f w0 0 0) nx ny r = Ok (wt, waist) /\
    Nat.even N = true /\ 10 * w0 < INR N * r <= 10 * w0 + 2 * r /\
    (forall u, Rabs u <= 5 * w0 -> exists i, (i < N)%nat /\ Rabs (u - axis_point 0 r N i) <= r / 2) /\
    forall i j w, (i < nx)%nat -> (j < ny)%nat -> waist = Some w -> w <> 0 -> wt i j = Some (mode_weight f 0 0 r N N w i j).
Proof.
  intros Hr Hw. assert (Hb : hg_bounds (analytic f w0 0 0) = Ok ((- w0 * 5 + 0, - w0 * 5 + 0), (w0 * 5 + 0, w0 * 5 + 0))) by reflexivity.
  destruct (decomposition_val (analytic f w0 0 0) nx ny r _ _ _ _ Hr Hb ltac:(lra) ltac:(lra)) as (N & M & wt & waist & HD & Ne & Me & Nb & Mb & HW & x & y & Ax & Ay & Lx & Ly & _).
  rewrite Ax in Ay. injection Ay as <-. assert (EM : M = N) by congruence. clear Ly. subst M. exists N, wt, waist. split; [exact HD|]. split; [exact Ne|]. split; [lra|].
  assert (N2 : (2 <= N)%nat) by (destruct N as [|[|N]]; [simpl in Nb; lra|discriminate|lia]). split.
  - intros u Hu. apply (axis_covers 0 r N u (5 * w0)); try assumption; [lra|]. replace (u - 0) with u by ring. exact Hu.
  - intros i j w Hi Hj Hww Hw0. rewrite (HW i j w Hi Hj Hww Hw0). f_equal. replace ((- w0 * 5 + 0 + (w0 * 5 + 0)) / 2) with 0 by field.
    unfold mode_weight. f_equal. apply rsum_ext. intros b _. apply rsum_ext. intros a _. cbn [tp_eval analytic]. rewrite !Rplus_0_r. reflexivity.
Qed.
(** C55: linearity for a given waist *)
Lemma mode_weight_linear f g h a b cx cy r n m w i j : (forall x y, h x y = Cplus (Cmult (RtoC a) (f x y)) (Cmult (RtoC b) (g x y))) ->
  mode_weight h cx cy r n m w i j = a * mode_weight f cx cy r n m w i j + b * mode_weight g cx cy r n m w i j.
Proof.
  intros H. unfold mode_weight. rewrite <- !Rmult_assoc, <- Rmult_plus_distr_r. f_equal. rewrite <- !rsum_scal_l, <- rsum_plus. apply rsum_ext. intros v _.
  rewrite <- !rsum_scal_l, <- rsum_plus. apply rsum_ext. intros u _. rewrite H. unfold Re. simpl. ring.
Qed.
Lemma c55_linear f g h a b w0 xo yo nx ny r wf wg wh w i j : 0 < r -> 0 <= w0 -> w <> 0 -> (i < nx)%nat -> (j < ny)%nat ->
  (forall x y, h x y = Cplus (Cmult (RtoC a) (f x y)) (Cmult (RtoC b) (g x y))) ->
  hermite_gauss_decomposition (analytic f w0 xo yo) nx ny r = Ok (wf, Some w) -> hermite_gauss_decomposition (analytic g w0 xo yo) nx ny r = Ok (wg, Some w) ->
  hermite_gauss_decomposition (analytic h w0 xo yo) nx ny r = Ok (wh, Some w) ->
  exists u v, wf i j = Some u /\ wg i j = Some v /\ wh i j = Some (a * u + b * v).
Proof.
  intros Hr Hw Hw0 Hi Hj Hh Df Dg Dh.
  assert (Hb : forall q, hg_bounds (analytic q w0 xo yo) = Ok ((- w0 * 5 + xo, - w0 * 5 + xo), (w0 * 5 + xo, w0 * 5 + xo))) by reflexivity.
  destruct (decomposition_val _ nx ny r _ _ _ _ Hr (Hb f) ltac:(lra) ltac:(lra)) as (N & M & wt & ws & HD & _ & _ & _ & _ & HW & x & y & Ax & Ay & Lx & Ly & _). rewrite Df in HD. injection HD as <- <-.
  destruct (decomposition_val _ nx ny r _ _ _ _ Hr (Hb g) ltac:(lra) ltac:(lra)) as (N1 & M1 & wt1 & ws1 & HD1 & _ & _ & _ & _ & HW1 & x1 & y1 & Ax1 & Ay1 & Lx1 & Ly1 & _). rewrite Dg in HD1. injection HD1 as <- <-.
  destruct (decomposition_val _ nx ny r _ _ _ _ Hr (Hb h) ltac:(lra) ltac:(lra)) as (N2 & M2 & wt2 & ws2 & HD2 & _ & _ & _ & _ & HW2 & x2 & y2 & Ax2 & Ay2 & Lx2 & Ly2 & _). rewrite Dh in HD2. injection HD2 as <- <-.
  assert (N1 = N /\ M1 = M /\ N2 = N /\ M2 = M) as (-> & -> & -> & ->) by (repeat split; congruence).
  do 2 eexists. split; [apply (HW i j w); auto|]. split; [apply (HW1 i j w); auto|]. rewrite (HW2 i j w) by auto. f_equal. apply mode_weight_linear. intros u v. cbn [tp_eval analytic]. apply Hh.
Qed.
(** C55: the waist maximises the overlap over the 30 candidates *)
Lemma c55_waist x y f w : estimate_best_HG_waist x y f = Ok (Some w) -> w <> 0 ->
  exists dx west, axis_step x = Ok dx /\ waist_estimate x y f dx = Some west /\
    (exists q, (q < 30)%nat /\ w = west / 2 + INR q * (west / 29)) /\
    forall q, (q < 30)%nat -> grid_overlap x y (hg_trans_at (west / 2 + INR q * (west / 29)) 0 0 0) f <= grid_overlap x y (hg_trans_at w 0 0 0) f.
Proof.
  unfold estimate_best_HG_waist. intros H Hw. destruct (axis_step x) as [dx|]; [|discriminate]. destruct (axis_step y) as [dy|]; [|discriminate]. cbn [bind] in H.
  destruct (pyassert (isclose_hg dx dy)); [|discriminate]. cbn [bind] in H. destruct (waist_estimate x y f dx) as [west|] eqn:We; [|discriminate].
  destruct (Reqb west 0) eqn:B; [injection H as <-; contradiction|].
  exists dx, west. split; [reflexivity|]. split; [exact We|]. set (tests := linspace (west / 2) (west * (3 / 2)) 30) in *.
  assert (Lt : length tests = 30%nat) by apply linspace_length.
  assert (Tv : forall q, (q < 30)%nat -> vget tests q = west / 2 + INR q * (west / 29)) by (intros q Hq; unfold tests; rewrite linspace_nth by lia; simpl INR; f_equal; field).
  set (g := fun wt => grid_overlap x y (hg_trans_at wt 0 0 0) f) in *. set (k := np_argmax (map g tests)) in *.
  assert (H' : vget tests k = w) by congruence. clear H.
  destruct (np_argmax_spec (map g tests)) as (K1 & K2); [intros E; apply (f_equal (@length R)) in E; rewrite map_length, Lt in E; discriminate|]. rewrite map_length, Lt in K1, K2. fold k in K1, K2.
  assert (Mv : forall q, (q < 30)%nat -> nth q (map g tests) 0 = g (vget tests q)).
  { intros q Hq. rewrite (nth_indep _ 0 (g 0)) by (rewrite map_length, Lt; exact Hq). unfold vget. apply map_nth. }
  split; [exists k; split; [exact K1|]; rewrite <- H'; apply Tv, K1|]. intros q Hq. specialize (K2 q Hq). rewrite !Mv in K2 by assumption. rewrite H' in K2. rewrite <- Tv by exact Hq. exact K2.
Qed.
(** The estimate, written out. *)
Lemma waist_estimate_spec x y f dx west : waist_estimate x y f dx = Some west -> west = estimated_waist x y f dx.
Proof.
  unfold waist_estimate. destruct (Reqb _ 0); [discriminate|]. destruct (find_d4sigma (intensity_image x y f)) as [sx sy] eqn:E. intros H. injection H as <-.
  rewrite d4_eq, com_eq in E. cbn [im_rows im_cols im_at intensity_image] in E.
  assert (T : im_sum (intensity_image x y f) = weighted (length x) (length y) (fun i j => Cmod (f (vget x i) (vget y j)) ^ 2) (fun _ _ => 1)).
  { unfold im_sum, intensity_image, weighted. cbn [im_rows im_cols im_at]. apply rsum_ext. intros j _. apply rsum_ext. intros i _. ring. }
  rewrite T in E. assert (E1 : sx = d4_width (length x) (length y) (fun i j => Cmod (f (vget x i) (vget y j)) ^ 2) (fun i _ => INR i)) by (injection E as <- _; reflexivity).
  assert (E2 : sy = d4_width (length x) (length y) (fun i j => Cmod (f (vget x i) (vget y j)) ^ 2) (fun _ j => INR j)) by (injection E as _ <-; reflexivity).
  unfold estimated_waist. rewrite <- E1, <- E2. field.
Qed.
Lemma c55_waist_spec x y f w : estimate_best_HG_waist x y f = Ok (Some w) -> w <> 0 ->
  let west := estimated_waist x y f (vget x 1 - vget x 0) in
    (exists q, (q < 30)%nat /\ w = west / 2 + INR q * (west / 29)) /\
    forall q, (q < 30)%nat -> grid_overlap x y (hg_trans_at (west / 2 + INR q * (west / 29)) 0 0 0) f <= grid_overlap x y (hg_trans_at w 0 0 0) f.
Proof.
  intros H Hw. destruct (c55_waist x y f w H Hw) as (dx & west & A & B & D). unfold axis_step in A. destruct (2 <=? length x)%nat; [|discriminate]. injection A as <-.
  apply waist_estimate_spec in B. cbn zeta. rewrite <- B. exact D.
Qed.
(** ** What the result depends on *)
Lemma axis_in c r n i h : 0 < r -> (i < n)%nat -> INR n * r <= 2 * h + 2 * r -> Rabs (axis_point c r n i - c) <= h + r / 2.
Proof.
  intros Hr Hi Hh. unfold axis_point. replace (c + (INR i - (INR n - 1) / 2) * r - c) with ((INR i - (INR n - 1) / 2) * r) by ring.
  pose proof (pos_INR i). assert (INR i <= INR n - 1) by (assert (A : INR (S i) <= INR n) by (apply le_INR; lia); rewrite S_INR in A; lra). apply Rabs_le. split; nra.
Qed.
Lemma overlap_ext x y f f' g g' : (forall a b, (a < length x)%nat -> (b < length y)%nat -> f (vget x a) (vget y b) = f' (vget x a) (vget y b) /\ g (vget x a) (vget y b) = g' (vget x a) (vget y b)) ->
  grid_overlap x y f g = grid_overlap x y f' g'.
Proof. intros H. unfold grid_overlap. f_equal. apply csum_ext. intros b Hb. apply csum_ext. intros a Ha. destruct (H a b Ha Hb) as (-> & ->). reflexivity. Qed.
Lemma image_ext r c f g : (forall i j, (i < r)%nat -> (j < c)%nat -> f i j = g i j) ->
  im_sum (mkImg r c f) = im_sum (mkImg r c g) /\ find_d4sigma (mkImg r c f) = find_d4sigma (mkImg r c g).
Proof.
  intros H. assert (S : im_sum (mkImg r c f) = im_sum (mkImg r c g)) by (unfold im_sum; cbn; apply rsum_ext; intros; apply rsum_ext; intros; apply H; assumption).
  assert (D : forall v, im_dot (mkImg r c f) v = im_dot (mkImg r c g) v) by (intros v; unfold im_dot; cbn; apply rsum_ext; intros; apply rsum_ext; intros; rewrite H by assumption; reflexivity).
  assert (T : forall v, im_dot (im_T (mkImg r c f)) v = im_dot (im_T (mkImg r c g)) v) by (intros v; unfold im_dot, im_T; cbn; apply rsum_ext; intros; apply rsum_ext; intros; rewrite H by assumption; reflexivity).
  split; [exact S|]. unfold find_d4sigma, find_center_of_mass. cbn [im_rows im_cols]. rewrite S, !D, !T. reflexivity.
Qed.
Lemma waist_ext x y f g : (forall a b, (a < length x)%nat -> (b < length y)%nat -> f (vget x a) (vget y b) = g (vget x a) (vget y b)) ->
  estimate_best_HG_waist x y f = estimate_best_HG_waist x y g.
Proof.
  intros H. unfold estimate_best_HG_waist. destruct (axis_step x) as [dx|]; [|cbn [bind]; reflexivity]. cbn [bind]. destruct (axis_step y) as [dy|]; [|cbn [bind]; reflexivity]. cbn [bind]. destruct (pyassert _); [|cbn [bind]; reflexivity]. cbn [bind].
  assert (W : waist_estimate x y f dx = waist_estimate x y g dx).
  { unfold waist_estimate, intensity_image. destruct (image_ext (length y) (length x) (fun j i => Cmod (f (vget x i) (vget y j)) ^ 2) (fun j i => Cmod (g (vget x i) (vget y j)) ^ 2)) as (-> & ->); [intros j i Hj Hi; rewrite H by assumption; reflexivity|]. reflexivity. }
  rewrite W. destruct (waist_estimate x y g dx) as [w|]; [|reflexivity]. destruct (Reqb w 0); [reflexivity|]. cbn zeta.
  rewrite (map_ext _ (fun wt => grid_overlap x y (hg_trans_at wt 0 0 0) g)); [reflexivity|]. intros wt. apply overlap_ext. intros a1 b1 Ha Hb. auto.
Qed.
Lemma decomposition_region p q nx ny r lox loy hix hiy : 0 < r -> tp_extent p = tp_extent q -> tp_xoff p = tp_xoff q -> tp_yoff p = tp_yoff q ->
  hg_bounds p = Ok ((lox, loy), (hix, hiy)) -> lox <= hix -> loy <= hiy ->
  (forall x y, Rabs (x - (lox + hix) / 2) <= (hix - lox) / 2 + r / 2 -> Rabs (y - (loy + hiy) / 2) <= (hiy - loy) / 2 + r / 2 -> tp_eval p x y = tp_eval q x y) ->
  hermite_gauss_decomposition p nx ny r = hermite_gauss_decomposition q nx ny r.
Proof.
  intros Hr E1 E2 E3 Hb H1 H2 Hf. destruct (hg_axis_ok lox hix r Hr H1) as (N & x & Ax & Lx & N2 & Ne & Nb & Xv). destruct (hg_axis_ok loy hiy r Hr H2) as (M & y & Ay & Ly & M2 & Me & Mb & Yv).
  assert (Hb' : hg_bounds q = Ok ((lox, loy), (hix, hiy))) by (unfold hg_bounds in *; rewrite <- E1, <- E2, <- E3; exact Hb).
  assert (Ep : forall a b, (a < length x)%nat -> (b < length y)%nat -> tp_eval p (vget x a) (vget y b) = tp_eval q (vget x a) (vget y b)).
  { intros a b Ha Hbb. rewrite Lx in Ha. rewrite Ly in Hbb. rewrite Xv, Yv by assumption. apply Hf; apply axis_in; try assumption; lra. }
  unfold hermite_gauss_decomposition. destruct (Reqb r 0); [reflexivity|]. rewrite Hb, Hb'. cbn [bind fst snd]. rewrite Ax. cbn [bind]. rewrite Ay. cbn [bind].
  destruct (axis_step x) as [dx|]; [|cbn [bind]; reflexivity]. cbn [bind]. destruct (axis_step y) as [dy|]; [|cbn [bind]; reflexivity]. cbn [bind]. rewrite (waist_ext x y _ _ Ep). destruct (estimate_best_HG_waist _ _ _) as [ws|]; [|cbn [bind]; reflexivity]. cbn [bind]. do 2 f_equal.
  apply functional_extensionality. intros i. apply functional_extensionality. intros j. destruct (andb _ _); [|reflexivity]. f_equal. destruct ws as [w|]; [|reflexivity]. destruct (Reqb w 0); [reflexivity|].
  rewrite (overlap_ext x y (tp_eval p) (tp_eval q) (hg_trans_at w i j 0) (hg_trans_at w i j 0)); [reflexivity|]. intros a b Ha Hbb. auto.
Qed.
(** An analytic profile with offsets is only looked at around (2 x_offset, x_offset + y_offset) in its own coordinates. *)
Lemma c55_region f g w0 xo yo nx ny r : 0 < r -> 0 <= w0 ->
  (forall u v, Rabs (u - 2 * xo) <= 5 * w0 + r / 2 -> Rabs (v - (xo + yo)) <= 5 * w0 + r / 2 -> f u v = g u v) ->
  hermite_gauss_decomposition (analytic f w0 xo yo) nx ny r = hermite_gauss_decomposition (analytic g w0 xo yo) nx ny r.
Proof.
  intros Hr Hw H. assert (Hb : hg_bounds (analytic f w0 xo yo) = Ok ((- w0 * 5 + xo, - w0 * 5 + xo), (w0 * 5 + xo, w0 * 5 + xo))) by reflexivity.
  apply (decomposition_region (analytic f w0 xo yo) (analytic g w0 xo yo) nx ny r _ _ _ _ Hr eq_refl eq_refl eq_refl Hb); [lra|lra|]. intros x y Hx Hy. cbn [tp_eval analytic].
  replace ((- w0 * 5 + xo + (w0 * 5 + xo)) / 2) with xo in Hx, Hy by field. replace ((w0 * 5 + xo - (- w0 * 5 + xo)) / 2) with (5 * w0) in Hx, Hy by field.
  apply H; [replace (x + xo - 2 * xo) with (x - xo) by ring|replace (y + yo - (xo + yo)) with (y - xo) by ring]; assumption.
Qed.
Lemma hat_out w0 u v : 5 * w0 < Rabs u \/ 5 * w0 < Rabs v -> hat w0 u v = RtoC 0.
Proof.
  intros H. unfold hat. destruct (Rleb (Rabs u) (5 * w0)) eqn:A; [|reflexivity]. destruct (Rleb (Rabs v) (5 * w0)) eqn:B; [|reflexivity]. apply Rleb_true in A, B. lra.
Qed.
Lemma c55_refuted_x nx ny : hermite_gauss_decomposition (analytic (hat 1) 1 10 0) nx ny (1 / 10) = hermite_gauss_decomposition (analytic (fun _ _ => RtoC 0) 1 10 0) nx ny (1 / 10).
Proof.
  apply c55_region; try lra. intros u v Hu _. apply hat_out. left. destruct (Rabs_def2 (u - 2 * 10) 6) as (_ & B); [lra|]. rewrite Rabs_right; lra.
Qed.
Lemma c55_refuted_y nx ny : hermite_gauss_decomposition (analytic (hat 1) 1 0 20) nx ny (1 / 10) = hermite_gauss_decomposition (analytic (fun _ _ => RtoC 0) 1 0 20) nx ny (1 / 10).
Proof.
  apply c55_region; try lra. intros u v _ Hv. apply hat_out. right. destruct (Rabs_def2 (v - (0 + 20)) 6) as (_ & B); [lra|]. rewrite Rabs_right; lra.
Qed.
Lemma c55_data_raises f nx ny : hermite_gauss_decomposition (mkTp (FromData [-1; 1] [-1; 1]) 10 0 f) nx ny 1 = Err ValueError.
Proof.
  unfold hermite_gauss_decomposition. destruct (Reqb 1 0) eqn:B; [apply Reqb_true in B; lra|]. unfold hg_bounds, list_min, list_max. cbn [tp_extent tp_xoff tp_yoff fold_left hd bind fst snd].
  assert (C : hg_count (Rmin (Rmin (-1) (-1)) 1 + 10) (Rmax (Rmax (-1) (-1)) 1 + 0) 1 = (-6)%Z).
  { unfold hg_count. rewrite (Rmin_left (-1) (-1)), (Rmin_left (-1) 1), (Rmax_left (-1) (-1)), (Rmax_right (-1) 1) by lra. rewrite (Int_part_unique _ (-4)) by (simpl; lra). reflexivity. }
  unfold hg_axis. rewrite C. reflexivity.
Qed.
Lemma list_range a b : a <= b -> list_min [a; b] = a /\ list_max [a; b] = b.
Proof. intros H. unfold list_min, list_max. cbn [fold_left hd]. rewrite (Rmin_left a a), (Rmin_left a b), (Rmax_left a a), (Rmax_right a b) by lra. auto. Qed.
Lemma c55_data_transposed f g nx ny : (forall x y, Rabs x <= 3 / 2 -> f x y = g x y) ->
  hermite_gauss_decomposition (mkTp (FromData [-1; 1] [-10; 10]) 0 0 f) nx ny 1 = hermite_gauss_decomposition (mkTp (FromData [-1; 1] [-10; 10]) 0 0 g) nx ny 1.
Proof.
  intros H. destruct (list_range (-1) 1 ltac:(lra)) as (A1 & A2). destruct (list_range (-10) 10 ltac:(lra)) as (B1 & B2).
  eapply (decomposition_region _ _ nx ny 1 (-1 + 0) (-10 + 0) (1 + 0) (10 + 0)); try reflexivity; try lra.
  - unfold hg_bounds. cbn [tp_extent tp_xoff tp_yoff]. rewrite A1, A2, B1, B2. reflexivity.
  - intros x y Hx _. cbn [tp_eval]. apply H. replace (x - (-1 + 0 + (1 + 0)) / 2) with x in Hx by field. lra.
Qed.
Lemma c55_composite p nx ny r : tp_extent p = NoExtent -> r <> 0 -> hermite_gauss_decomposition p nx ny r = Err AttributeError.
Proof. intros H Hr. unfold hermite_gauss_decomposition. destruct (Reqb r 0) eqn:B; [apply Reqb_true in B; contradiction|]. unfold hg_bounds. rewrite H. reflexivity. Qed.
(** ** C69: parity *)
Lemma hermite_parity n x : hermite n (- x) = (-1) ^ n * hermite n x.
Proof.
  unfold hermite. assert (H : fst (hermite2 n (- x)) = (-1) ^ n * fst (hermite2 n x) /\ snd (hermite2 n (- x)) = (-1) ^ (S n) * snd (hermite2 n x)).
  { induction n as [|n (I1 & I2)]; [cbn; split; ring|]. cbn [hermite2]. destruct (hermite2 n (- x)) as [a b]. destruct (hermite2 n x) as [a' b']. cbn [fst snd] in *. split; [exact I2|]. rewrite I1, I2. cbn [pow]. ring. }
  apply H.
Qed.
Lemma axis_mirror r n i : (i < n)%nat -> axis_point 0 r n (n - 1 - i) = - axis_point 0 r n i.
Proof. intros H. unfold axis_point. rewrite !minus_INR by lia. simpl (INR 1). field. Qed.
Lemma rsum_rev n f : rsum n f = rsum n (fun i => f (n - 1 - i)%nat).
Proof. apply (TransDataProofs.rsum_perm n (fun i => n - 1 - i)%nat (fun i => n - 1 - i)%nat). intros i Hi. repeat split; lia. Qed.
Lemma hg_parity_x w i j x y : hg_trans_at w i j 0 (- x) y = Cmult (RtoC ((-1) ^ i)) (hg_trans_at w i j 0 x y).
Proof.
  unfold hg_trans_at. cbn zeta. replace (sqrt 2 * - x / (w * Cmod (1, - 0))) with (- (sqrt 2 * x / (w * Cmod (1, - 0)))) by (unfold Rdiv; ring). rewrite hermite_parity. replace ((- x) ^ 2) with (x ^ 2) by ring.
  rewrite <- !Cmult_assoc. rewrite (Cmult_assoc (RtoC ((-1) ^ i))). f_equal. rewrite <- RtoC_mult. f_equal. ring.
Qed.
Lemma hg_parity_y w i j x y : hg_trans_at w i j 0 x (- y) = Cmult (RtoC ((-1) ^ j)) (hg_trans_at w i j 0 x y).
Proof.
  unfold hg_trans_at. cbn zeta. replace (sqrt 2 * - y / (w * Cmod (1, - 0))) with (- (sqrt 2 * y / (w * Cmod (1, - 0)))) by (unfold Rdiv; ring). rewrite hermite_parity. replace ((- y) ^ 2) with (y ^ 2) by ring.
  rewrite <- !Cmult_assoc. rewrite (Cmult_assoc (RtoC ((-1) ^ j))). f_equal. rewrite <- RtoC_mult. f_equal. ring.
Qed.
Lemma Re_scale a z : Re (Cmult (RtoC a) z) = a * Re z.
Proof. unfold Re. simpl. ring. Qed.
Lemma mode_weight_parity_x f s r n m w i j : (forall x y, f (- x) y = Cmult (RtoC s) (f x y)) -> s * (-1) ^ i = -1 -> mode_weight f 0 0 r n m w i j = 0.
Proof.
  intros Hf Hs. unfold mode_weight. rewrite (rsum_ext m _ (fun _ => 0)); [rewrite rsum_0; ring|]. intros b _.
  set (S := rsum n _). assert (E : S = - S); [|lra]. unfold S at 1. rewrite rsum_rev. unfold S. rewrite <- (Rmult_1_l (- _)), <- Ropp_mult_distr_r, Ropp_mult_distr_l, <- rsum_scal_l. apply rsum_ext. intros a Ha.
  rewrite axis_mirror by exact Ha. rewrite Hf, hg_parity_x. match goal with |- _ = _ * ?z => transitivity (s * (-1) ^ i * z); [|rewrite Hs; reflexivity] end. rewrite <- Re_scale. f_equal. rewrite RtoC_mult. ring.
Qed.
Lemma mode_weight_parity_y f s r n m w i j : (forall x y, f x (- y) = Cmult (RtoC s) (f x y)) -> s * (-1) ^ j = -1 -> mode_weight f 0 0 r n m w i j = 0.
Proof.
  intros Hf Hs. unfold mode_weight. set (S := rsum m _). assert (E : S = - S); [|replace S with 0 by lra; ring]. unfold S at 1. rewrite rsum_rev. unfold S. rewrite <- (Rmult_1_l (- _)), <- Ropp_mult_distr_r, Ropp_mult_distr_l, <- rsum_scal_l.
  apply rsum_ext. intros b Hb. rewrite <- rsum_scal_l. apply rsum_ext. intros a Ha. rewrite axis_mirror by exact Hb. rewrite Hf, hg_parity_y. match goal with |- _ = _ * ?z => transitivity (s * (-1) ^ j * z); [|rewrite Hs; reflexivity] end. rewrite <- Re_scale. f_equal. rewrite RtoC_mult. ring.
Qed.
Lemma c69_parity f w0 nx ny r s i j : 0 < r -> 0 <= w0 -> (i < nx)%nat -> (j < ny)%nat ->
  ((forall x y, f (- x) y = Cmult (RtoC s) (f x y)) /\ s * (-1) ^ i = -1 \/ (forall x y, f x (- y) = Cmult (RtoC s) (f x y)) /\ s * (-1) ^ j = -1) ->
  exists wt waist, hermite_gauss_decomposition (analytic f w0 0 0) nx ny r = Ok (wt, waist) /\ wt i j = Some 0.
Proof.
  intros Hr Hw Hi Hj H. destruct (c55_window f w0 nx ny r Hr Hw) as (N & wt & waist & HD & _ & _ & _ & HW). exists wt, waist. split; [exact HD|].
  destruct waist as [w|].
  - destruct (Req_dec w 0) as [->|Hw0].
    + unfold hermite_gauss_decomposition in HD. destruct (Reqb r 0); [discriminate|]. cbn [hg_bounds tp_extent analytic bind fst snd] in HD. destruct (hg_axis _ _ _); [|discriminate]. cbn [bind] in HD.
      destruct (axis_step _); [|discriminate]. cbn [bind] in HD. destruct (estimate_best_HG_waist _ _ _) as [ws|]; [|discriminate]. cbn [bind] in HD. injection HD as <- ->.
      destruct (Nat.ltb_spec i nx); [|lia]. destruct (Nat.ltb_spec j ny); [|lia]. cbn [andb]. rewrite (proj2 (Reqb_true 0 0) eq_refl). reflexivity.
    + rewrite (HW i j w Hi Hj eq_refl Hw0). f_equal. destruct H as [(Hf & Hs)|(Hf & Hs)]; [eapply mode_weight_parity_x; eauto|eapply mode_weight_parity_y; eauto].
  - unfold hermite_gauss_decomposition in HD. destruct (Reqb r 0); [discriminate|]. cbn [hg_bounds tp_extent analytic bind fst snd] in HD. destruct (hg_axis _ _ _); [|discriminate]. cbn [bind] in HD.
    destruct (axis_step _); [|discriminate]. cbn [bind] in HD. destruct (estimate_best_HG_waist _ _ _) as [ws|]; [|discriminate]. cbn [bind] in HD. injection HD as <- ->.
    destruct (Nat.ltb_spec i nx); [|lia]. destruct (Nat.ltb_spec j ny); [|lia]. reflexivity.
Qed.
