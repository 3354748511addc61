From Coq Require Import Sorted Lra Lia Psatz.
From Flocq Require Import Core Relative Plus_error.
From Verif Require Import PyBase NumPy LaserSpec FloatModel FloatSpec.
Open Scope R_scope.

Local Instance prec53 : Prec_gt_0 53. Proof. unfold Prec_gt_0; lia. Qed.
Local Instance valid64 : Valid_exp exp64. Proof. unfold exp64; typeclasses eauto. Qed.

Lemma b64_fmt x : is_b64 (b64 x).
Proof. unfold is_b64, b64. apply generic_format_round; typeclasses eauto. Qed.
Lemma b64_id x : is_b64 x -> b64 x = x.
Proof. intros H. unfold b64. apply round_generic; [typeclasses eauto | exact H]. Qed.
Lemma b64_le x y : x <= y -> b64 x <= b64 y.
Proof. intros H. unfold b64. apply round_le; [typeclasses eauto | typeclasses eauto | exact H]. Qed.
Lemma b64_0 : b64 0 = 0.
Proof. unfold b64. apply round_0; typeclasses eauto. Qed.
Lemma fmt_0 : is_b64 0. Proof. apply generic_format_0. Qed.

Lemma u64_bpow : / 2 * bpow radix2 (-53 + 1) = u64.
Proof.
  unfold u64. replace (-53 + 1)%Z with (Z.opp 52) by lia.
  rewrite (bpow_opp radix2 52). replace (bpow radix2 52) with (2 ^ 52).
  2: { change 52%Z with (Z.of_nat 52). rewrite bpow_powerRZ, <- pow_powerRZ. reflexivity. }
  rewrite <- (tech_pow_Rmult 2 52).
  rewrite Rinv_mult; reflexivity.
Qed.
Lemma u64_pos : 0 < u64. Proof. unfold u64. apply Rinv_0_lt_compat, pow_lt; lra. Qed.

Lemma b64_rel x : / 2 ^ 1022 <= Rabs x -> Rabs (b64 x - x) <= u64 * Rabs x.
Proof.
  intros H. rewrite <- u64_bpow. unfold b64, exp64.
  apply (relative_error_N_FLT radix2 (-1074) 53 ltac:(lia) (fun z => negb (Z.even z))).
  replace (-1074 + 53 - 1)%Z with (Z.opp 1022) by lia.
  rewrite (bpow_opp radix2 1022). change 1022%Z with (Z.of_nat 1022).
  rewrite bpow_powerRZ, <- pow_powerRZ. exact H.
Qed.
Lemma b64_plus x y : is_b64 x -> is_b64 y -> Rabs (b64 (x + y) - (x + y)) <= u64 * Rabs (x + y).
Proof.
  intros Hx Hy.
  destruct (FLT_plus_error_N_ex radix2 (-1074) 53 (fun z => negb (Z.even z)) x y Hx Hy) as (e & He & H).
  change (b64 (x + y)) with (round radix2 (FLT_exp (-1074) 53) (Znearest (fun z => negb (Z.even z))) (x + y)).
  rewrite H. replace ((x + y) * (1 + e) - (x + y)) with (e * (x + y)) by ring.
  rewrite Rabs_mult. apply Rmult_le_compat_r; [apply Rabs_pos|].
  apply Rle_trans with (1 := He). unfold u_ro. change (- (53) + 1)%Z with (-53 + 1)%Z. rewrite u64_bpow.
  pose proof u64_pos. apply Rmult_le_reg_r with (1 + u64); [lra|].
  unfold Rdiv. rewrite Rmult_assoc, Rinv_l; nra.
Qed.

(** ** One history, one sample. *)
Definition vrun (v : R) (ds : list R) : R := fold_left (fun v d => b64 (v + b64 (d / c_light))) ds v.
Lemma run_lo w ds : win_lo (window_run w ds) = vrun (win_lo w) ds.
Proof. revert w; induction ds as [|d ds IH]; intros w; [reflexivity|]. change (window_run w (d :: ds)) with (window_run (window_shift w d) ds). rewrite IH. reflexivity. Qed.
Lemma run_hi w ds : win_hi (window_run w ds) = vrun (win_hi w) ds.
Proof. revert w; induction ds as [|d ds IH]; intros w; [reflexivity|]. change (window_run w (d :: ds)) with (window_run (window_shift w d) ds). rewrite IH. reflexivity. Qed.
Lemma run_axis w ds : win_axis (window_run w ds) = map (fun v => vrun v ds) (win_axis w).
Proof.
  revert w; induction ds as [|d ds IH]; intros w; [cbn; symmetry; apply map_id|].
  change (window_run w (d :: ds)) with (window_run (window_shift w d) ds). rewrite IH. cbn [window_shift win_axis].
  rewrite map_map. reflexivity.
Qed.
Lemma vrun_le ds : forall v v', v <= v' -> vrun v ds <= vrun v' ds.
Proof.
  induction ds as [|d ds IH]; intros v v' H; [exact H|].
  change (vrun ?a (d :: ds)) with (vrun (b64 (a + b64 (d / c_light))) ds). apply IH, b64_le. lra.
Qed.
Lemma sorted_map (f : R -> R) l : (forall a b, a <= b -> f a <= f b) -> Sorted Rle l -> Sorted Rle (map f l).
Proof.
  intros Hf H; induction H as [|a l Hl IH Ha]; cbn; constructor; auto.
  destruct Ha; cbn; constructor; auto.
Qed.

(** ** The axis at construction. *)
Lemma linspace64_length lo hi n : length (linspace64 lo hi n) = n.
Proof. destruct n as [|[|n]]; [reflexivity..|]. unfold linspace64. rewrite map_length, seq_length. reflexivity. Qed.
Definition offset64 (lo hi : R) (n i : nat) : R :=
  let div := INR (n - 1) in let delta := b64 (hi - lo) in let step := b64 (delta / div) in
  if Reqb step 0 then b64 (b64 (INR i / div) * delta) else b64 (INR i * step).
Lemma linspace64_nth lo hi n i : (2 <= n)%nat -> (i < n)%nat ->
  nth i (linspace64 lo hi n) 0 = if Nat.eqb i (n - 1) then hi else b64 (offset64 lo hi n i + lo).
Proof.
  intros Hn Hi. destruct n as [|[|n]]; [lia..|]. unfold linspace64.
  set (f := fun i => _). rewrite nth_indep with (d' := f 0%nat) by (rewrite map_length, seq_length; exact Hi).
  rewrite (map_nth f), seq_nth by exact Hi. cbn [plus]. reflexivity.
Qed.
Lemma linspace64_first lo hi n : is_b64 lo -> (2 <= n)%nat -> nth 0 (linspace64 lo hi n) 0 = lo.
Proof.
  intros Hlo Hn. rewrite linspace64_nth by lia. replace (Nat.eqb 0 (n - 1)) with false.
  2: { symmetry. apply Nat.eqb_neq. lia. }
  unfold offset64. cbn zeta. replace (INR 0) with 0 by reflexivity.
  destruct (Reqb _ 0).
  - unfold Rdiv. rewrite Rmult_0_l, b64_0, Rmult_0_l, b64_0, Rplus_0_l. apply b64_id, Hlo.
  - rewrite Rmult_0_l, b64_0, Rplus_0_l. apply b64_id, Hlo.
Qed.
Lemma linspace64_last lo hi n : (2 <= n)%nat -> nth (n - 1) (linspace64 lo hi n) 0 = hi.
Proof. intros Hn. rewrite linspace64_nth by lia. rewrite Nat.eqb_refl. reflexivity. Qed.
Lemma linspace64_fmt lo hi n : is_b64 lo -> is_b64 hi -> Forall is_b64 (linspace64 lo hi n).
Proof.
  intros Hlo Hhi. destruct n as [|[|n]]; [constructor|constructor; [apply b64_fmt|constructor]|].
  unfold linspace64. apply Forall_forall. intros v Hv. apply in_map_iff in Hv. destruct Hv as (i & Hi & _).
  subst v. destruct (Nat.eqb _ _); [exact Hhi | apply b64_fmt].
Qed.

Lemma window_ends lo hi n ds : is_b64 lo -> is_b64 hi -> (2 <= n)%nat ->
  let w := window_run (window_init lo hi n) ds in
  length (win_axis w) = n /\ nth 0 (win_axis w) 0 = win_lo w /\ nth (n - 1) (win_axis w) 0 = win_hi w.
Proof.
  intros Hlo Hhi Hn w. unfold w. rewrite run_axis, run_lo, run_hi. cbn [window_init win_axis win_lo win_hi].
  rewrite map_length, linspace64_length. split; [reflexivity|].
  pose (f := fun v => vrun v ds).
  split.
  - rewrite nth_indep with (d' := f 0) by (rewrite map_length, linspace64_length; lia).
    change (map (fun v => vrun v ds)) with (map f). rewrite (map_nth f), linspace64_first by assumption. reflexivity.
  - rewrite nth_indep with (d' := f 0) by (rewrite map_length, linspace64_length; lia).
    change (map (fun v => vrun v ds)) with (map f). rewrite (map_nth f), linspace64_last by assumption. reflexivity.
Qed.

(** ** Rounding error of a history. *)
Lemma path_length_nonneg ds : 0 <= path_length ds.
Proof.
  induction ds as [|d ds IH]; cbn; [lra|]. pose proof c_light_pos.
  assert (0 <= Rabs d / c_light); [|lra]. unfold Rdiv. apply Rmult_le_pos; [apply Rabs_pos|].
  left; apply Rinv_0_lt_compat; assumption.
Qed.
Lemma path_time_le ds : Rabs (path_time ds) <= path_length ds.
Proof.
  induction ds as [|d ds IH]; cbn; [rewrite Rabs_R0; lra|]. apply Rle_trans with (1 := Rabs_triang _ _).
  apply Rplus_le_compat; [|exact IH]. unfold Rdiv. rewrite Rabs_mult, (Rabs_right (/ c_light)); [lra|].
  left. apply Rinv_0_lt_compat, c_light_pos.
Qed.
Lemma delay_error d : normal_distance d -> Rabs (b64 (d / c_light) - d / c_light) <= u64 * (Rabs d / c_light).
Proof.
  assert (E : Rabs (d / c_light) = Rabs d / c_light).
  { unfold Rdiv. rewrite Rabs_mult, (Rabs_right (/ c_light)); [reflexivity|]. left. apply Rinv_0_lt_compat, c_light_pos. }
  intros [->|H].
  - unfold Rdiv. rewrite Rmult_0_l, b64_0, Rminus_0_r, Rabs_R0. lra.
  - rewrite <- E in *. apply b64_rel, H.
Qed.
(* general step: t is within (g-1)A of T *)
Lemma vrun_error ds : Forall normal_distance ds -> forall v T A g, is_b64 v -> 1 + u64 <= g -> Rabs T <= A ->
  Rabs (v - T) <= (g - 1) * A ->
  Rabs (vrun v ds - (T + path_time ds)) <= (g * (1 + u64) ^ length ds - 1) * (A + path_length ds).
Proof.
  pose proof u64_pos as Hu.
  induction 1 as [|d ds Hd Hds IH]; intros v T A g Hv Hg HT HA.
  - cbn. rewrite !Rplus_0_r, Rmult_1_r. exact HA.
  - cbn [vrun fold_left path_time path_length length].
    change (fold_left _ ds ?v) with (vrun v ds).
    set (s := b64 (d / c_light)).
    replace (T + (d / c_light + path_time ds)) with ((T + d / c_light) + path_time ds) by ring.
    replace (g * (1 + u64) ^ S (length ds)) with (g * (1 + u64) * (1 + u64) ^ length ds) by (cbn; ring).
    replace (A + (Rabs d / c_light + path_length ds)) with ((A + Rabs d / c_light) + path_length ds) by ring.
    pose proof (delay_error d Hd) as Es. fold s in Es.
    assert (E : Rabs (d / c_light) = Rabs d / c_light).
    { unfold Rdiv. rewrite Rabs_mult, (Rabs_right (/ c_light)); [reflexivity|]. left. apply Rinv_0_lt_compat, c_light_pos. }
    set (D := Rabs d / c_light) in *.
    assert (HD : 0 <= D) by (rewrite <- E; apply Rabs_pos).
    assert (Hp : Rabs (v + s - (T + d / c_light)) <= (g - 1) * (A + D)).
    { replace (v + s - (T + d / c_light)) with ((v - T) + (s - d / c_light)) by ring.
      apply Rle_trans with (1 := Rabs_triang _ _). nra. }
    assert (HT' : Rabs (T + d / c_light) <= A + D).
    { apply Rle_trans with (1 := Rabs_triang _ _). rewrite E. lra. }
    apply IH.
    + apply b64_fmt.
    + nra.
    + exact HT'.
    + pose proof (b64_plus v s Hv (b64_fmt _)) as Er.
      replace (b64 (v + s) - (T + d / c_light)) with ((b64 (v + s) - (v + s)) + (v + s - (T + d / c_light))) by ring.
      apply Rle_trans with (1 := Rabs_triang _ _).
      assert (Rabs (v + s) <= Rabs (v + s - (T + d / c_light)) + Rabs (T + d / c_light)).
      { replace (v + s) with ((v + s - (T + d / c_light)) + (T + d / c_light)) at 1 by ring. apply Rabs_triang. }
      nra.
Qed.

(** ** Rounding error and order of the axis at construction. *)
Lemma u64_small : 8 * u64 * 2 ^ 50 <= 1.
Proof.
  unfold u64. replace (2 ^ 53) with (8 * 2 ^ 50) by (cbn; ring).
  assert (0 < 2 ^ 50) by (apply pow_lt; lra). generalize dependent (2 ^ 50). intros q Hq.
  replace (8 * / (8 * q) * q) with 1; [lra | field; lra].
Qed.
Lemma u64_le : u64 <= / 8.
Proof.
  unfold u64. replace (2 ^ 53) with (8 * 2 ^ 50) by (cbn; ring).
  apply Rinv_le_contravar; [lra|]. assert (1 <= 2 ^ 50); [|lra]. apply pow_R1_Rle; lra.
Qed.
Lemma half_pow : / 2 ^ 1022 = / 2 * / 2 ^ 1021.
Proof. rewrite <- (tech_pow_Rmult 2 1021). apply Rinv_mult. Qed.

Lemma offset64_bounds lo hi n i : axis_ok lo hi n -> (i < n)%nat ->
  let X := (hi - lo) / (INR n - 1) in
  exists st, 0 < st /\ offset64 lo hi n i = b64 (INR i * st) /\
    Rabs (offset64 lo hi n i - INR i * X) <= ((1 + u64) ^ 3 - 1) * (INR i * X).
Proof.
  intros (Hlo & Hhi & Hlt & Hn & Hbig & HX) Hi X. pose proof u64_pos as Hu. pose proof u64_le as Hu8.
  assert (En : INR (n - 1) = INR n - 1) by (rewrite minus_INR by lia; reflexivity).
  assert (Hn1 : 1 <= INR n - 1). { rewrite <- En. change 1 with (INR 1). apply le_INR. lia. }
  set (delta := b64 (hi - lo)).
  assert (Hd : Rabs (delta - (hi - lo)) <= u64 * (hi - lo)).
  { replace (hi - lo) with (hi + - lo) in * by ring. unfold delta.
    pose proof (b64_plus hi (- lo) Hhi (generic_format_opp _ _ _ Hlo)) as H. rewrite (Rabs_right (hi + - lo)) in H by lra. exact H. }
  apply Rabs_le_inv in Hd.
  assert (HXp : 0 < X). { eapply Rlt_le_trans; [|exact HX]. apply Rinv_0_lt_compat, pow_lt; lra. }
  assert (EX : hi - lo = X * (INR n - 1)). { unfold X. field. lra. }
  set (q := delta / (INR n - 1)).
  assert (Hq : (1 - u64) * X <= q <= (1 + u64) * X).
  { assert (Eq : delta = q * (INR n - 1)) by (unfold q; field; lra). rewrite Eq, EX in Hd.
    split; apply Rmult_le_reg_r with (INR n - 1); lra. }
  assert (HX' : / 2 ^ 1022 <= / 2 * X). { rewrite half_pow. apply Rmult_le_compat_l; [lra | exact HX]. }
  clear HX.
  assert (Hq0 : 0 < q) by nra.
  pose proof (b64_rel q) as Hs. rewrite (Rabs_right q) in Hs by lra. specialize (Hs ltac:(nra)).
  apply Rabs_le_inv in Hs.
  set (st := b64 q) in *.
  assert (Hst : (1 - u64) ^ 2 * X <= st <= (1 + u64) ^ 2 * X) by (split; nra).
  assert (Hst0 : 0 < st) by nra.
  assert (Eo : offset64 lo hi n i = b64 (INR i * st)).
  { unfold offset64. rewrite En. fold delta. fold q. fold st. cbn zeta.
    replace (Reqb st 0) with false; [reflexivity|]. symmetry. unfold Reqb. destruct (Req_EM_T st 0); [lra|reflexivity]. }
  exists st. split; [exact Hst0|]. split; [exact Eo|]. rewrite Eo.
  destruct i as [|i].
  - cbn [INR]. rewrite !Rmult_0_l, b64_0, Rminus_0_r, Rabs_R0. lra.
  - assert (Hi1 : 1 <= INR (S i)). { change 1 with (INR 1). apply le_INR. lia. }
    set (I := INR (S i)) in *.
    assert (Hst' : / 2 * X <= st) by nra.
    assert (HIst : st <= I * st) by nra.
    pose proof (b64_rel (I * st)) as Ho. rewrite (Rabs_right (I * st)) in Ho by nra. specialize (Ho ltac:(lra)).
    apply Rabs_le_inv in Ho. apply Rabs_le.
    assert (B1 : I * st <= (1 + u64) ^ 2 * (I * X)) by nra.
    assert (B2 : (1 - u64) ^ 2 * (I * X) <= I * st) by nra.
    assert (HIX : 0 < I * X) by nra.
    set (Y := I * X) in *. set (Z := I * st) in *. clearbody Y Z. split; nra.
Qed.

Lemma sample_error lo hi n i : axis_ok lo hi n -> (i < n)%nat ->
  Rabs (nth i (linspace64 lo hi n) 0 - coord lo hi n i) <= ((1 + u64) ^ 4 - 1) * (Rabs lo + (hi - lo)).
Proof.
  intros H Hi. assert (H0 := H). destruct H0 as (Hlo & Hhi & Hlt & Hn & Hbig & HX).
  pose proof u64_pos as Hu. pose proof (Rabs_pos lo) as Hal.
  assert (En : INR (n - 1) = INR n - 1) by (rewrite minus_INR by lia; reflexivity).
  assert (Hn1 : 1 <= INR n - 1). { rewrite <- En. change 1 with (INR 1). apply le_INR. lia. }
  assert (G : 0 <= (1 + u64) ^ 4 - 1) by nra.
  rewrite linspace64_nth by lia. unfold coord. destruct (Nat.eqb_spec i (n - 1)) as [->|Hne].
  - rewrite En. replace (hi - _) with 0 by (field; lra). rewrite Rabs_R0. nra.
  - destruct (offset64_bounds lo hi n i H Hi) as (st & Hst & Eo & Eb).
    set (X := (hi - lo) / (INR n - 1)) in *. set (o := offset64 lo hi n i) in *.
    assert (Fo : is_b64 o) by (rewrite Eo; apply b64_fmt).
    assert (HXp : 0 < X). { eapply Rlt_le_trans; [|exact HX]. apply Rinv_0_lt_compat, pow_lt; lra. }
    assert (HIX : 0 <= INR i * X) by (apply Rmult_le_pos; [apply pos_INR|lra]).
    assert (HIn : INR i * X <= hi - lo).
    { replace (hi - lo) with ((INR n - 1) * X) by (unfold X; field; lra). apply Rmult_le_compat_r; [lra|].
      rewrite <- En. apply le_INR. lia. }
    pose proof (b64_plus o lo Fo Hlo) as Er.
    assert (T : Rabs (o + lo) <= Rabs (o - INR i * X) + INR i * X + Rabs lo).
    { replace (o + lo) with ((o - INR i * X) + (INR i * X + lo)) by ring.
      apply Rle_trans with (1 := Rabs_triang _ _). rewrite Rplus_assoc. apply Rplus_le_compat_l.
      apply Rle_trans with (1 := Rabs_triang _ _). rewrite (Rabs_right (INR i * X)); lra. }
    replace (b64 (o + lo) - (lo + INR i * X)) with ((b64 (o + lo) - (o + lo)) + (o - INR i * X)) by ring.
    apply Rle_trans with (1 := Rabs_triang _ _).
    set (Y := INR i * X) in *. set (e := Rabs (o - Y)) in *. set (l := Rabs lo) in *. clearbody Y e l.
    apply Rle_trans with (((1 + u64) ^ 4 - 1) * (l + Y)); [|apply Rmult_le_compat_l; lra].
    replace ((1 + u64) ^ 4) with ((1 + u64) ^ 3 * (1 + u64)) by (cbn; ring).
    assert (1 <= (1 + u64) ^ 3) by nra.
    set (g := (1 + u64) ^ 3) in *. clearbody g.
    set (a := Rabs (b64 (o + lo) - (o + lo))) in *. set (b := Rabs (o + lo)) in *. clearbody a b.
    assert (u64 * b <= u64 * (e + Y + l)) by (apply Rmult_le_compat_l; lra).
    assert ((1 + u64) * e <= (1 + u64) * ((g - 1) * Y)) by (apply Rmult_le_compat_l; lra).
    assert (0 <= (1 + u64) * (g - 1) * l) by (apply Rmult_le_pos; [apply Rmult_le_pos; lra | exact Hal]).
    lra.
Qed.

Lemma linspace64_mono lo hi n i j : axis_ok lo hi n -> (i <= j)%nat -> (j < n)%nat ->
  nth i (linspace64 lo hi n) 0 <= nth j (linspace64 lo hi n) 0.
Proof.
  intros H Hij Hj. assert (H0 := H). destruct H0 as (Hlo & Hhi & Hlt & Hn & Hbig & HX).
  pose proof u64_pos as Hu. pose proof u64_le as Hu8. pose proof u64_small as Hsm.
  assert (En : INR (n - 1) = INR n - 1) by (rewrite minus_INR by lia; reflexivity).
  assert (Hn1 : 1 <= INR n - 1). { rewrite <- En. change 1 with (INR 1). apply le_INR. lia. }
  rewrite !linspace64_nth by lia.
  destruct (Nat.eqb_spec i (n - 1)) as [Ei|Hi]; destruct (Nat.eqb_spec j (n - 1)) as [Ej|Hj']; [lra | lia | |].
  - (* the last sample *)
    destruct (offset64_bounds lo hi n i H ltac:(lia)) as (st & Hst & Eo & Eb).
    rewrite <- (b64_id hi Hhi) at 2. apply b64_le.
    set (X := (hi - lo) / (INR n - 1)) in *. set (o := offset64 lo hi n i) in *.
    assert (HXp : 0 < X). { eapply Rlt_le_trans; [|exact HX]. apply Rinv_0_lt_compat, pow_lt; lra. }
    apply Rabs_le_inv in Eb.
    assert (HI : INR i <= INR n - 2).
    { replace (INR n - 2) with (INR (n - 2)); [apply le_INR; lia|]. rewrite minus_INR by lia. cbn. lra. }
    pose proof (pos_INR i) as Hi0.
    assert (EX : hi - lo = (INR n - 1) * X) by (unfold X; field; lra).
    assert (K : (1 + u64) ^ 3 * INR i <= INR n - 1).
    { assert ((1 + u64) ^ 3 <= 1 + 8 * u64) by nra.
      assert (8 * u64 * INR i <= 1).
      { apply Rle_trans with (2 := Hsm). apply Rmult_le_compat_l; [lra|]. lra. }
      nra. }
    assert (o <= (1 + u64) ^ 3 * INR i * X) by (apply Rle_trans with (INR i * X + ((1 + u64) ^ 3 - 1) * (INR i * X)); [lra|]; right; ring).
    assert ((1 + u64) ^ 3 * INR i * X <= (INR n - 1) * X) by (apply Rmult_le_compat_r; lra).
    lra.
  - destruct (offset64_bounds lo hi n i H ltac:(lia)) as (st & Hst & Eo & Eb).
    destruct (offset64_bounds lo hi n j H ltac:(lia)) as (st' & Hst' & Eo' & Eb').
    apply b64_le, Rplus_le_compat_r. unfold offset64. cbn zeta.
    assert (Hs : 0 <= b64 (b64 (hi - lo) / INR (n - 1))).
    { rewrite <- b64_0. apply b64_le. unfold Rdiv. apply Rmult_le_pos.
      - rewrite <- b64_0. apply b64_le. lra.
      - left. apply Rinv_0_lt_compat. lra. }
    destruct (Reqb _ 0).
    + apply b64_le, Rmult_le_compat_r; [rewrite <- b64_0; apply b64_le; lra|]. apply b64_le.
      unfold Rdiv. apply Rmult_le_compat_r; [left; apply Rinv_0_lt_compat; lra|]. apply le_INR, Hij.
    + apply b64_le, Rmult_le_compat_r; [exact Hs|]. apply le_INR, Hij.
Qed.

Lemma nth_run lo hi n ds k : (k < n)%nat ->
  nth k (win_axis (window_run (window_init lo hi n) ds)) 0 = vrun (nth k (linspace64 lo hi n) 0) ds.
Proof.
  intros Hk. rewrite run_axis. cbn [window_init win_axis].
  rewrite nth_indep with (d' := (fun v => vrun v ds) 0) by (rewrite map_length, linspace64_length; lia).
  rewrite (map_nth (fun v => vrun v ds)). reflexivity.
Qed.
Lemma window_order lo hi n ds i j : axis_ok lo hi n -> (i <= j)%nat -> (j < n)%nat ->
  let t := win_axis (window_run (window_init lo hi n) ds) in nth i t 0 <= nth j t 0.
Proof.
  intros H Hi Hj t. unfold t. rewrite !nth_run by lia. apply vrun_le, linspace64_mono; assumption.
Qed.
Lemma window_error lo hi n ds k : axis_ok lo hi n -> Forall normal_distance ds -> (k < n)%nat ->
  Rabs (nth k (win_axis (window_run (window_init lo hi n) ds)) 0 - (coord lo hi n k + path_time ds))
  <= ((1 + u64) ^ (length ds + 4) - 1) * (Rabs lo + (hi - lo) + path_length ds).
Proof.
  intros H Hds Hk. rewrite nth_run by exact Hk. assert (H0 := H). destruct H0 as (Hlo & Hhi & Hlt & Hn & Hbig & HX).
  pose proof u64_pos as Hu.
  rewrite Nat.add_comm, pow_add. apply vrun_error; [exact Hds| | | |].
  - pose proof (linspace64_fmt lo hi n Hlo Hhi) as F. rewrite Forall_forall in F. apply F, nth_In.
    rewrite linspace64_length. exact Hk.
  - nra.
  - unfold coord.
    assert (En : INR (n - 1) = INR n - 1) by (rewrite minus_INR by lia; reflexivity).
    assert (Hn1 : 1 <= INR n - 1). { rewrite <- En. change 1 with (INR 1). apply le_INR. lia. }
    assert (HIn : 0 <= INR k * ((hi - lo) / (INR n - 1)) <= hi - lo).
    { assert (0 <= (hi - lo) / (INR n - 1)).
      { left. eapply Rlt_le_trans; [|exact HX]. apply Rinv_0_lt_compat, pow_lt; lra. }
      split; [apply Rmult_le_pos; [apply pos_INR|lra]|].
      replace (hi - lo) with ((INR n - 1) * ((hi - lo) / (INR n - 1))) at 2 by (field; lra).
      apply Rmult_le_compat_r; [lra|]. rewrite <- En. apply le_INR. lia. }
    apply Rle_trans with (1 := Rabs_triang _ _). rewrite (Rabs_right (INR k * _)); lra.
  - apply sample_error; assumption.
Qed.
Lemma window_resolved lo hi n ds i j : axis_ok lo hi n -> Forall normal_distance ds -> (i < j)%nat -> (j < n)%nat ->
  2 * (((1 + u64) ^ (length ds + 4) - 1) * (Rabs lo + (hi - lo) + path_length ds)) < (hi - lo) / (INR n - 1) ->
  let t := win_axis (window_run (window_init lo hi n) ds) in nth i t 0 < nth j t 0.
Proof.
  intros H Hds Hij Hj HB t. unfold t.
  pose proof (window_error lo hi n ds i H Hds ltac:(lia)) as Ei.
  pose proof (window_error lo hi n ds j H Hds Hj) as Ej.
  apply Rabs_le_inv in Ei. apply Rabs_le_inv in Ej. unfold coord in *.
  assert (HX : 0 < (hi - lo) / (INR n - 1)).
  { destruct H as (_ & _ & _ & _ & _ & HX). eapply Rlt_le_trans; [|exact HX]. apply Rinv_0_lt_compat, pow_lt; lra. }
  set (B := ((1 + u64) ^ (length ds + 4) - 1) * (Rabs lo + (hi - lo) + path_length ds)) in *.
  assert (HI : INR i + 1 <= INR j). { rewrite <- S_INR. apply le_INR. lia. }
  set (X := (hi - lo) / (INR n - 1)) in *. nra.
Qed.

(** ** A far shift merges samples. *)
Lemma pow2_fmt (e : Z) : (-1074 <= e)%Z -> is_b64 (bpow radix2 e).
Proof. intros H. apply generic_format_bpow. unfold exp64, FLT_exp. lia. Qed.
Lemma b64_one_plus : b64 (/ 2 ^ 60 + 1) = 1.
Proof.
  assert (F1 : is_b64 1) by (change 1 with (bpow radix2 0); apply pow2_fmt; lia).
  assert (0 < / 2 ^ 60) by (apply Rinv_0_lt_compat, pow_lt; lra).
  apply Rle_antisym.
  - unfold b64. apply round_N_le_midp; [typeclasses eauto | exact F1 |].
    rewrite succ_eq_pos by lra. change 1 with (bpow radix2 0) at 4. rewrite ulp_bpow.
    replace (exp64 (0 + 1)) with (Z.opp 52) by reflexivity. rewrite bpow_opp. change 52%Z with (Z.of_nat 52).
    rewrite bpow_powerRZ, <- pow_powerRZ. change (IZR radix2) with 2.
    assert (/ 2 ^ 60 < / 2 ^ 53).
    { apply Rinv_lt_contravar; [apply Rmult_lt_0_compat; apply pow_lt; lra|]. apply Rlt_pow; [lra|lia]. }
    rewrite <- (tech_pow_Rmult 2 52), Rinv_mult in *. lra.
  - rewrite <- (b64_id 1 F1) at 1. apply b64_le. lra.
Qed.
