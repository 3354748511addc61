(** LongitudinalProfileFromData, spectral data (C59, C60). *)
From Verif Require Import PyBase CSum NumPy NpFFT NpMath NpMathProofs GridModel GridProofs EnergyProofs AnalysisModel LaserSpec FromArrayProofs FromArraySpec DataModel DataProofs MomentProofs TransDataProofs FFTProofs SpectralSpec.
Open Scope R_scope.

(** ** Order of the data *)
Lemma asc_desc_short x : ascending x = true -> descending x = true -> (length x <= 1)%nat.
Proof.
  intros A D. destruct (le_lt_dec (length x) 1) as [L|L]; [exact L|]. pose proof (ascending_nth x A 0 1 ltac:(lia)). pose proof (descending_nth x D 0 1 ltac:(lia)). lra.
Qed.
Lemma rev_short {A} (x : list A) : (length x <= 1)%nat -> rev x = x.
Proof. destruct x as [|a [|b x]]; cbn; intros; try reflexivity. lia. Qed.
Lemma map2_app {A B D} (f : A -> B -> D) l1 m1 l2 m2 : length l1 = length m1 -> map2 f (l1 ++ l2) (m1 ++ m2) = map2 f l1 m1 ++ map2 f l2 m2.
Proof. revert m1. induction l1 as [|x l1 IH]; intros [|y m1] H; cbn in *; try discriminate; [reflexivity|]. rewrite IH by lia. reflexivity. Qed.
Lemma map2_rev {A B D} (f : A -> B -> D) l m : length l = length m -> map2 f (rev l) (rev m) = rev (map2 f l m).
Proof.
  revert m. induction l as [|x l IH]; intros [|y m] H; cbn in *; try discriminate; [reflexivity|].
  rewrite map2_app by (rewrite !rev_length; lia). rewrite IH by lia. reflexivity.
Qed.
Lemma map2_length {A B D} (f : A -> B -> D) l m : length l = length m -> length (map2 f l m) = length l.
Proof. revert m. induction l as [|x l IH]; intros [|y m] H; cbn in *; try discriminate; [reflexivity|]. rewrite IH; lia. Qed.
Lemma c59_order axis int ph w dt lo hi : length int = length axis -> (forall p, ph = Some p -> length p = length axis) ->
  long_spectral (rev axis) (rev int) (option_map (@rev R) ph) w dt lo hi = long_spectral axis int ph w dt lo hi.
Proof.
  intros Hi Hp. unfold long_spectral. rewrite !rev_length, Hi, Nat.eqb_refl. cbn [negb].
  set (wl := if w then axis else map (fun w => 2 * PI * c_light / w) axis).
  assert (Ew : (if w then rev axis else map (fun w => 2 * PI * c_light / w) (rev axis)) = rev wl) by (unfold wl; destruct w; [reflexivity|apply map_rev]).
  rewrite Ew. assert (Lw : length wl = length axis) by (unfold wl; destruct w; [reflexivity|apply map_length]).
  set (si := if w then int else map2 (fun i w => i * 2 * PI * c_light / w ^ 2) int wl).
  assert (Es : (if w then rev int else map2 (fun i w => i * 2 * PI * c_light / w ^ 2) (rev int) (rev wl)) = rev si).
  { unfold si. destruct w; [reflexivity|]. apply map2_rev. lia. }
  rewrite Es. set (p := match ph with Some p => p | None => map (fun _ => 0) wl end).
  assert (Ep : match option_map (@rev R) ph with Some p => p | None => map (fun _ => 0) (rev wl) end = rev p) by (unfold p; destruct ph; [reflexivity|apply map_rev]).
  rewrite Ep. assert (Ls : length si = length wl) by (unfold si; destruct w; [lia|rewrite map2_length by lia; lia]).
  assert (Lp : length p = length wl) by (unfold p; destruct ph; [rewrite (Hp _ eq_refl); lia|apply map_length]).
  destruct (le_lt_dec (length wl) 1) as [L|L].
  - rewrite !(rev_short wl), !(rev_short si), !(rev_short p) by lia. reflexivity.
  - destruct (ascending wl) eqn:A.
    + rewrite (asc_rev wl A), orb_true_r. cbn [negb orb]. rewrite !rev_involutive.
      destruct (descending wl) eqn:D; [pose proof (asc_desc_short wl A D); lia|]. reflexivity.
    + destruct (descending wl) eqn:D.
      * rewrite (desc_rev wl D). cbn [negb orb]. destruct (descending (rev wl)) eqn:D'; [|reflexivity].
        pose proof (asc_desc_short (rev wl) (desc_rev wl D) D') as Q. rewrite rev_length in Q. lia.
      * assert (A' : ascending (rev wl) = false).
        { destruct (ascending (rev wl)) eqn:X; [|reflexivity]. apply asc_rev in X. rewrite rev_involutive in X. congruence. }
        assert (D' : descending (rev wl) = false).
        { destruct (descending (rev wl)) eqn:X; [|reflexivity]. apply desc_rev in X. rewrite rev_involutive in X. congruence. }
        rewrite A', D'. reflexivity.
Qed.

(** ** The transform *)
Lemma csum_roll n s (G : nat -> nat -> C) : csum n (fun j => G (roll_index n s j) j) = csum n (fun q => G q (roll_index n (- s) q)).
Proof.
  apply injective_projections.
  - rewrite !fst_csum. apply (rsum_roll n s (fun a b => fst (G a b))).
  - rewrite !snd_csum. apply (rsum_roll n s (fun a b => snd (G a b))).
Qed.
Lemma roll_mod n s i : (0 < n)%nat -> exists z, Z.of_nat (roll_index n s i) = (Z.of_nat i - s + Z.of_nat n * z)%Z.
Proof.
  intros H. unfold roll_index. exists (- ((Z.of_nat i - s) / Z.of_nat n))%Z. rewrite Z2Nat.id by (apply Z.mod_pos_bound; lia).
  pose proof (Z_div_mod_eq_full (Z.of_nat i - s) (Z.of_nat n)). lia.
Qed.
Lemma shifted_ifft N (x : nat -> C) k : (0 < N)%nat ->
  fftshift1 N (ifft1 N (ifftshift1 N x)) k =
  Cmult (RtoC (/ INR N)) (csum N (fun q => Cmult (x q) (cis (2 * PI * ((INR q - INR (N / 2)) * (INR k - INR (N / 2))) / INR N)))).
Proof.
  intros HN. unfold fftshift1, ifft1, ifftshift1. f_equal.
  rewrite (csum_roll N (- Z.of_nat (N / 2)) (fun a b => Cmult (x a) (cis (2 * PI * (INR (roll_index N (Z.of_nat (N / 2)) k) * INR b) / INR N)))).
  apply csum_ext. intros q Hq. f_equal. rewrite Z.opp_involutive.
  destruct (roll_mod N (Z.of_nat (N / 2)) k HN) as (z1 & E1). destruct (roll_mod N (Z.of_nat (N / 2)) q HN) as (z2 & E2).
  apply (f_equal IZR) in E1. apply (f_equal IZR) in E2. rewrite plus_IZR, minus_IZR, mult_IZR, <- !INR_IZR_INZ in E1, E2. rewrite E1, E2.
  set (h := INR (N / 2)) in *. pose proof (INR_neq0 N HN) as Hn.
  rewrite <- (cis_period (2 * PI * ((INR q - h) * (INR k - h)) / INR N) (z1 * (Z.of_nat q - Z.of_nat (N / 2)) + z2 * (Z.of_nat k - Z.of_nat (N / 2)) + Z.of_nat N * z1 * z2)).
  f_equal. rewrite !plus_IZR, !mult_IZR, !minus_IZR, <- !INR_IZR_INZ. fold h. field. exact Hn.
Qed.
(** ** Interpolation *)
Lemma seq_res_inv {A} (l : list (res A)) r d0 : seq_res l = Ok r -> length r = length l /\ forall i, (i < length l)%nat -> nth i l (Err ValueError) = Ok (nth i r d0).
Proof.
  revert r. induction l as [|x l IH]; intros r H; cbn in H.
  - injection H as <-. split; [reflexivity|]. intros i Hi; cbn in Hi; lia.
  - destruct x as [a|e]; [|discriminate]. cbn in H. destruct (seq_res l) as [r'|e] eqn:E; [|discriminate]. cbn in H. injection H as <-.
    destruct (IH _ eq_refl) as [L Q]. split; [cbn; lia|]. intros [|i] Hi; [reflexivity|]. cbn in *. apply Q. lia.
Qed.
Lemma map2_nth {A B D} (f : A -> B -> D) l m i da db dd : length l = length m -> (i < length l)%nat -> nth i (map2 f l m) dd = f (nth i l da) (nth i m db).
Proof. revert m i. induction l as [|x l IH]; intros [|y m] [|i] H Hi; cbn in *; try lia; try reflexivity. apply IH; lia. Qed.
Lemma freq_rev (wl : list R) i : (i < length wl)%nat -> vget (map (fun w => c_light / w) (rev wl)) i = c_light / vget wl (length wl - S i).
Proof. intros H. rewrite (vget_map (fun w => c_light / w)) by (rewrite rev_length; exact H). rewrite vget_rev by exact H. reflexivity. Qed.
Lemma freq_asc (wl : list R) : ascending wl = true -> (forall i, (i < length wl)%nat -> 0 < vget wl i) -> ascending (map (fun w => c_light / w) (rev wl)) = true.
Proof.
  intros A P. apply ascending_iff. rewrite map_length, rev_length. intros i Hi. rewrite !freq_rev by lia.
  pose proof (ascending_nth wl A (length wl - S (S i)) (length wl - S i) ltac:(lia)) as L.
  pose proof (P (length wl - S (S i))%nat ltac:(lia)). pose proof c_light_pos. unfold Rdiv. apply Rmult_lt_compat_l; [assumption|].
  apply Rinv_lt_contravar; [apply Rmult_lt_0_compat; lra|exact L].
Qed.
Lemma interp0_value wl y f v : ascending wl = true -> (forall i, (i < length wl)%nat -> 0 < vget wl i) -> (2 <= length wl)%nat -> length y = length wl ->
  np_interp0 (map (fun w => c_light / w) (rev wl)) (rev y) f = Ok v -> spectrum_value wl y f v.
Proof.
  intros A P L Ly H. set (xp := map (fun w => c_light / w) (rev wl)) in *. pose proof (freq_asc wl A P) as Ax. fold xp in Ax.
  assert (Lx : length xp = length wl) by (unfold xp; rewrite map_length, rev_length; reflexivity).
  assert (Lf : length xp = length (rev y)) by (rewrite rev_length; lia).
  assert (Hne : xp <> []) by (intros E; rewrite E in Lx; cbn in Lx; lia).
  unfold np_interp0 in H. split; [|split].
  - intros Hf. rewrite (np_interp_low _ _ _ _ _ Hne Lf) in H.
    + injection H as <-. reflexivity.
    + unfold xp. rewrite freq_rev by lia. rewrite last_vget in Hf. exact Hf.
  - intros Hf. rewrite (np_interp_high _ _ _ _ _ Hne Lf Ax) in H.
    + injection H as <-. reflexivity.
    + rewrite last_vget, Lx. unfold xp. rewrite freq_rev by lia. replace (length wl - S (length wl - 1))%nat with 0%nat by lia. exact Hf.
  - intros i Hi Hf. rewrite (np_interp_cell _ _ _ _ _ (length wl - S (S i)) Lf Ax) in H.
    + injection H as <-. unfold lerp. unfold xp. rewrite !freq_rev by lia. rewrite !vget_rev by lia.
      replace (length wl - S (length wl - S (S i)))%nat with (S i) by lia. replace (length y - S (length wl - S (S i)))%nat with (S i) by lia.
      replace (length wl - S (S (length wl - S (S i))))%nat with i by lia. replace (length y - S (S (length wl - S (S i))))%nat with i by lia.
      pose proof (ascending_nth wl A i (S i) ltac:(lia)) as Q. pose proof (P i ltac:(lia)). pose proof c_light_pos.
      assert (c_light / vget wl (S i) < c_light / vget wl i).
      { unfold Rdiv. apply Rmult_lt_compat_l; [assumption|]. apply Rinv_lt_contravar; [apply Rmult_lt_0_compat; lra|exact Q]. }
      generalize dependent (c_light / vget wl (S i)). intros fb. generalize (c_light / vget wl i). intros fa ? ?. field. lra.
    + split; [rewrite Lx; lia|]. unfold xp. rewrite !freq_rev by lia.
      replace (length wl - S (length wl - S (S i)))%nat with (S i) by lia. replace (length wl - S (S (length wl - S (S i))))%nat with i by lia. exact Hf.
Qed.
(** ** What the constructor computes *)
Lemma lsum_list_rsum l : lsum_list l = rsum (length l) (fun i => vget l i).
Proof.
  unfold lsum_list. induction l as [|x l IH]; [reflexivity|]. cbn [fold_right length]. rewrite rsum_first, IH. reflexivity.
Qed.
Lemma mean_eq wl si : length si = length wl -> lsum_list (map2 Rmult si wl) / lsum_list si = weighted_mean wl si.
Proof.
  intros L. unfold weighted_mean. rewrite !lsum_list_rsum, map2_length by exact L. rewrite L. f_equal. apply rsum_ext. intros i Hi.
  unfold vget. rewrite (map2_nth Rmult si wl i 0 0 0) by lia. reflexivity.
Qed.
Definition spec_pt (I P : nat -> R) (q : nat) : C := Cmult (RtoC (sqrt (I q))) (cis (- P q)).
Definition dft_at (N : nat) (I P : nat -> R) (k : nat) : C :=
  csum N (fun q => Cmult (spec_pt I P q) (cis (2 * PI * ((INR q - INR (N / 2)) * (INR k - INR (N / 2))) / INR N))).
Lemma core_inv wl si ph dt lo hi d : spectral_core wl si ph dt lo hi = Ok d ->
  ascending wl = true -> (forall i, (i < length wl)%nat -> 0 < vget wl i) -> length si = length wl -> length ph = length wl -> 0 < dt ->
  exists N I P ta,
    let cwl := weighted_mean wl si in
    (0 < N)%nat /\ sample_count wl dt cwl N /\
    (forall q, (q < N)%nat -> let f := vget (linspace (c_light / cwl - 1 / dt / 2) (c_light / cwl + 1 / dt / 2) N) q in
       spectrum_value wl si f (I q) /\ spectrum_value wl ph f (P q)) /\
    (forall k, ta k = Cmult (RtoC (/ (INR N * dt))) (dft_at N I P k)) /\
    let time := linspace (- dt * INR N / 2) (dt * INR N / 2 - dt) N in
    let ti0 := map (fun k => Cmod (ta k) ^ 2) (seq 0 N) in
    let tp0 := map (unwrap (fun k => - angle (ta k))) (seq 0 N) in
    crop_data cwl time (map (fun v => v / rmaxl ti0) ti0) (map (fun p => p - vget tp0 (argmin (map Rabs time))) tp0) lo hi = Ok d.
Proof.
  intros H A P Ls Lp Hdt. unfold spectral_core in H. rewrite (mean_eq wl si Ls) in H. cbn zeta in H. cbn zeta. remember (weighted_mean wl si) as cwl eqn:Ec.
  destruct wl as [|w0 wl'] eqn:Ew; [discriminate|]. rewrite <- Ew in *. assert (Hne : wl <> []) by (rewrite Ew; discriminate). clear Ew w0 wl' Ec.
  pose proof (nearest_argmin wl cwl Hne) as Ha. set (a := argmin (map (fun w => Rabs (w - cwl)) wl)) in *.
  destruct (S a <? length wl)%nat eqn:Ea; [|discriminate]. apply Nat.ltb_lt in Ea.
  set (Nz := py_int (1 / dt / Rabs (c_light / vget wl a - c_light / vget wl (S a)))) in *.
  destruct (Z.leb Nz 0) eqn:En; [discriminate|]. apply Z.leb_gt in En.
  set (N := Z.to_nat Nz) in *. assert (HN : (0 < N)%nat) by (unfold N; lia).
  destruct (spectral_field _ _ _ _) as [spec|e] eqn:Es; [|discriminate]. cbn [bind] in H.
  unfold spectral_field in Es. cbn zeta in Es. set (fx := map (fun w => c_light / w) (rev wl)) in *. set (fr := linspace _ _ N) in *.
  assert (Lfr : length fr = N) by apply linspace_length.
  destruct (seq_res (map (np_interp0 fx (rev si)) fr)) as [fi|] eqn:E1; [|discriminate]. cbn [bind] in Es.
  destruct (seq_res (map (np_interp0 fx (rev ph)) fr)) as [fp|] eqn:E2; [|discriminate]. cbn [bind] in Es. injection Es as Es.
  destruct (seq_res_inv _ _ 0 E1) as [L1 Q1]. destruct (seq_res_inv _ _ 0 E2) as [L2 Q2]. rewrite map_length, Lfr in L1, L2, Q1, Q2.
  assert (Lspec : length spec = N) by (rewrite <- Es, map2_length by lia; lia).
  assert (Hgap : 0 < c_light / vget wl a - c_light / vget wl (S a)).
  { pose proof (ascending_nth wl A a (S a) ltac:(lia)) as Q. pose proof (P a ltac:(lia)). pose proof c_light_pos.
    assert (c_light / vget wl (S a) < c_light / vget wl a); [|lra]. unfold Rdiv. apply Rmult_lt_compat_l; [assumption|]. apply Rinv_lt_contravar; [apply Rmult_lt_0_compat; lra|exact Q]. }
  exists N, (vget fi), (vget fp), (t_amplitude dt spec). cbn zeta. split; [exact HN|]. split; [|split; [|split]].
  - exists a. split; [exact Ha|]. split; [exact Ea|]. assert (Ez : INR N = IZR Nz) by (unfold N; rewrite INR_IZR_INZ, Z2Nat.id by lia; reflexivity).
    rewrite Ez. unfold Nz, py_int. rewrite Rabs_pos_eq by lra.
    set (x := 1 / dt / (c_light / vget wl a - c_light / vget wl (S a))) in *.
    assert (Hx : 0 <= x).
    { unfold x, Rdiv. apply Rmult_le_pos; [apply Rmult_le_pos; [lra|]|]; apply Rlt_le, Rinv_0_lt_compat; assumption. }
    rewrite (proj2 (Rleb_true 0 x) Hx). pose proof (Rfloor_bounds x). lra.
  - intros q Hq. assert (S2 : (2 <= length wl)%nat) by lia. split.
    + apply interp0_value; try assumption. specialize (Q1 q Hq). rewrite (nth_indep _ _ (np_interp0 fx (rev si) 0)) in Q1 by (rewrite map_length; lia).
      rewrite map_nth in Q1. exact Q1.
    + apply interp0_value; try assumption. specialize (Q2 q Hq). rewrite (nth_indep _ _ (np_interp0 fx (rev ph) 0)) in Q2 by (rewrite map_length; lia).
      rewrite map_nth in Q2. exact Q2.
  - intros k. unfold t_amplitude. cbn zeta. rewrite Lspec, shifted_ifft by exact HN. unfold dft_at.
    rewrite (csum_ext N (fun q => Cmult (nth q spec (RtoC 0)) _) (fun q => Cmult (spec_pt (vget fi) (vget fp) q) (cis (2 * PI * ((INR q - INR (N / 2)) * (INR k - INR (N / 2))) / INR N)))).
    + unfold Cdiv. rewrite <- RtoC_inv by lra. pose proof (INR_neq0 N HN). rewrite Rinv_mult, RtoC_mult. ring.
    + intros q Hq. f_equal. rewrite <- Es. rewrite (map2_nth _ fi fp q 0 0 (RtoC 0)) by lia. reflexivity.
  - exact H.
Qed.
(** ** The profile *)
Lemma div_nn a b : 0 <= a -> 0 < b -> 0 <= a / b.
Proof. intros. unfold Rdiv. apply Rmult_le_pos; [assumption|]. apply Rlt_le, Rinv_0_lt_compat. assumption. Qed.
Lemma Ok_inj {A} (a b : A) : Ok a = Ok b -> a = b.
Proof. intros H. injection H as H. exact H. Qed.
Lemma np_interp_range xp fp t v l h : np_interp xp fp t = Ok v -> ascending xp = true ->
  (forall i, (i < length fp)%nat -> l <= vget fp i <= h) -> l <= v <= h.
Proof.
  unfold np_interp, np_interp_with. intros H A B. destruct xp as [|x0 xp]; [discriminate|].
  destruct (length (x0 :: xp) =? length fp)%nat eqn:E; [|discriminate]. apply Nat.eqb_eq in E. apply Ok_inj in H. subst v.
  assert (L : (0 < length fp)%nat) by (rewrite <- E; cbn; lia).
  destruct (Rltb t x0) eqn:E1; [apply B; exact L|]. assert (Bl : l <= last fp 0 <= h) by (rewrite last_vget; apply B; lia).
  destruct (Rltb (last (x0 :: xp) 0) t) eqn:E2; [exact Bl|]. destruct (Reqb t (last (x0 :: xp) 0)) eqn:E3; [exact Bl|].
  assert (N1 : x0 <= t) by (destruct (Rlt_dec t x0) as [Q|Q]; [apply Rltb_true in Q; congruence|lra]).
  assert (N2 : t <= last (x0 :: xp) 0) by (destruct (Rlt_dec (last (x0 :: xp) 0) t) as [Q|Q]; [apply Rltb_true in Q; congruence|lra]).
  assert (N3 : t <> last (x0 :: xp) 0) by (intros Q; apply Reqb_true in Q; congruence).
  apply interp1_between; try assumption.
  - destruct xp as [|x1 xp]; [cbn in N2, N3; lra|cbn; lia].
  - unfold in_axis. apply andb_true_intro. rewrite !Rleb_true. split; [exact N1|exact N2].
  - intros i Hi. apply B. lia.
Qed.
Lemma half_div N : INR N / 2 = INR (N / 2) + (if Nat.even N then 0 else / 2).
Proof.
  pose proof (Nat.div_mod N 2 ltac:(lia)) as E. destruct (Nat.even N) eqn:V.
  - apply Nat.even_spec in V. destruct V as (m & ->). rewrite Nat.mul_comm, Nat.div_mul by lia. rewrite mult_INR. simpl (INR 2). lra.
  - assert (O : Nat.odd N = true) by (unfold Nat.odd; rewrite V; reflexivity). apply Nat.odd_spec in O. destruct O as (m & ->).
    replace ((2 * m + 1) / 2)%nat with m by (rewrite Nat.add_comm, Nat.mul_comm, Nat.div_add by lia; reflexivity).
    rewrite plus_INR, mult_INR. simpl (INR 2). simpl (INR 1). lra.
Qed.
Section Spectral.
Variables (N : nat) (I P : nat -> R) (ta : nat -> C) (dt cwl lo hi : R) (d : long_data).
Hypothesis (HN : (0 < N)%nat) (Hdt : 0 < dt).
Hypothesis (Hta : forall k, ta k = Cmult (RtoC (/ (INR N * dt))) (dft_at N I P k)).
Let time := linspace (- dt * INR N / 2) (dt * INR N / 2 - dt) N.
Let ti0 := map (fun k => Cmod (ta k) ^ 2) (seq 0 N).
Let tp0 := map (unwrap (fun k => - angle (ta k))) (seq 0 N).
Let ti := map (fun v => v / rmaxl ti0) ti0.
Let tp := map (fun p => p - vget tp0 (argmin (map Rabs time))) tp0.
Hypothesis (Hd : crop_data cwl time ti tp lo hi = Ok d).
Let M := rmaxl ti0.
Let h := (N / 2)%nat.

Lemma s_time_len : length time = N. Proof. apply linspace_length. Qed.
Lemma s_ti0_at k : (k < N)%nat -> vget ti0 k = Cmod (ta k) ^ 2.
Proof. intros H. unfold ti0, vget. rewrite (nth_indep _ 0 (Cmod (ta 0) ^ 2)) by (rewrite map_length, seq_length; exact H).
  rewrite (map_nth (fun k => Cmod (ta k) ^ 2)). rewrite seq_nth by exact H. reflexivity. Qed.
Lemma s_tp0_at k : (k < N)%nat -> vget tp0 k = unwrap (fun k => - angle (ta k)) k.
Proof. intros H. unfold tp0, vget. rewrite (nth_indep _ 0 (unwrap (fun k => - angle (ta k)) 0)) by (rewrite map_length, seq_length; exact H).
  rewrite (map_nth (unwrap (fun k => - angle (ta k)))). rewrite seq_nth by exact H. reflexivity. Qed.
Lemma s_len0 : length ti0 = N. Proof. unfold ti0. rewrite map_length, seq_length. reflexivity. Qed.
Lemma s_lenp0 : length tp0 = N. Proof. unfold tp0. rewrite map_length, seq_length. reflexivity. Qed.
Lemma s_ti_len : length ti = N. Proof. unfold ti. rewrite map_length. apply s_len0. Qed.
Lemma s_tp_len : length tp = N. Proof. unfold tp. rewrite map_length. apply s_lenp0. Qed.
Lemma s_ti_at k : (k < N)%nat -> vget ti k = Cmod (ta k) ^ 2 / M.
Proof. intros H. unfold ti. rewrite (vget_map (fun v => v / rmaxl ti0)) by (rewrite s_len0; exact H). rewrite s_ti0_at by exact H. reflexivity. Qed.
Lemma s_M_ge k : (k < N)%nat -> Cmod (ta k) ^ 2 <= M.
Proof. intros H. apply rmaxl_ge. unfold ti0. apply in_map_iff. exists k. split; [reflexivity|]. apply in_seq. lia. Qed.
Lemma s_M_at : exists k, (k < N)%nat /\ Cmod (ta k) ^ 2 = M.
Proof.
  assert (H : In M ti0) by (apply rmaxl_in; intros E; pose proof s_len0 as L; rewrite E in L; cbn in L; lia).
  unfold ti0 in H. apply in_map_iff in H. destruct H as (k & E & Hk). apply in_seq in Hk. exists k. split; [lia|exact E].
Qed.
Lemma s_M_nn : 0 <= M.
Proof. destruct s_M_at as (k & _ & <-). apply pow2_ge_0. Qed.
Lemma s_ti_range k : (k < N)%nat -> 0 <= vget ti k <= 1.
Proof.
  intros H. rewrite s_ti_at by exact H. pose proof (s_M_ge k H) as G. pose proof (pow2_ge_0 (Cmod (ta k))) as Z. destruct (Req_dec M 0) as [E|E].
  - rewrite E in *. replace (Cmod (ta k) ^ 2) with 0 by lra. unfold Rdiv. rewrite Rmult_0_l. lra.
  - pose proof s_M_nn. split; [apply div_nn; lra|]. apply (Rmult_le_reg_r M); [lra|]. unfold Rdiv. rewrite Rmult_assoc, Rinv_l by exact E. lra.
Qed.
Lemma s_time_at k : (2 <= N)%nat -> (k < N)%nat -> vget time k = sample_time dt N k.
Proof.
  intros H2 Hk. unfold time. rewrite linspace_coord by assumption. unfold coord, sample_time. pose proof (INR_m1_neq0 N H2). field. exact H.
Qed.
Lemma s_asc : (2 <= N)%nat -> ascending time = true.
Proof.
  intros H2. apply linspace_ascending; [|exact H2]. assert (2 <= INR N) by (apply (le_INR 2); exact H2). nra.
Qed.
Lemma s_h_lt : (h < N)%nat. Proof. apply Nat.div_lt; lia. Qed.
Lemma s_k0 : (2 <= N)%nat -> argmin (map Rabs time) = h.
Proof.
  intros H2. assert (Hne : time <> []) by (intros E; pose proof s_time_len as L; rewrite E in L; cbn in L; lia).
  rewrite (map_ext Rabs (fun t => Rabs (t - 0))) by (intros; f_equal; ring).
  apply (nearest_unique time 0); [apply nearest_argmin; exact Hne|].
  pose proof s_h_lt as Hh. pose proof (half_div N) as Q. unfold nearest. rewrite s_time_len. split; [exact Hh|]. split.
  - intros q Hq. rewrite !s_time_at, !Rminus_0_r by assumption. unfold sample_time. rewrite !Rabs_mult, (Rabs_pos_eq dt) by lra. apply Rmult_le_compat_r; [lra|].
    rewrite Q. fold h. destruct (Nat.even N).
    + replace (INR h - (INR h + 0)) with 0 by ring. rewrite Rabs_R0. apply Rabs_pos.
    + replace (INR h - (INR h + / 2)) with (- / 2) by ring. rewrite Rabs_Ropp, (Rabs_pos_eq (/ 2)) by lra.
      destruct (le_lt_dec q h) as [L|L].
      * apply le_INR in L. rewrite Rabs_left1 by lra. lra.
      * apply (le_INR (S h)) in L. rewrite S_INR in L. rewrite Rabs_pos_eq by lra. lra.
  - intros q Hq. rewrite !s_time_at, !Rminus_0_r by lia. unfold sample_time. rewrite !Rabs_mult, (Rabs_pos_eq dt) by lra. apply Rmult_lt_compat_r; [lra|].
    rewrite Q. fold h. apply (le_INR (S q)) in Hq. rewrite S_INR in Hq. destruct (Nat.even N).
    + replace (INR h - (INR h + 0)) with 0 by ring. rewrite Rabs_R0, Rabs_left by lra. lra.
    + replace (INR h - (INR h + / 2)) with (- / 2) by ring. rewrite Rabs_Ropp, (Rabs_pos_eq (/ 2)), Rabs_left by lra. lra.
Qed.
Lemma s_temporal : long_temporal time ti (Some tp) cwl lo hi = Ok d. Proof. exact Hd. Qed.
Lemma s_d : exists a b, nearest time lo a /\ nearest time hi b /\ d = mkLD cwl (slice time a b) (slice ti a b) (slice tp a b).
Proof.
  assert (Hne : time <> []) by (intros E; pose proof s_time_len as L; rewrite E in L; cbn in L; lia).
  exists (argmin (map (fun t => Rabs (t - lo)) time)), (argmin (map (fun t => Rabs (t - hi)) time)).
  split; [apply nearest_argmin; exact Hne|]. split; [apply nearest_argmin; exact Hne|].
  apply (temporal_inv time ti (Some tp) cwl lo hi d); [exact Hd|apply nearest_argmin; exact Hne|apply nearest_argmin; exact Hne].
Qed.
(** |E| <= 1 *)
Lemma s_bound t e : long_evaluate d t = Ok e -> Cmod e <= 1.
Proof.
  destruct s_d as (a & b & Ha & Hb & ->). destruct Hb as [Hb _]. rewrite s_time_len in Hb. unfold long_evaluate. cbn [ld_time ld_int ld_phase]. intros H.
  destruct (np_interp (slice time a b) (slice ti a b) t) as [v|] eqn:Ev; [|discriminate]. cbn [bind] in H.
  destruct (np_interp (slice time a b) (slice tp a b) t) as [p|] eqn:Ep; [|discriminate]. cbn [bind] in H. injection H as <-.
  assert (R : 0 <= v <= 1).
  { apply (np_interp_range _ _ _ _ _ _ Ev).
    - destruct (le_lt_dec 2 N) as [L|L].
      + apply slice_ascending; [apply s_asc; exact L|rewrite s_time_len; lia].
      + assert (N = 1)%nat by lia. assert (b = 0)%nat by lia. subst b. reflexivity.
    - rewrite slice_length by (rewrite s_ti_len; lia). intros i Hi. rewrite slice_nth by exact Hi. apply s_ti_range. lia. }
  rewrite Cmod_mult, Cmod_cis, Cmod_R, Rmult_1_r. rewrite Rabs_pos_eq by apply sqrt_pos. rewrite <- sqrt_1. apply sqrt_le_1; lra.
Qed.
(** At the retained samples *)
Definition Kc : C := Cmult (RtoC (/ (sqrt M * (INR N * dt)))) (cis (vget tp0 h)).
Lemma s_in t : In t (ld_time d) -> (2 <= N)%nat.
Proof.
  destruct s_d as (a & b & Ha & [Hb _] & ->). rewrite s_time_len in Hb. cbn [ld_time]. intros H. destruct (le_lt_dec 2 N); [assumption|].
  assert (b = 0)%nat by lia. subst b. destruct H.
Qed.
Lemma s_node k : (k < N)%nat -> In (vget time k) (ld_time d) -> 0 < M -> long_evaluate d (vget time k) = Ok (Cmult Kc (dft_at N I P k)).
Proof.
  intros Hk Hin HM. pose proof (s_in _ Hin) as H2. destruct s_d as (a & b & Ha & Hb & Ed).
  assert (Hr : (a <= k < b)%nat).
  { rewrite Ed in Hin. cbn [ld_time] in Hin. pose proof (proj1 Hb) as Lb. apply (In_nth _ _ 0) in Hin. destruct Hin as (i & Hi & E).
    rewrite slice_length in Hi by lia. change (vget (slice time a b) i = vget time k) in E. rewrite slice_nth in E by exact Hi.
    assert (a + i = k)%nat; [|lia]. destruct (Nat.lt_trichotomy (a + i) k) as [L|[L|L]]; [|exact L|]; exfalso.
    - pose proof (ascending_nth _ (s_asc H2) (a + i) k ltac:(rewrite s_time_len; lia)). lra.
    - pose proof (ascending_nth _ (s_asc H2) k (a + i) ltac:(lia)). lra. }
  rewrite (c47_nodes time ti (Some tp) cwl lo hi d a b Hd Ha Hb (s_asc H2)); [|rewrite s_ti_len, s_time_len; reflexivity| |exact Hr|apply s_ti_range; exact Hk].
  2:{ intros p E. injection E as <-. rewrite s_tp_len, s_time_len. reflexivity. }
  f_equal. cbn [phase_at]. unfold tp. rewrite (vget_map (fun p => p - vget tp0 (argmin (map Rabs time)))) by (rewrite s_lenp0; exact Hk).
  rewrite s_k0 by exact H2. rewrite (s_tp0_at k Hk). rewrite s_ti_at by exact Hk.
  replace (- (unwrap (fun k0 => - angle (ta k0)) k - vget tp0 h)) with (- unwrap (fun k0 => - angle (ta k0)) k + vget tp0 h) by ring.
  rewrite cis_plus. rewrite (cis_opp (unwrap _ k)), cis_unwrap, <- cis_opp, Ropp_involutive.
  rewrite sqrt_div_alt by exact HM. rewrite sqrt_pow2 by apply Cmod_ge_0. unfold Rdiv. rewrite RtoC_mult.
  transitivity (Cmult (Cmult (RtoC (/ sqrt M)) (cis (vget tp0 h))) (ta k)).
  - rewrite <- (angle_polar (ta k)) at 3. ring.
  - rewrite Hta. unfold Kc. assert (sqrt M <> 0) by (pose proof (sqrt_lt_R0 M HM); lra). pose proof (INR_neq0 N HN).
    rewrite (Rinv_mult (sqrt M)). rewrite RtoC_mult. ring.
Qed.
(** Normalisation *)
Lemma s_mod k : Cmod (ta k) = / (INR N * dt) * Cmod (dft_at N I P k).
Proof.
  rewrite Hta, Cmod_mult, Cmod_R, Rabs_pos_eq; [reflexivity|]. pose proof (INR_pos N HN). apply Rlt_le, Rinv_0_lt_compat. nra.
Qed.
Lemma s_Kmod k : 0 < M -> Cmod (Cmult Kc (dft_at N I P k)) = Cmod (ta k) / sqrt M.
Proof.
  intros HM. rewrite s_mod. unfold Kc. rewrite !Cmod_mult, Cmod_cis, Cmod_R. pose proof (sqrt_lt_R0 M HM). pose proof (INR_pos N HN).
  assert (0 < INR N * dt) by nra.
  rewrite Rabs_pos_eq by (apply Rlt_le, Rinv_0_lt_compat, Rmult_lt_0_compat; assumption). field. repeat split; lra.
Qed.
Lemma s_le1 k : (k < N)%nat -> 0 < M -> Cmod (Cmult Kc (dft_at N I P k)) <= 1.
Proof.
  intros Hk HM. rewrite s_Kmod by exact HM. pose proof (s_M_ge k Hk) as G. pose proof (sqrt_lt_R0 M HM).
  apply (Rmult_le_reg_r (sqrt M)); [assumption|]. unfold Rdiv. rewrite Rmult_assoc, Rinv_l, Rmult_1_r, Rmult_1_l by lra.
  rewrite <- (sqrt_pow2 (Cmod (ta k))) by apply Cmod_ge_0. apply sqrt_le_1; [apply pow2_ge_0|lra|exact G].
Qed.
Lemma s_eq1 : 0 < M -> exists k, (k < N)%nat /\ Cmod (Cmult Kc (dft_at N I P k)) = 1.
Proof.
  intros HM. destruct s_M_at as (k & Hk & E). exists k. split; [exact Hk|]. rewrite s_Kmod by exact HM.
  rewrite <- (sqrt_pow2 (Cmod (ta k))) by apply Cmod_ge_0. rewrite E. pose proof (sqrt_lt_R0 M HM). field. lra.
Qed.
Lemma s_real : 0 < M -> exists r, 0 <= r /\ Cmult Kc (dft_at N I P h) = RtoC r.
Proof.
  intros HM. exists (Cmod (ta h) / sqrt M). pose proof (sqrt_lt_R0 M HM). pose proof (INR_pos N HN). split; [apply div_nn; [apply Cmod_ge_0|assumption]|].
  assert (E : dft_at N I P h = Cmult (RtoC (INR N * dt)) (ta h)).
  { rewrite Hta. rewrite Cmult_assoc, <- RtoC_mult, Rinv_r by nra. ring. }
  rewrite E. rewrite <- (angle_polar (ta h)) at 1. unfold Kc. rewrite s_tp0_at by apply s_h_lt. rewrite cis_unwrap, cis_opp.
  transitivity (Cmult (Cmult (RtoC (/ (sqrt M * (INR N * dt)) * (INR N * dt))) (RtoC (Cmod (ta h)))) (Cmult (cis (angle (ta h))) (Cconj (cis (angle (ta h)))))).
  - rewrite !RtoC_mult. ring.
  - rewrite <- Cnorm2_conj, Cnorm2_cis. rewrite <- !RtoC_mult. f_equal. field. split; lra.
Qed.
(** Something is left if some spectral sample is not zero. *)
Lemma s_M_pos q : (q < N)%nat -> 0 < I q -> 0 < M.
Proof.
  intros Hq HI. destruct (Rlt_dec 0 M) as [L|L]; [exact L|]. exfalso.
  assert (Z : forall k, (k < N)%nat -> ta k = RtoC 0).
  { intros k Hk. apply Cmod_eq_0. pose proof (s_M_ge k Hk). pose proof (Cmod_ge_0 (ta k)). simpl in H. nra. }
  (* synthesis is injective *)
  assert (D : forall k, (k < N)%nat -> ifft1 N (ifftshift1 N (spec_pt I P)) k = RtoC 0).
  { intros k Hk. pose proof (shifted_ifft N (spec_pt I P) (roll_index N (- Z.of_nat (N / 2)) k) HN) as E. unfold fftshift1 in E at 1.
    rewrite roll_inv' in E by exact Hk. rewrite E. fold (dft_at N I P (roll_index N (- Z.of_nat (N / 2)) k)).
    pose proof (Z (roll_index N (- Z.of_nat (N / 2)) k) (roll_lt N _ k HN)) as Q. rewrite Hta in Q.
    pose proof (INR_pos N HN). replace (RtoC (/ INR N)) with (Cmult (RtoC dt) (RtoC (/ (INR N * dt)))).
    - rewrite <- Cmult_assoc, Q. ring.
    - rewrite <- RtoC_mult. f_equal. field. lra. }
  assert (F : ifftshift1 N (spec_pt I P) (roll_index N (Z.of_nat (N / 2)) q) = RtoC 0).
  { rewrite <- (fft_ifft1 N _ (roll_index N (Z.of_nat (N / 2)) q)) by (apply roll_lt; exact HN). rewrite (fft1_ext N _ (fun _ => RtoC 0)) by exact D.
    unfold fft1. apply csum_zero. intros. ring. }
  unfold ifftshift1 in F. rewrite roll_inv in F by exact Hq. unfold spec_pt in F. apply (f_equal Cmod) in F.
  rewrite Cmod_mult, Cmod_cis, Cmod_R, Cmod_0, Rmult_1_r in F. pose proof (sqrt_lt_R0 _ HI). rewrite Rabs_pos_eq in F; lra.
Qed.
(** No phase: the maximum is at the centre. *)
Lemma s_centre : (forall q, (q < N)%nat -> P q = 0) -> 0 < M -> Cmult Kc (dft_at N I P h) = RtoC 1.
Proof.
  intros HP HM. destruct (s_real HM) as (r & Hr & E). rewrite E. f_equal.
  assert (Cm : Cmod (Cmult Kc (dft_at N I P h)) = r) by (rewrite E, Cmod_R, Rabs_pos_eq by exact Hr; reflexivity).
  apply Rle_antisym; [rewrite <- Cm; apply s_le1; [apply s_h_lt|exact HM]|].
  destruct (s_eq1 HM) as (k & Hk & E1). rewrite <- E1, <- Cm. rewrite !Cmod_mult. apply Rmult_le_compat_l; [apply Cmod_ge_0|].
  assert (Eh : dft_at N I P h = RtoC (rsum N (fun q => sqrt (I q)))).
  { rewrite <- csum_RtoC. unfold dft_at. apply csum_ext. intros q Hq. unfold spec_pt. rewrite HP by exact Hq. fold h.
    replace (2 * PI * ((INR q - INR h) * (INR h - INR h)) / INR N) with 0 by (unfold Rdiv; ring). rewrite Ropp_0, cis_0. ring. }
  rewrite Eh, Cmod_R, Rabs_pos_eq by (apply rsum_nonneg; intros; apply sqrt_pos). unfold dft_at.
  eapply Rle_trans; [apply Cmod_csum|]. apply rsum_le. intros q Hq. unfold spec_pt. rewrite !Cmod_mult, !Cmod_cis, Cmod_R, Rabs_pos_eq by apply sqrt_pos. lra.
Qed.
End Spectral.
