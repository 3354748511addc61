(** Convergence of the sampled energy to the energy of the continuous envelope (C86). *)
From Coquelicot Require Import Coquelicot.
From Verif Require Import PyBase CSum LaserSpec ConvergeSpec ZernikeOrtho LGOrtho.
Open Scope R_scope.

Definition riem (f : R -> R) (lo hi : R) (n : nat) : R := spacing lo hi n * rsum n (fun i => f (coord lo hi n i)).
Definition lip1 (K lo hi : R) (f : R -> R) : Prop :=
  forall x x', lo <= x <= hi -> lo <= x' <= hi -> Rabs (f x - f x') <= K * Rabs (x - x').
Definition bnd1 (B lo hi : R) (f : R -> R) : Prop := forall x, lo <= x <= hi -> Rabs (f x) <= B.

Lemma spacing_pos lo hi n : lo < hi -> (2 <= n)%nat -> 0 < spacing lo hi n.
Proof. intros H Hn. unfold spacing. apply Rdiv_lt_0_compat; [lra|]. apply le_INR in Hn. simpl in Hn. lra. Qed.
Lemma coord_S lo hi n i : coord lo hi n (S i) = coord lo hi n i + spacing lo hi n.
Proof. unfold coord, spacing. rewrite S_INR. ring. Qed.
Lemma coord_0 lo hi n : coord lo hi n 0 = lo.
Proof. unfold coord. simpl. ring. Qed.
Lemma coord_last lo hi m : (1 <= m)%nat -> coord lo hi (S m) m = hi.
Proof. intros H. unfold coord. rewrite S_INR. apply le_INR in H. simpl in H. field. lra. Qed.
Lemma coord_in lo hi n i : lo < hi -> (2 <= n)%nat -> (i < n)%nat -> lo <= coord lo hi n i <= hi.
Proof.
  intros H Hn Hi. destruct n as [|m]; [lia|]. rewrite <- (coord_last lo hi m) at 3 by lia.
  pose proof (spacing_pos lo hi (S m) H Hn) as P. unfold coord. fold (spacing lo hi (S m)).
  set (h := spacing lo hi (S m)) in *. pose proof (pos_INR i).
  assert (INR i <= INR m) by (apply le_INR; lia). split; nra.
Qed.

Definition clip (lo hi x : R) : R := Rmax lo (Rmin hi x).
Lemma clip_in lo hi x : lo <= hi -> lo <= clip lo hi x <= hi.
Proof. intros H. unfold clip, Rmax, Rmin. repeat destruct Rle_dec; lra. Qed.
Lemma clip_id lo hi x : lo <= x <= hi -> clip lo hi x = x.
Proof. intros H. unfold clip, Rmax, Rmin. repeat destruct Rle_dec; lra. Qed.
Lemma clip_lip lo hi x y : Rabs (clip lo hi x - clip lo hi y) <= Rabs (x - y).
Proof. unfold clip, Rmax, Rmin. repeat destruct Rle_dec; unfold Rabs; repeat destruct Rcase_abs; lra. Qed.

Lemma lip_continuous K f : (forall x y, Rabs (f x - f y) <= K * Rabs (x - y)) -> forall x, continuous f x.
Proof.
  intros H x. apply continuity_pt_filterlim. intros eps He. exists (eps / (Rabs K + 1)).
  pose proof (Rabs_pos K). split; [apply Rdiv_lt_0_compat; lra|].
  intros y (_ & Hy). simpl in *. unfold R_dist in *. eapply Rle_lt_trans; [apply H|].
  apply Rle_lt_trans with (Rabs K * Rabs (y - x)).
  { apply Rmult_le_compat_r; [apply Rabs_pos|apply Rle_abs]. }
  assert (Hy' : (Rabs K + 1) * Rabs (y - x) < eps).
  { apply (Rmult_lt_compat_l (Rabs K + 1)) in Hy; [|lra]. replace ((Rabs K + 1) * (eps / (Rabs K + 1))) with eps in Hy by (field; lra). exact Hy. }
  pose proof (Rabs_pos (y - x)). lra.
Qed.
Lemma lip_ex K lo hi f a b : lo <= a <= hi -> lo <= b <= hi -> 0 <= K -> lip1 K lo hi f -> ex_RInt f a b.
Proof.
  intros Ha Hb HK H. apply (ex_RInt_ext (fun x => f (clip lo hi x))).
  - intros x Hx. f_equal. apply clip_id. unfold Rmin, Rmax in Hx. destruct (Rle_dec a b); lra.
  - apply (@ex_RInt_continuous R_CompleteNormedModule). intros z _. apply (lip_continuous K). intros x y.
    eapply Rle_trans; [apply H; apply clip_in; lra|]. apply Rmult_le_compat_l; [exact HK|apply clip_lip].
Qed.
Lemma lip_mono K K' lo hi f : K <= K' -> lip1 K lo hi f -> lip1 K' lo hi f.
Proof.
  intros HK H x y Hx Hy. eapply Rle_trans; [apply H; assumption|]. apply Rmult_le_compat_r; [apply Rabs_pos|exact HK].
Qed.

Lemma RInt_close f g a b e : a <= b -> ex_RInt f a b -> ex_RInt g a b ->
  (forall x, a <= x <= b -> Rabs (f x - g x) <= e) -> Rabs (RInt f a b - RInt g a b) <= (b - a) * e.
Proof.
  intros Hab Hf Hg H.
  assert (E : RInt f a b - RInt g a b = RInt (fun x => f x - g x) a b).
  { symmetry. apply (@RInt_minus R_CompleteNormedModule); assumption. }
  rewrite E. apply abs_RInt_le_const; [exact Hab| |exact H].
  apply (@ex_RInt_minus R_NormedModule); assumption.
Qed.
Lemma RInt_bnd f a b B : a <= b -> ex_RInt f a b -> bnd1 B a b f -> Rabs (RInt f a b) <= (b - a) * B.
Proof. intros. apply abs_RInt_le_const; assumption. Qed.

Lemma RInt_cells f lo hi n K m : lo < hi -> (2 <= n)%nat -> 0 <= K -> lip1 K lo hi f -> (m < n)%nat ->
  RInt f lo (coord lo hi n m) = rsum m (fun i => RInt f (coord lo hi n i) (coord lo hi n (S i))).
Proof.
  intros H Hn HK L. induction m as [|m IH]; intros Hm.
  - rewrite coord_0. simpl. exact (RInt_point lo f).
  - cbn [rsum]. rewrite <- IH by lia. symmetry. apply (@RInt_Chasles R_CompleteNormedModule).
    + apply (lip_ex K lo hi); try assumption; [lra|apply coord_in; auto; lia].
    + apply (lip_ex K lo hi); try assumption; apply coord_in; auto; lia.
Qed.

Lemma riem_RInt f lo hi n K B : lo < hi -> (2 <= n)%nat -> 0 <= K -> lip1 K lo hi f -> bnd1 B lo hi f ->
  Rabs (riem f lo hi n - RInt f lo hi) <= (K * (hi - lo) + B) * spacing lo hi n.
Proof.
  intros H Hn HK L HB. destruct n as [|m]; [lia|].
  pose proof (RInt_cells f lo hi (S m) K m H Hn HK L ltac:(lia)) as E. rewrite coord_last in E by lia.
  rewrite E. unfold riem. cbn [rsum]. rewrite coord_last by lia.
  pose proof (spacing_pos lo hi (S m) H Hn) as P. set (h := spacing lo hi (S m)) in *.
  rewrite Rmult_plus_distr_l, <- rsum_scal_l.
  set (A := rsum m _). set (D := rsum m (fun i => RInt f _ _)).
  assert (HA : Rabs (A - D) <= K * (hi - lo) * h).
  { unfold A, D. rewrite <- rsum_minus. eapply Rle_trans; [apply rsum_abs|].
    apply Rle_trans with (rsum m (fun _ => h * (K * h))).
    - apply rsum_le. intros i Hi.
      assert (E1 : h * f (coord lo hi (S m) i) = RInt (fun _ => f (coord lo hi (S m) i)) (coord lo hi (S m) i) (coord lo hi (S m) (S i))).
      { rewrite (RInt_const (V := R_CompleteNormedModule)). rewrite coord_S. fold h.
        replace (coord lo hi (S m) i + h - coord lo hi (S m) i) with h by ring. reflexivity. }
      rewrite E1. clear E1.
      pose proof (coord_in lo hi (S m) i H Hn ltac:(lia)) as I1.
      pose proof (coord_in lo hi (S m) (S i) H Hn ltac:(lia)) as I2.
      assert (I3 : coord lo hi (S m) (S i) = coord lo hi (S m) i + h) by apply coord_S.
      eapply Rle_trans; [apply (RInt_close _ _ _ _ (K * h))|].
      + lra.
      + apply ex_RInt_const.
      + apply (lip_ex K lo hi); assumption.
      + intros x Hx. eapply Rle_trans; [apply L; lra|]. apply Rmult_le_compat_l; [exact HK|].
        rewrite Rabs_left1; lra.
      + right. rewrite I3. ring.
    - rewrite rsum_const. right. unfold h, spacing. rewrite S_INR.
      assert (1 <= INR m) by (apply (le_INR 1); lia). field. lra. }
  replace (A + h * f hi - D) with ((A - D) + h * f hi) by ring.
  eapply Rle_trans; [apply Rabs_triang|].
  assert (Rabs (h * f hi) <= B * h).
  { rewrite Rabs_mult, (Rabs_right h) by lra. rewrite Rmult_comm. apply Rmult_le_compat_r; [lra|apply HB; lra]. }
  lra.
Qed.

Lemma spacing_n lo hi n : lo < hi -> (2 <= n)%nat -> spacing lo hi n * INR n <= 2 * (hi - lo).
Proof.
  intros H Hn. apply le_INR in Hn. simpl in Hn. unfold spacing.
  apply (Rmult_le_reg_r (INR n - 1)); [lra|].
  replace ((hi - lo) / (INR n - 1) * INR n * (INR n - 1)) with ((hi - lo) * INR n) by (field; lra). nra.
Qed.
Lemma riem_close f g lo hi n e : lo < hi -> (2 <= n)%nat -> 0 <= e ->
  (forall x, lo <= x <= hi -> Rabs (f x - g x) <= e) -> Rabs (riem f lo hi n - riem g lo hi n) <= 2 * (hi - lo) * e.
Proof.
  intros H Hn He Hx. unfold riem. rewrite <- Rmult_minus_distr_l, <- rsum_minus.
  pose proof (spacing_pos lo hi n H Hn) as P. rewrite Rabs_mult, (Rabs_right (spacing lo hi n)) by lra.
  apply Rle_trans with (spacing lo hi n * (INR n * e)).
  - apply Rmult_le_compat_l; [lra|]. eapply Rle_trans; [apply rsum_abs|]. rewrite <- rsum_const.
    apply rsum_le. intros i Hi. apply Hx, coord_in; assumption.
  - rewrite <- Rmult_assoc. apply Rmult_le_compat_r; [exact He|apply spacing_n; assumption].
Qed.

Lemma riem_step F G lo hi n K B e : lo < hi -> (2 <= n)%nat -> 0 <= e -> 0 <= K ->
  (forall x, lo <= x <= hi -> Rabs (G x - F x) <= e) -> lip1 K lo hi F -> bnd1 B lo hi F ->
  Rabs (riem G lo hi n - RInt F lo hi) <= 2 * (hi - lo) * e + (K * (hi - lo) + B) * spacing lo hi n.
Proof.
  intros H Hn He HK HG HL HB.
  replace (riem G lo hi n - RInt F lo hi) with ((riem G lo hi n - riem F lo hi n) + (riem F lo hi n - RInt F lo hi)) by ring.
  eapply Rle_trans; [apply Rabs_triang|]. apply Rplus_le_compat; [apply riem_close|apply riem_RInt]; assumption.
Qed.

Definition lip2 (K x0 x1 y0 y1 : R) (f : R -> R -> R) : Prop := forall x x' y y',
  x0 <= x <= x1 -> x0 <= x' <= x1 -> y0 <= y <= y1 -> y0 <= y' <= y1 ->
  Rabs (f x y - f x' y') <= K * (Rabs (x - x') + Rabs (y - y')).
Definition lip3 (K x0 x1 y0 y1 t0 t1 : R) (f : R -> R -> R -> R) : Prop := forall x x' y y' t t',
  x0 <= x <= x1 -> x0 <= x' <= x1 -> y0 <= y <= y1 -> y0 <= y' <= y1 -> t0 <= t <= t1 -> t0 <= t' <= t1 ->
  Rabs (f x y t - f x' y' t') <= K * (Rabs (x - x') + Rabs (y - y') + Rabs (t - t')).
Definition riem2 (f : R -> R -> R) x0 x1 y0 y1 nx ny : R := riem (fun x => riem (f x) y0 y1 ny) x0 x1 nx.
Definition RInt2 (f : R -> R -> R) x0 x1 y0 y1 : R := RInt (fun x => RInt (f x) y0 y1) x0 x1.

Lemma abs0 x : Rabs (x - x) = 0.
Proof. rewrite Rminus_diag_eq by reflexivity. apply Rabs_R0. Qed.
Lemma lip2_1 K x0 x1 y0 y1 f x : lip2 K x0 x1 y0 y1 f -> x0 <= x <= x1 -> lip1 K y0 y1 (f x).
Proof. intros H Hx y y' Hy Hy'. eapply Rle_trans; [apply H; assumption|]. rewrite abs0. right. ring. Qed.
Lemma inner_lip K x0 x1 y0 y1 f : y0 < y1 -> 0 <= K -> lip2 K x0 x1 y0 y1 f ->
  lip1 (K * (y1 - y0)) x0 x1 (fun x => RInt (f x) y0 y1).
Proof.
  intros Hy HK H x x' Hx Hx'. eapply Rle_trans; [apply (RInt_close _ _ _ _ (K * Rabs (x - x')))|].
  - lra.
  - apply (lip_ex K y0 y1); try lra. apply (lip2_1 _ _ _ _ _ _ _ H Hx).
  - apply (lip_ex K y0 y1); try lra. apply (lip2_1 _ _ _ _ _ _ _ H Hx').
  - intros y Hy'. eapply Rle_trans; [apply H; assumption|]. rewrite abs0. right. ring.
  - right. ring.
Qed.
Lemma inner_bnd K B x0 x1 y0 y1 f : y0 < y1 -> 0 <= K -> lip2 K x0 x1 y0 y1 f ->
  (forall x y, x0 <= x <= x1 -> y0 <= y <= y1 -> Rabs (f x y) <= B) ->
  bnd1 ((y1 - y0) * B) x0 x1 (fun x => RInt (f x) y0 y1).
Proof.
  intros Hy HK H HB x Hx. apply RInt_bnd; [lra| |intros y Hy'; apply HB; assumption].
  apply (lip_ex K y0 y1); try lra. apply (lip2_1 _ _ _ _ _ _ _ H Hx).
Qed.
Lemma riem2_RInt2 K B x0 x1 y0 y1 f nx ny : x0 < x1 -> y0 < y1 -> (2 <= nx)%nat -> (2 <= ny)%nat -> 0 <= K -> 0 <= B ->
  lip2 K x0 x1 y0 y1 f -> (forall x y, x0 <= x <= x1 -> y0 <= y <= y1 -> Rabs (f x y) <= B) ->
  Rabs (riem2 f x0 x1 y0 y1 nx ny - RInt2 f x0 x1 y0 y1) <=
  2 * (x1 - x0) * ((K * (y1 - y0) + B) * spacing y0 y1 ny)
  + (K * (y1 - y0) * (x1 - x0) + (y1 - y0) * B) * spacing x0 x1 nx.
Proof.
  intros Hx Hy Hnx Hny HK HB0 H HB. unfold riem2, RInt2. pose proof (spacing_pos y0 y1 ny Hy Hny).
  apply riem_step; try assumption.
  - apply Rmult_le_pos; [|lra]. apply Rplus_le_le_0_compat; [apply Rmult_le_pos; lra|exact HB0].
  - apply Rmult_le_pos; lra.
  - intros x Hx'. apply riem_RInt; try assumption; [apply (lip2_1 _ _ _ _ _ _ _ H Hx')|intros y Hy'; apply HB; assumption].
  - apply inner_lip; assumption.
  - apply (inner_bnd K); assumption.
Qed.

Ltac nn := repeat first [assumption | apply Rlt_le; assumption | apply Rmult_le_pos | match goal with |- 0 <= _ + _ => apply Rplus_le_le_0_compat end]; lra.
Definition riem3 (f : R -> R -> R -> R) x0 x1 y0 y1 t0 t1 nx ny nt : R :=
  riem (fun x => riem2 (f x) y0 y1 t0 t1 ny nt) x0 x1 nx.
Definition RInt3 (f : R -> R -> R -> R) x0 x1 y0 y1 t0 t1 : R :=
  RInt (fun x => RInt2 (f x) y0 y1 t0 t1) x0 x1.
Lemma lip3_yt K x0 x1 y0 y1 t0 t1 f x : lip3 K x0 x1 y0 y1 t0 t1 f -> x0 <= x <= x1 -> lip2 K y0 y1 t0 t1 (f x).
Proof. intros H Hx y y' t t' Hy Hy' Ht Ht'. eapply Rle_trans; [apply H; assumption|]. rewrite abs0. right. ring. Qed.
Lemma lip3_xy K x0 x1 y0 y1 t0 t1 f : t0 < t1 -> 0 <= K -> lip3 K x0 x1 y0 y1 t0 t1 f ->
  lip2 (K * (t1 - t0)) x0 x1 y0 y1 (fun x y => RInt (f x y) t0 t1).
Proof.
  intros Ht HK H x x' y y' Hx Hx' Hy Hy'.
  eapply Rle_trans; [apply (RInt_close _ _ _ _ (K * (Rabs (x - x') + Rabs (y - y'))))|].
  - lra.
  - apply (lip_ex K t0 t1); try lra. apply (lip2_1 K y0 y1 _ _ (f x)); [apply (lip3_yt _ _ _ _ _ _ _ _ _ H Hx)|assumption].
  - apply (lip_ex K t0 t1); try lra. apply (lip2_1 K y0 y1 _ _ (f x')); [apply (lip3_yt _ _ _ _ _ _ _ _ _ H Hx')|assumption].
  - intros t Ht'. eapply Rle_trans; [apply H; assumption|]. rewrite abs0. right. ring.
  - right. ring.
Qed.
Lemma riem3_RInt3 K x0 x1 y0 y1 t0 t1 f : x0 < x1 -> y0 < y1 -> t0 < t1 -> 0 <= K ->
  lip3 K x0 x1 y0 y1 t0 t1 f -> exists A, 0 <= A /\ forall nx ny nt,
  (2 <= nx)%nat -> (2 <= ny)%nat -> (2 <= nt)%nat ->
  Rabs (riem3 f x0 x1 y0 y1 t0 t1 nx ny nt - RInt3 f x0 x1 y0 y1 t0 t1) <=
  A * (spacing x0 x1 nx + spacing y0 y1 ny + spacing t0 t1 nt).
Proof.
  intros Hx Hy Ht HK H.
  set (B := Rabs (f x0 y0 t0) + K * ((x1 - x0) + (y1 - y0) + (t1 - t0))).
  assert (HB0 : 0 <= B) by (unfold B; apply Rplus_le_le_0_compat; [apply Rabs_pos|apply Rmult_le_pos; lra]).
  assert (HB : forall x y t, x0 <= x <= x1 -> y0 <= y <= y1 -> t0 <= t <= t1 -> Rabs (f x y t) <= B).
  { intros x y t I1 I2 I3. replace (f x y t) with (f x0 y0 t0 + (f x y t - f x0 y0 t0)) by ring.
    eapply Rle_trans; [apply Rabs_triang|]. unfold B. apply Rplus_le_compat_l.
    eapply Rle_trans; [apply H; lra|]. apply Rmult_le_compat_l; [exact HK|].
    rewrite !Rabs_right by lra. lra. }
  set (Wx := x1 - x0) in *. set (Wy := y1 - y0) in *. set (Wt := t1 - t0) in *.
  assert (PW : 0 < Wx /\ 0 < Wy /\ 0 < Wt) by (unfold Wx, Wy, Wt; lra). destruct PW as (PWx & PWy & PWt).
  set (a1 := 2 * Wx * (2 * Wy * (K * Wt + B))). set (a2 := 2 * Wx * (K * Wt * Wy + Wt * B)).
  set (a3 := K * Wt * Wy * Wx + Wy * (Wt * B)).
  assert (P1 : 0 <= a1) by (unfold a1; nn).
  assert (P2 : 0 <= a2) by (unfold a2; nn).
  assert (P3 : 0 <= a3) by (unfold a3; nn).
  exists (a1 + a2 + a3). split; [lra|]. intros nx ny nt Nx Ny Nt.
  pose proof (spacing_pos x0 x1 nx Hx Nx) as Sx. pose proof (spacing_pos y0 y1 ny Hy Ny) as Sy.
  pose proof (spacing_pos t0 t1 nt Ht Nt) as St.
  set (hx := spacing x0 x1 nx) in *. set (hy := spacing y0 y1 ny) in *. set (ht := spacing t0 t1 nt) in *.
  pose proof (lip3_xy _ _ _ _ _ _ _ _ Ht HK H) as HL. fold Wt in HL.
  unfold riem3, RInt3.
  eapply Rle_trans; [apply (riem_step _ _ x0 x1 nx (K * Wt * Wy) (Wy * (Wt * B))
     (2 * Wy * ((K * Wt + B) * ht) + (K * Wt * Wy + Wt * B) * hy))|].
  - exact Hx.
  - exact Nx.
  - nn.
  - nn.
  - intros x Ix. apply (riem2_RInt2 K B); try assumption; [apply (lip3_yt _ _ _ _ _ _ _ _ _ H Ix)|auto].
  - apply (inner_lip (K * Wt) x0 x1 y0 y1 (fun x y => RInt (f x y) t0 t1)); [lra|apply Rmult_le_pos; lra|exact HL].
  - apply (inner_bnd (K * Wt) (Wt * B) x0 x1 y0 y1 (fun x y => RInt (f x y) t0 t1)); [lra|apply Rmult_le_pos; lra|exact HL|].
    intros x y Ix Iy. apply RInt_bnd; [lra| |intros t It; apply HB; assumption].
    apply (lip_ex K t0 t1); try lra. apply (lip2_1 K y0 y1 _ _ (f x)); [apply (lip3_yt _ _ _ _ _ _ _ _ _ H Ix)|assumption].
  - fold Wx hx.
    replace (2 * Wx * (2 * Wy * ((K * Wt + B) * ht) + (K * Wt * Wy + Wt * B) * hy) + (K * Wt * Wy * Wx + Wy * (Wt * B)) * hx)
      with (a1 * ht + a2 * hy + a3 * hx) by (unfold a1, a2, a3; ring).
    assert (0 <= a1 * hx /\ 0 <= a1 * hy /\ 0 <= a2 * hx /\ 0 <= a2 * ht /\ 0 <= a3 * hy /\ 0 <= a3 * ht)
      by (repeat split; apply Rmult_le_pos; lra). lra.
Qed.

Lemma lipI_3 K x0 x1 y0 y1 t0 t1 E : lip_intensity K x0 x1 y0 y1 t0 t1 E ->
  lip3 K x0 x1 y0 y1 t0 t1 (fun x y t => Cnorm2 (E x y t)).
Proof. intros H. exact H. Qed.

Lemma E_xyt_riem lo hi n0 n1 nt (E : R -> R -> R -> C) :
  E_xyt lo hi n0 n1 nt (fun i j k => E (coord (nth 0 lo 0) (nth 0 hi 0) n0 i)
     (coord (nth 1 lo 0) (nth 1 hi 0) n1 j) (coord (nth 2 lo 0) (nth 2 hi 0) nt k)) =
  eps0 / 2 * c_light * riem3 (fun x y t => Cnorm2 (E x y t)) (nth 0 lo 0) (nth 0 hi 0) (nth 1 lo 0) (nth 1 hi 0)
    (nth 2 lo 0) (nth 2 hi 0) n0 n1 nt.
Proof.
  unfold E_xyt, riem3, riem2, riem, rsum3.
  set (hx := spacing (nth 0 lo 0) _ _). set (hy := spacing (nth 1 lo 0) _ _). set (ht := spacing (nth 2 lo 0) _ _).
  rewrite (rsum_ext n0 (fun i => hy * rsum n1 _)
    (fun i => hy * ht * rsum n1 (fun j => rsum nt (fun k =>
      Cnorm2 (E (coord (nth 0 lo 0) (nth 0 hi 0) n0 i) (coord (nth 1 lo 0) (nth 1 hi 0) n1 j) (coord (nth 2 lo 0) (nth 2 hi 0) nt k)))))).
  - rewrite rsum_scal_l. ring.
  - intros i _. rewrite rsum_scal_l. ring.
Qed.

(** ** Convergence of E_xyt *)
Lemma conv_xyt K lo hi (E : R -> R -> R -> C) :
  nth 0 lo 0 < nth 0 hi 0 -> nth 1 lo 0 < nth 1 hi 0 -> nth 2 lo 0 < nth 2 hi 0 -> 0 <= K ->
  lip_intensity K (nth 0 lo 0) (nth 0 hi 0) (nth 1 lo 0) (nth 1 hi 0) (nth 2 lo 0) (nth 2 hi 0) E ->
  exists A, 0 <= A /\ forall n0 n1 nt, (2 <= n0)%nat -> (2 <= n1)%nat -> (2 <= nt)%nat ->
  Rabs (E_xyt lo hi n0 n1 nt (fun i j k => E (coord (nth 0 lo 0) (nth 0 hi 0) n0 i)
     (coord (nth 1 lo 0) (nth 1 hi 0) n1 j) (coord (nth 2 lo 0) (nth 2 hi 0) nt k))
   - U_xyt (nth 0 lo 0) (nth 0 hi 0) (nth 1 lo 0) (nth 1 hi 0) (nth 2 lo 0) (nth 2 hi 0) E) <=
  A * (spacing (nth 0 lo 0) (nth 0 hi 0) n0 + spacing (nth 1 lo 0) (nth 1 hi 0) n1 + spacing (nth 2 lo 0) (nth 2 hi 0) nt).
Proof.
  intros B0 B1 B2 HK H. destruct (riem3_RInt3 K _ _ _ _ _ _ _ B0 B1 B2 HK (lipI_3 _ _ _ _ _ _ _ _ H)) as (A & HA & HC).
  pose proof eps0_pos. pose proof c_light_pos.
  exists (eps0 / 2 * c_light * A). split; [nn|]. intros n0 n1 nt N0 N1 N2. rewrite E_xyt_riem.
  unfold U_xyt.
  match goal with |- Rabs (?c * ?a - ?c * ?b) <= _ => replace (c * a - c * b) with (c * (a - b)) by ring end.
  rewrite Rabs_mult, (Rabs_right (eps0 / 2 * c_light)) by (apply Rle_ge; nn).
  rewrite (Rmult_assoc (eps0 / 2 * c_light)). apply Rmult_le_compat_l; [nn|]. apply HC; assumption.
Qed.

(** The factor sqrt(E/e) tends to sqrt(E/U) as e tends to U > 0. *)
Lemma sqrt_ratio_cont E U : 0 <= E -> 0 < U -> forall eps, 0 < eps -> exists d, 0 < d /\
  forall e, Rabs (e - U) < d -> 0 < e /\ Rabs (sqrt (E / e) - sqrt (E / U)) < eps.
Proof.
  intros HE HU eps Heps.
  assert (C : continuity_pt (fun x => sqrt (E / x)) U).
  { apply (continuity_pt_comp (fun x => E / x) sqrt).
    - unfold Rdiv. apply continuity_pt_mult; [apply continuity_pt_const; intros ? ?; reflexivity|].
      apply continuity_pt_inv; [apply derivable_continuous_pt, derivable_pt_id|lra].
    - apply continuity_pt_sqrt. apply Rmult_le_pos; [exact HE|]. left. apply Rinv_0_lt_compat, HU. }
  destruct (C eps Heps) as (d & Hd & HC). exists (Rmin d U). split; [apply Rmin_pos; assumption|].
  intros e He. assert (Rabs (e - U) < U) by (eapply Rlt_le_trans; [exact He|apply Rmin_r]).
  assert (Hd' : Rabs (e - U) < d) by (eapply Rlt_le_trans; [exact He|apply Rmin_l]).
  split; [apply Rabs_def2 in H; lra|].
  destruct (Req_dec e U) as [->|Hn]; [rewrite abs0; exact Heps|].
  apply HC. split; [split; [exact I|intros Q; apply Hn; symmetry; exact Q]|exact Hd'].
Qed.

Lemma spacing_small lo hi eps : lo < hi -> 0 < eps -> exists N, (2 <= N)%nat /\
  forall n, (N <= n)%nat -> spacing lo hi n < eps.
Proof.
  intros H He. destruct (nfloor_ex ((hi - lo) / eps)) as (N & HN).
  { apply Rlt_le, Rdiv_lt_0_compat; lra. }
  exists (N + 3)%nat. split; [lia|]. intros n Hn. apply le_INR in Hn. rewrite plus_INR in Hn. simpl in Hn.
  pose proof (pos_INR N). unfold spacing.
  apply (Rmult_lt_reg_r (INR n - 1)); [lra|].
  replace ((hi - lo) / (INR n - 1) * (INR n - 1)) with (hi - lo) by (field; lra).
  assert (Q : (hi - lo) / eps < INR n - 1) by lra.
  apply (Rmult_lt_compat_r eps) in Q; [|exact He].
  replace ((hi - lo) / eps * eps) with (hi - lo) in Q by (field; lra). lra.
Qed.

(** ** The angular integral of a trigonometric polynomial *)
Lemma fst_csum' n f : fst (csum n f) = rsum n (fun i => fst (f i)).
Proof. induction n; simpl; [reflexivity|rewrite IHn; reflexivity]. Qed.
Lemma snd_csum' n f : snd (csum n f) = rsum n (fun i => snd (f i)).
Proof. induction n; simpl; [reflexivity|rewrite IHn; reflexivity]. Qed.
Lemma is_RInt_rsum n (g : nat -> R -> R) (I : nat -> R) a b :
  (forall i, (i < n)%nat -> is_RInt (g i) a b (I i)) -> is_RInt (fun x => rsum n (fun i => g i x)) a b (rsum n I).
Proof.
  induction n; intros H; cbn [rsum].
  - eapply is_RInt_val; [apply (@is_RInt_const R_NormedModule)|apply Rmult_0_r].
  - apply (@is_RInt_plus R_NormedModule); [apply IHn; intros; apply H; lia|apply H; lia].
Qed.
Lemma parseval_angle n (z : nat -> C) (c : Z) :
  is_RInt (fun th => Cnorm2 (csum n (fun q => Cmult (z q) (cis (- (IZR (Z.of_nat q - c) * th)))))) 0 (2 * PI)
    (2 * PI * rsum n (fun q => Cnorm2 (z q))).
Proof.
  induction n as [|n IH]; cbn [csum rsum].
  - apply (is_RInt_ext (fun _ => 0)); [intros; rewrite Cnorm2_0; reflexivity|].
    replace (2 * PI * 0) with (scal (2 * PI - 0) (0:R)); [apply (@is_RInt_const R_NormedModule)|].
    unfold scal; simpl; unfold mult; simpl. ring.
  - apply (is_RInt_ext (fun th => (Cnorm2 (csum n (fun q => Cmult (z q) (cis (- (IZR (Z.of_nat q - c) * th))))) + Cnorm2 (z n))
       + rsum n (fun q => 2 * (fst (z q) * fst (z n) + snd (z q) * snd (z n)) * cos (IZR (Z.of_nat n - Z.of_nat q) * th + 0)
          + - (2 * (snd (z q) * fst (z n) - fst (z q) * snd (z n))) * sin (IZR (Z.of_nat n - Z.of_nat q) * th + 0)))).
    + intros th _. set (S := csum n _). set (w := Cmult (z n) _).
      assert (E : forall u v : C, Cnorm2 (Cplus u v) = Cnorm2 u + Cnorm2 v + 2 * (fst u * fst v + snd u * snd v)).
      { intros [] []. unfold Cnorm2. simpl. ring. }
      rewrite E. f_equal; [f_equal; unfold w; rewrite Cnorm2_mult, Cnorm2_cis; ring|].
      unfold S. rewrite fst_csum', snd_csum', <- !rsum_scal_r, <- rsum_plus, <- rsum_scal_l. apply rsum_ext. intros q _.
      rewrite Rplus_0_r. unfold w.
      replace (IZR (Z.of_nat n - Z.of_nat q) * th) with (- (IZR (Z.of_nat q - c) * th) - - (IZR (Z.of_nat n - c) * th))
        by (rewrite !minus_IZR; ring).
      set (a := - (IZR (Z.of_nat q - c) * th)). set (b := - (IZR (Z.of_nat n - c) * th)).
      rewrite cos_minus, sin_minus. simpl. ring.
    + replace (2 * PI * (rsum n (fun q => Cnorm2 (z q)) + Cnorm2 (z n)))
        with ((2 * PI * rsum n (fun q => Cnorm2 (z q)) + (2 * PI - 0) * Cnorm2 (z n)) + rsum n (fun _ => 0 + 0)).
      2:{ rewrite rsum_plus, rsum_0. ring. }
      apply (@is_RInt_plus R_NormedModule).
      * apply (@is_RInt_plus R_NormedModule); [exact IH|]. apply (@is_RInt_const R_NormedModule).
      * apply is_RInt_rsum. intros q Hq.
        assert (HZ : Z.eqb (Z.of_nat n - Z.of_nat q) 0 = false) by (apply Z.eqb_neq; lia).
        apply (@is_RInt_plus R_NormedModule).
        -- destruct (is_RInt_angle (Z.of_nat n - Z.of_nat q) (2 * (fst (z q) * fst (z n) + snd (z q) * snd (z n))) 0) as (Q & _).
           rewrite HZ in Q. exact Q.
        -- destruct (is_RInt_angle (Z.of_nat n - Z.of_nat q) (- (2 * (snd (z q) * fst (z n) - fst (z q) * snd (z n)))) 0) as (_ & Q).
           rewrite HZ in Q. exact Q.
Qed.
Lemma recon_angle M E : (1 <= M)%nat -> is_RInt (fun th => Cnorm2 (recon M E th)) 0 (2 * PI)
  (2 * PI * rsum (2 * M - 1) (fun q => Cnorm2 (E (Z.of_nat q - (Z.of_nat M - 1))%Z))).
Proof. intros _. exact (parseval_angle (2 * M - 1) (fun q => E (Z.of_nat q - (Z.of_nat M - 1))%Z) (Z.of_nat M - 1)). Qed.

(** ** Convergence of E_rt *)
Lemma r_trig r r1 th : 0 <= r <= r1 -> - r1 <= r * cos th <= r1 /\ - r1 <= r * sin th <= r1.
Proof. intros H. pose proof (COS_bound th). pose proof (SIN_bound th). split; nra. Qed.
Lemma abs_trig r r' th : Rabs (r * cos th - r' * cos th) <= Rabs (r - r') /\ Rabs (r * sin th - r' * sin th) <= Rabs (r - r').
Proof.
  rewrite <- !Rmult_minus_distr_r, !Rabs_mult. pose proof (Rabs_pos (r - r')).
  assert (Rabs (cos th) <= 1) by (apply Rabs_le, COS_bound).
  assert (Rabs (sin th) <= 1) by (apply Rabs_le, SIN_bound). split; nra.
Qed.
Lemma conv_rt K lo hi M (E : R -> R -> R -> C) (A : Z -> R -> R -> C) :
  0 <= nth 0 lo 0 -> nth 0 lo 0 < nth 0 hi 0 -> nth 1 lo 0 < nth 1 hi 0 -> 0 <= K -> (1 <= M)%nat ->
  lip_intensity K (- nth 0 hi 0) (nth 0 hi 0) (- nth 0 hi 0) (nth 0 hi 0) (nth 1 lo 0) (nth 1 hi 0) E ->
  (forall r t theta, E (r * cos theta) (r * sin theta) t = recon M (fun m => A m r t) theta) ->
  exists Ac, 0 <= Ac /\ forall n1 nt, (2 <= n1)%nat -> (2 <= nt)%nat ->
  Rabs (E_rt lo hi (2 * M - 1) n1 nt (fun q j k => A (Z.of_nat q - (Z.of_nat M - 1))%Z
     (coord (nth 0 lo 0) (nth 0 hi 0) n1 j) (coord (nth 1 lo 0) (nth 1 hi 0) nt k))
   - U_rt (nth 0 lo 0) (nth 0 hi 0) (nth 1 lo 0) (nth 1 hi 0) E) <=
  Ac * (spacing (nth 0 lo 0) (nth 0 hi 0) n1 + spacing (nth 1 lo 0) (nth 1 hi 0) nt).
Proof.
  intros R0 B0 B1 HK HM H HA.
  set (r0 := nth 0 lo 0) in *. set (r1 := nth 0 hi 0) in *. set (t0 := nth 1 lo 0) in *. set (t1 := nth 1 hi 0) in *.
  set (F := fun r t => RInt (fun theta => Cnorm2 (E (r * cos theta) (r * sin theta) t)) 0 (2 * PI)).
  assert (HF0 : forall r t, is_RInt (fun theta => Cnorm2 (E (r * cos theta) (r * sin theta) t)) 0 (2 * PI)
      (2 * PI * rsum (2 * M - 1) (fun q => Cnorm2 (A (Z.of_nat q - (Z.of_nat M - 1))%Z r t)))).
  { intros r t. apply (is_RInt_same (fun th => Cnorm2 (recon M (fun m => A m r t) th))); [intros th _; rewrite HA; reflexivity|].
    apply (recon_angle M (fun m => A m r t) HM). }
  assert (HF : forall r t, F r t = 2 * PI * rsum (2 * M - 1) (fun q => Cnorm2 (A (Z.of_nat q - (Z.of_nat M - 1))%Z r t))).
  { intros r t. apply is_RInt_unique, HF0. }
  assert (HX : forall r t, ex_RInt (fun theta => Cnorm2 (E (r * cos theta) (r * sin theta) t)) 0 (2 * PI)).
  { intros r t. eexists. apply HF0. }
  pose proof PI_RGT_0 as Ppi. pose proof eps0_pos as Pe. pose proof c_light_pos as Pc.
  assert (FL : lip2 (4 * PI * K) r0 r1 t0 t1 F).
  { intros r r' t t' Ir Ir' It It'. unfold F.
    eapply Rle_trans; [apply (RInt_close _ _ _ _ (K * (2 * Rabs (r - r') + Rabs (t - t')))); auto|].
    - lra.
    - intros th _. destruct (r_trig r r1 th) as (Q1 & Q2); [lra|]. destruct (r_trig r' r1 th) as (Q3 & Q4); [lra|].
      destruct (abs_trig r r' th) as (Q5 & Q6). eapply Rle_trans; [apply H; assumption|]. apply Rmult_le_compat_l; [exact HK|lra].
    - pose proof (Rabs_pos (t - t')). assert (0 <= K * Rabs (t - t')) by (apply Rmult_le_pos; assumption).
      assert (0 <= PI * (K * Rabs (t - t'))) by (apply Rmult_le_pos; lra). lra. }
  set (B := Rabs (F r0 t0) + 4 * PI * K * ((r1 - r0) + (t1 - t0))).
  assert (PK : 0 <= 4 * PI * K) by nn.
  assert (HB0 : 0 <= B) by (unfold B; apply Rplus_le_le_0_compat; [apply Rabs_pos|apply Rmult_le_pos; lra]).
  assert (HB : forall r t, r0 <= r <= r1 -> t0 <= t <= t1 -> Rabs (F r t) <= B).
  { intros r t I1 I2. replace (F r t) with (F r0 t0 + (F r t - F r0 t0)) by ring.
    eapply Rle_trans; [apply Rabs_triang|]. unfold B. apply Rplus_le_compat_l.
    eapply Rle_trans; [apply FL; lra|]. apply Rmult_le_compat_l; [exact PK|]. rewrite !Rabs_right by lra. lra. }
  set (G := fun r t => F r t * r).
  set (KG := 4 * PI * K * r1 + B).
  assert (PKG : 0 <= KG) by (unfold KG; apply Rplus_le_le_0_compat; [apply Rmult_le_pos; lra|exact HB0]).
  assert (GL : lip2 KG r0 r1 t0 t1 G).
  { intros r r' t t' Ir Ir' It It'. unfold G.
    replace (F r t * r - F r' t' * r') with ((F r t - F r' t') * r + F r' t' * (r - r')) by ring.
    eapply Rle_trans; [apply Rabs_triang|]. rewrite !Rabs_mult, (Rabs_right r) by lra.
    pose proof (FL r r' t t' Ir Ir' It It') as Q. pose proof (HB r' t' Ir' It') as Q'.
    set (d1 := Rabs (r - r')) in *. set (d2 := Rabs (t - t')) in *.
    assert (0 <= d1) by apply Rabs_pos. assert (0 <= d2) by apply Rabs_pos.
    apply Rle_trans with (4 * PI * K * (d1 + d2) * r1 + B * d1).
    - apply Rplus_le_compat; [|apply Rmult_le_compat_r; assumption].
      apply Rmult_le_compat; [apply Rabs_pos|lra|exact Q|lra].
    - unfold KG. assert (0 <= B * d2) by (apply Rmult_le_pos; assumption). lra. }
  assert (GB : forall r t, r0 <= r <= r1 -> t0 <= t <= t1 -> Rabs (G r t) <= B * r1).
  { intros r t I1 I2. unfold G. rewrite Rabs_mult, (Rabs_right r) by lra.
    apply Rmult_le_compat; [apply Rabs_pos|lra|apply HB; assumption|lra]. }
  assert (PBr : 0 <= B * r1) by (apply Rmult_le_pos; lra).
  set (Wr := r1 - r0) in *. set (Wt := t1 - t0) in *. assert (PWr : 0 < Wr) by (unfold Wr; lra). assert (PWt : 0 < Wt) by (unfold Wt; lra).
  set (a1 := 2 * Wr * (KG * Wt + B * r1)). set (a2 := KG * Wt * Wr + Wt * (B * r1)).
  assert (P1 : 0 <= a1) by (unfold a1; nn). assert (P2 : 0 <= a2) by (unfold a2; nn).
  exists (eps0 / 2 * c_light * (a1 + a2)). split; [nn|]. intros n1 nt N1 Nt.
  pose proof (spacing_pos r0 r1 n1 B0 N1) as S1. pose proof (spacing_pos t0 t1 nt B1 Nt) as S2.
  pose proof (riem2_RInt2 KG (B * r1) r0 r1 t0 t1 G n1 nt B0 B1 N1 Nt PKG PBr GL GB) as HC.
  assert (ER : E_rt lo hi (2 * M - 1) n1 nt (fun q j k => A (Z.of_nat q - (Z.of_nat M - 1))%Z (coord r0 r1 n1 j) (coord t0 t1 nt k))
     = eps0 / 2 * c_light * riem2 G r0 r1 t0 t1 n1 nt).
  { unfold E_rt, rsum3. fold r0 r1 t0 t1. set (h1 := spacing r0 r1 n1). set (h2 := spacing t0 t1 nt).
    rewrite Rmult_assoc. f_equal. unfold riem2, riem. fold h1 h2.
    rewrite <- rsum_scal_l, <- rsum_scal_l. rewrite rsum_swap. apply rsum_ext. intros j _.
    rewrite rsum_swap, <- !rsum_scal_l. apply rsum_ext. intros k _. unfold G. rewrite HF.
    rewrite rsum_scal_l. ring. }
  rewrite ER. unfold U_rt.
  change (RInt (fun r => RInt (fun t => RInt (fun theta => Cnorm2 (E (r * cos theta) (r * sin theta) t)) 0 (2 * PI) * r) t0 t1) r0 r1)
    with (RInt2 G r0 r1 t0 t1).
  rewrite <- Rmult_minus_distr_l, Rabs_mult, (Rabs_right (eps0 / 2 * c_light)) by (apply Rle_ge; nn).
  rewrite (Rmult_assoc (eps0 / 2 * c_light)). apply Rmult_le_compat_l; [nn|].
  eapply Rle_trans; [exact HC|]. fold Wr Wt. set (h1 := spacing r0 r1 n1) in *. set (h2 := spacing t0 t1 nt) in *.
  assert (0 <= a1 * h1 /\ 0 <= a2 * h2) by (split; apply Rmult_le_pos; lra).
  replace (2 * Wr * ((KG * Wt + B * r1) * h2) + (KG * Wt * Wr + Wt * (B * r1)) * h1) with (a1 * h2 + a2 * h1) by (unfold a1, a2; ring).
  lra.
Qed.
