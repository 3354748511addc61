(** Property theorems C81: a spectral phase delays the pulse (its derivative is the group delay). *)
From Verif Require Import PyBase CSum NpFFT FFTProofs NumPy GridModel GridSpec GridProofs LaserSpec GridObs
  EnergyModel LaserModel OpticsModel LaserOps LaserInv LaserInitProofs HistoryProofs LaserExamples DelayProofs.
Open Scope R_scope.

(** C81: multiplying the spectrum by exp(i n dt (omega - omega0)) with [apply_optics] moves the field n time samples later,
    around the periodic window; no sample is lost or changed. *)
Theorem C81_delay :
  forall S L o n a, reachable S L -> snd (get_temporal_field (l_grid L)) = Ok a ->
  let t := fun k => nth k (last (g_axes (l_grid L)) []) 0 in
  t 0%nat < t 1%nat ->
  (forall x y w w0, o x y w w0 = cis (IZR n * (t 1%nat - t 0%nat) * (w - w0))) ->
  exists L' a', apply_optics L o = (L', Ok tt) /\ snd (get_temporal_field (l_grid L')) = Ok a' /\ shp a' = shp a /\
    forall i j k, inb a i j k -> at3 a' i j k = at3 a i j (Z.to_nat ((Z.of_nat k - n) mod Z.of_nat (dim2 a))).
Proof. exact c81_delay. Qed.
Print Assumptions C81_delay.

(** C81: where the spectrum consists of two lines p, q, the intensity is a beat note I(t), and after
    PolynomialSpectralPhase(gdd, tod, fod) it is the same beat note I(t - delay): [delay] is the chord slope of the phase
    gdd/2 u^2 + tod/6 u^3 + fod/24 u^4 between the two lines, which tends to gdd u + tod/2 u^2 + fod/6 u^3 as D -> 0. *)
Theorem C81_group_delay :
  forall S L gdd tod fod a s i j p q, reachable S L ->
  snd (get_temporal_field (l_grid L)) = Ok a -> snd (get_spectral_field (l_grid L)) = Ok s ->
  (i < dim0 s)%nat -> (j < dim1 s)%nat -> (p < dim2 s)%nat -> (q < dim2 s)%nat -> p <> q ->
  (forall k, (k < dim2 s)%nat -> k <> p -> k <> q -> at3 s i j k = RtoC 0) ->
  let t := fun k => nth k (last (g_axes (l_grid L)) []) 0 in
  t 0%nat < t 1%nat ->
  let w := fun k => nth k (l_omega L) 0 in
  let u := (w p + w q) / 2 - p_omega0 (l_prof L) in
  let D := w p - w q in
  let delay := gdd * u + tod / 2 * (u ^ 2 + D ^ 2 / 12) + fod / 6 * (u ^ 3 + u * D ^ 2 / 4) in
  let I := fun th x => Cmod (at3 s i j p) ^ 2 + Cmod (at3 s i j q) ^ 2 + 2 * Cmod (at3 s i j p) * Cmod (at3 s i j q) * cos (D * x - th) in
  exists L' a' th, apply_optics L (polynomial_spectral_phase gdd tod fod) = (L', Ok tt) /\
    snd (get_temporal_field (l_grid L')) = Ok a' /\
    forall k, (k < dim2 a)%nat -> Cmod (at3 a i j k) ^ 2 = I th (t k) /\ Cmod (at3 a' i j k) ^ 2 = I th (t k - delay).
Proof. exact c81_group_delay. Qed.
Print Assumptions C81_group_delay.

(** A laser with exactly two equal spectral lines, at omega0 and one frequency step above it, meets all the hypotheses. *)
Definition two_lines : profile :=
  mkProfile (2 * PI * c_light) 1 (RtoC 1, RtoC 0) None Complex128 (fun x y t => Cplus (RtoC 1) (cis (- (PI / 2 * t)))).
Lemma two_lines_ok : exists L, laser_init Xyt [-1;-1;0] [1;1;3] [2;2;4]%nat two_lines 1 None = Ok L.
Proof. apply xyt_construct_ok; simpl; try lia; try lra; try reflexivity; exact I. Qed.
Example C81_nonvacuous : forall S, exists L a s, reachable S L /\ snd (get_temporal_field (l_grid L)) = Ok a /\ snd (get_spectral_field (l_grid L)) = Ok s /\
  shp s = [2;2;4]%nat /\ (forall i j, (i < 2)%nat -> (j < 2)%nat -> at3 s i j 0 = RtoC 1 /\ at3 s i j 1 = RtoC 1 /\ at3 s i j 2 = RtoC 0 /\ at3 s i j 3 = RtoC 0) /\
  nth 0 (last (g_axes (l_grid L)) []) 0 < nth 1 (last (g_axes (l_grid L)) []) 0.
Proof.
  intros S. destruct two_lines_ok as (L & HL).
  assert (HR : reachable S L) by exact (reachable_init S _ _ _ _ _ _ _ L [] HL (Forall_nil _) (Forall_nil _)).
  destruct (xyt_samples _ _ _ _ _ _ _ _ _ HL) as (a & s & Ha & Sh & _ & Hv & Hs); try (simpl; lra); try exact I.
  cbn in Hs. subst s.
  destruct (reachable_axes S L HR) as (n0 & n1 & nt & t0 & dt & HI & H2 & Hax & Hom).
  pose proof (LaserStepProofs.i_coh _ _ _ _ HI) as HG. destruct (tread_sread_ok _ _ (proj1 HG) Ha) as (s & Hs).
  exists L, a, s. split; [exact HR|]. split; [exact Ha|]. split; [exact Hs|].
  destruct (reads_idft _ _ _ HG Ha Hs) as (S1 & _ & V1). cbn [np_ifft_last shp] in S1. rewrite Sh in S1. split; [exact S1|].
  assert (Da : dim2 a = 4%nat) by (unfold dim2; rewrite Sh; reflexivity).
  split.
  - intros i j Hi Hj.
    assert (V : forall k, (k < 4)%nat -> at3 s i j k = (if (k <? 2)%nat then RtoC 1 else RtoC 0)).
    { intros k Hk. rewrite V1 by (unfold inb, dim0, dim1, dim2; rewrite S1; cbn [nth]; lia). cbn [np_ifft_last at3]. rewrite Da.
      rewrite (ifft1_ext 4 _ (fft1 4 (fun k => if (k <? 2)%nat then RtoC 1 else RtoC 0))); [apply ifft_fft1; exact Hk|].
      intros n Hn. rewrite Hv by assumption. cbn [two_lines p_eval nth]. unfold fft1, csum. cbn [Nat.ltb Nat.leb csum].
      replace (coord 0 3 4 n) with (INR n) by (unfold coord; simpl (INR 4); lra).
      replace (- (2 * PI * (INR 0 * INR n) / INR 4)) with 0 by (simpl (INR 0); simpl (INR 4); field). rewrite cis_0.
      replace (- (2 * PI * (INR 1 * INR n) / INR 4)) with (- (PI / 2 * INR n)) by (simpl (INR 1); simpl (INR 4); field). ring. }
    rewrite !V by lia. tauto.
  - assert (LT : forall k, (k < 4)%nat -> nth k (last (g_axes (l_grid L)) []) 0 = INR k).
    { intros k Hk. destruct (laser_init_Inv _ _ _ _ _ _ _ _ HL) as (g & m0 & m1 & mt & Hg & (_ & _ & _ & Hm & _) & _). rewrite Hm.
      destruct (grid_init_axes _ _ _ _ _ _ _ Hg) as (_ & _ & La & _). cbn [ndims_of] in La.
      pose proof (axis_coord _ _ _ _ _ _ _ 2 4 k Hg ltac:(cbn; lia) eq_refl Hk) as HC. unfold axis_at, vget in HC.
      destruct (g_axes g) as [|x [|y [|z [|? ?]]]]; try discriminate. cbn [nth last] in HC |- *. rewrite HC. unfold coord. simpl (INR 4). lra. }
    rewrite !LT by lia. simpl; lra.
Qed.
