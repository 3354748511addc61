(** C82 on the laser object. *)
From Verif Require Import PyBase CSum NpFFT FFTProofs NpMath NumPy GridModel GridSpec GridProofs LaserSpec GridObs EnergyModel LaserModel LaserOps OpticsModel
  LaserInv LaserInitProofs LaserStepProofs HistoryProofs OpticsProofs OpticsProofs2 AnalyticModel AnalyticProofs ABCDSpec ABCDProofs.
Open Scope R_scope.

Lemma gaussian_laser_focus lo hi n0 n1 nt nm nte l pol E w0 tau tp cep zf p L f w1 zf1 g1 :
  0 < l -> f <> 0 -> 0 < w0 -> 0 < w1 ->
  nth 0 lo 0 < nth 0 hi 0 -> nth 1 lo 0 < nth 1 hi 0 -> nth 2 lo 0 < nth 2 hi 0 ->
  gaussian_profile l pol E w0 tau tp cep zf = Ok p -> energy_request_ok (p_energy p) ->
  laser_init Xyt lo hi [n0;n1;nt] p nm nte = Ok L ->
  lens_law f (beam_q l w0 zf) (beam_q l w1 zf1) -> gaussian_transverse w1 (Some l) zf1 = Ok g1 ->
  exists L' s' A, apply_optics L (parabolic_mirror f) = (L', Ok tt) /\ snd (get_spectral_field (l_grid L')) = Ok s' /\ shp s' = [n0;n1;nt] /\
    nth 0 (l_omega L') 0 = 2 * PI * c_light / l /\
    forall i j, (i < n0)%nat -> (j < n1)%nat ->
      at3 s' i j 0 = Cmult A (g1 (coord (nth 0 lo 0) (nth 0 hi 0) n0 i) (coord (nth 1 lo 0) (nth 1 hi 0) n1 j)).
Proof.
  intros Hl Hf H0 H1 B0 B1 B2 Hp HE HL HQ HG1.
  destruct (gaussian_profile_inv _ _ _ _ _ _ _ _ _ Hp) as (_ & _ & Hom & _ & _ & Hev).
  destruct (xyt_samples _ _ _ _ _ _ _ _ _ HL B0 B1 B2 HE) as (a & sc & Ha & Sh & _ & Hv & _).
  destruct (laser_init_Inv _ _ _ _ _ _ _ _ HL) as (g & m0 & m1 & mt & Hg & Hm & D1 & D2 & D3 & _ & _ & Hn & GS & HI).
  pose proof (i_coh _ _ _ _ HI) as HG. destruct (tread_sread_ok _ _ (proj1 HG) Ha) as (s & Hs).
  destruct (optics_inv L (parabolic_mirror f) _ _ _ s HI Hs) as (L1 & s1 & A1 & A2 & A3 & A4 & A5 & A6 & A7).
  destruct (reads_idft _ _ _ HG Ha Hs) as (S1 & _ & V1). cbn [np_ifft_last shp] in S1.
  assert (G0 : gaussian_transverse w0 (Some l) zf = Ok (gaussian_trans_at w0 (zf * l / (PI * w0 ^ 2)))) by (unfold gaussian_transverse; rewrite z_foc_ok; reflexivity).
  destruct (gaussian_focus l f w0 w1 zf zf1 _ g1 Hl Hf H0 H1 HQ G0 HG1) as (K & _ & HK).
  assert (Da : dim2 a = nt) by (unfold dim2; rewrite Sh; reflexivity).
  assert (H2 : (2 <= nt)%nat).
  { destruct (proj1 (grid_init_ok_iff Xyt lo hi [n0;n1;nt] (Some nm) true) (ex_intro _ g Hg)) as (_ & _ & _ & H & _).
    destruct (H 2%nat ltac:(cbn; lia)) as (n & Hn2 & H2). cbn in Hn2. injection Hn2 as <-. exact H2. }
  assert (Om : vget (l_omega L) 0 = 2 * PI * c_light / l).
  { rewrite D3. cbn in Hn. injection Hn as Hmt. rewrite (omega_value Xyt lo hi [n0;n1;nt] (Some nm) true g nt _ 0 Hg (or_intror eq_refl) eq_refl).
    - rewrite Hom. unfold dft_omega. cbn [Nat.ltb Nat.leb INR]. unfold Rdiv. ring.
    - rewrite (gs_shape _ _ _ _ _ GS). cbn. symmetry. exact Hmt.
    - lia. }
  set (T := ifft1 nt (fun k => gaussian_long l tau tp cep (coord (nth 2 lo 0) (nth 2 hi 0) nt k)) 0).
  exists L1, s1, (Cmult (Cmult (RtoC sc) T) K). split; [exact A1|]. split; [exact A4|]. split; [congruence|]. split.
  { destruct A3 as (_ & E3 & _). unfold vget in Om. congruence. }
  intros i j Hi Hj. rewrite A7, V1 by (unfold inb, dim0, dim1, dim2; rewrite S1, Sh; cbn [nth]; lia). cbn [np_ifft_last at3]. rewrite Da.
  assert (OF : optic_factor L (parabolic_mirror f) i j 0 = parabolic_mirror f (coord (nth 0 lo 0) (nth 0 hi 0) n0 i) (coord (nth 1 lo 0) (nth 1 hi 0) n1 j) (2 * PI * c_light / l) 0).
  { unfold optic_factor. rewrite D1, Om. unfold parabolic_mirror.
    assert (AX : forall q i, axis_at (l_grid L) q i = axis_at g q i) by (intros; unfold axis_at; destruct Hm as (_ & _ & _ & Hax & _); rewrite Hax; reflexivity).
    rewrite !AX. rewrite (axis_coord _ _ _ _ _ _ _ 0 n0 i Hg ltac:(cbn; lia) eq_refl Hi), (axis_coord _ _ _ _ _ _ _ 1 n1 j Hg ltac:(cbn; lia) eq_refl Hj). reflexivity. }
  rewrite OF. set (x := coord _ _ n0 i). set (y := coord _ _ n1 j).
  rewrite (ifft1_ext nt _ (fun k => Cmult (Cmult (RtoC sc) (gaussian_trans_at w0 (zf * l / (PI * w0 ^ 2)) x y)) (gaussian_long l tau tp cep (coord (nth 2 lo 0) (nth 2 hi 0) nt k)))).
  - rewrite ifft1_scal. fold T. specialize (HK x y 0). set (M := parabolic_mirror _ _ _ _ _) in *. set (G := gaussian_trans_at _ _ _ _) in *.
    transitivity (Cmult (Cmult (RtoC sc) T) (Cmult M G)); [ring|]. rewrite HK. ring.
  - intros k Hk. rewrite Hv by assumption. rewrite Hev. fold x y. ring.
Qed.
