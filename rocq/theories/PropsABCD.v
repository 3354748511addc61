(** Property theorems C82: a parabolic mirror focuses a beam mode according to the ABCD (complex beam parameter) law. *)
From Verif Require Import PyBase CSum NpMath GridModel LaserSpec LaserModel OpticsModel AnalyticModel AnalyticProofs ABCDSpec ABCDProofs ABCDLaser LaserInitProofs.
Open Scope R_scope.

(** C82: Gaussian beam of waist w0, focus at zf0, times ParabolicMirror(f) at the frequency of the profile's wavelength = constant times the
    Gaussian beam whose complex parameter obeys 1/q' = 1/q - 1/f. *)
Theorem C82_gaussian :
  forall l f w0 w1 zf0 zf1 g0 g1, 0 < l -> f <> 0 -> 0 < w0 -> 0 < w1 ->
  lens_law f (beam_q l w0 zf0) (beam_q l w1 zf1) ->
  gaussian_transverse w0 (Some l) zf0 = Ok g0 -> gaussian_transverse w1 (Some l) zf1 = Ok g1 ->
  exists K, Cmod K = w0 / w1 /\ forall x y w', Cmult (parabolic_mirror f x y (2 * PI * c_light / l) w') (g0 x y) = Cmult K (g1 x y).
Proof. exact gaussian_focus. Qed.
Print Assumptions C82_gaussian.
(** C82: Hermite-Gauss modes (normalised, so the constant is a pure phase). *)
Theorem C82_hermite :
  forall l f w0 w1 zf0 zf1 nx ny g0 g1, 0 < l -> f <> 0 -> 0 < w0 -> 0 < w1 ->
  lens_law f (beam_q l w0 zf0) (beam_q l w1 zf1) ->
  hg_transverse w0 nx ny (Some l) zf0 = Ok g0 -> hg_transverse w1 nx ny (Some l) zf1 = Ok g1 ->
  exists K, Cmod K = 1 /\ forall x y w', Cmult (parabolic_mirror f x y (2 * PI * c_light / l) w') (g0 x y) = Cmult K (g1 x y).
Proof. exact hg_focus. Qed.
Print Assumptions C82_hermite.
(** C82: Laguerre-Gauss modes of any order. *)
Theorem C82_laguerre :
  forall l f w0 w1 zf0 zf1 p m g0 g1, 0 < l -> f <> 0 -> 0 < w0 -> 0 < w1 ->
  lens_law f (beam_q l w0 zf0) (beam_q l w1 zf1) ->
  lg_transverse w0 p m (Some l) zf0 = Ok g0 -> lg_transverse w1 p m (Some l) zf1 = Ok g1 ->
  exists K, Cmod K = w0 / w1 /\ forall x y w', Cmult (parabolic_mirror f x y (2 * PI * c_light / l) w') (g0 x y) = Cmult K (g1 x y).
Proof. exact lg_focus. Qed.
Print Assumptions C82_laguerre.
(** C82: the image beam always exists, *)
Theorem C82_image :
  forall l f w0 zf0, 0 < l -> f <> 0 -> 0 < w0 -> exists w1 zf1, 0 < w1 /\ lens_law f (beam_q l w0 zf0) (beam_q l w1 zf1).
Proof. exact lens_image. Qed.
Print Assumptions C82_image.
(** and for a collimated beam it is focused f / (1 + (f/zR)^2) ahead, to the waist w0 / sqrt(1 + (zR/f)^2). *)
Theorem C82_collimated :
  forall l f w0, 0 < l -> f <> 0 -> 0 < w0 -> let zR := PI * w0 ^ 2 / l in
  lens_law f (beam_q l w0 0) (beam_q l (w0 / sqrt (1 + (zR / f) ^ 2)) (f / (1 + (f / zR) ^ 2))).
Proof. exact collimated_image. Qed.
Print Assumptions C82_collimated.
(** C82, on the laser: the spectral component at the central frequency of a laser built from GaussianProfile is, after
    ParabolicMirror(f), the image beam on the whole grid. *)
Theorem C82_laser :
  forall lo hi n0 n1 nt nm nte l pol E w0 tau tp cep zf p L f w1 zf1 g1,
  0 < l -> f <> 0 -> 0 < w0 -> 0 < w1 ->
  nth 0 lo 0 < nth 0 hi 0 -> nth 1 lo 0 < nth 1 hi 0 -> nth 2 lo 0 < nth 2 hi 0 ->
  gaussian_profile l pol E w0 tau tp cep zf = Ok p -> energy_request_ok (p_energy p) ->
  laser_init Xyt lo hi [n0;n1;nt] p nm nte = Ok L ->
  lens_law f (beam_q l w0 zf) (beam_q l w1 zf1) -> gaussian_transverse w1 (Some l) zf1 = Ok g1 ->
  exists L' s' A, apply_optics L (parabolic_mirror f) = (L', Ok tt) /\ snd (get_spectral_field (l_grid L')) = Ok s' /\ shp s' = [n0;n1;nt] /\
    nth 0 (l_omega L') 0 = 2 * PI * c_light / l /\
    forall i j, (i < n0)%nat -> (j < n1)%nat ->
      at3 s' i j 0 = Cmult A (g1 (coord (nth 0 lo 0) (nth 0 hi 0) n0 i) (coord (nth 1 lo 0) (nth 1 hi 0) n1 j)).
Proof. exact gaussian_laser_focus. Qed.
Print Assumptions C82_laser.
(** A collimated Gaussian laser of wavelength 1 and waist 1 in front of a mirror of focal length pi: zR = f, so it is focused pi/2 ahead to 1/sqrt 2. *)
Example C82_nonvacuous : exists p L g1,
  gaussian_profile 1 [RtoC 1; RtoC 0] (Some 2) 1 3 0 0 0 = Ok p /\ energy_request_ok (p_energy p) /\
  laser_init Xyt [-1;-2;-3] [1;2;4] [4;3;5]%nat p 1 None = Ok L /\
  lens_law PI (beam_q 1 1 0) (beam_q 1 (/ sqrt 2) (PI / 2)) /\ gaussian_transverse (/ sqrt 2) (Some 1) (PI / 2) = Ok g1.
Proof.
  destruct (c42_constructs 1 (RtoC 1) (RtoC 0) (Some 2) 1 3 0 0 0) as (p & Hp).
  destruct (gaussian_profile_inv _ _ _ _ _ _ _ _ _ Hp) as (_ & _ & _ & HE & HD & _).
  assert (HR : energy_request_ok (p_energy p)) by (rewrite HE; simpl; lra).
  destruct (xyt_construct_ok [-1;-2;-3] [1;2;4] 4 3 5 p 1 None) as (L & HL); try (simpl; first [lia|lra|reflexivity]); try assumption.
  exists p, L. eexists. split; [exact Hp|]. split; [exact HR|]. split; [exact HL|]. split.
  - pose proof PI_RGT_0 as HP. pose proof (collimated_image 1 PI 1 ltac:(lra) ltac:(lra) ltac:(lra)) as HC. cbn zeta in HC.
    replace (PI * 1 ^ 2 / 1) with PI in HC by field. replace (PI / PI) with 1 in HC by (field; lra).
    replace (1 + 1 ^ 2) with 2 in HC by ring. replace (1 / sqrt 2) with (/ sqrt 2) in HC by (unfold Rdiv; ring). exact HC.
  - unfold gaussian_transverse. rewrite z_foc_ok. reflexivity.
Qed.
