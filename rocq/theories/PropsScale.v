(** C104: no hidden length or time scale. All lengths and times of a problem multiplied by s: every history gives the same
    samples, on axes multiplied by s, with s^3 times the energy. *)
From Verif Require Import PyBase CSum NumPy GridModel GridSpec EnergyModel LaserSpec LaserModel LaserOps LaserInitProofs LaserExamples LtiSpec LtiExamples AnalysisModel ProfileModel AnalyticModel OpticsModel ScaleSpec ScaleProofs ScaleWave.
Open Scope R_scope.

(** Both geometries, every call (resampling to a new grid, absorbing layers, failing calls included).  The scaled laser can
    be built exactly when the original can. *)
Theorem C104_scale :
  forall S s d lo hi np p nm nte L h, scale_free S -> 0 < s ->
  laser_init d lo hi np p nm nte = Ok L ->
  exists L', laser_init d (map (Rmult s) lo) (map (Rmult s) hi) np (scale_profile s p) nm nte = Ok L' /\
  let K := lrun S L h in let K' := lrun S L' (map (scale_op s) h) in
  outcomes S L' (map (scale_op s) h) = outcomes S L h /\
  g_axes (l_grid K') = map (map (Rmult s)) (g_axes (l_grid K)) /\
  g_lo (l_grid K') = map (Rmult s) (g_lo (l_grid K)) /\ g_hi (l_grid K') = map (Rmult s) (g_hi (l_grid K)) /\
  snd (get_temporal_field (l_grid K')) = snd (get_temporal_field (l_grid K)) /\
  snd (get_spectral_field (l_grid K')) = snd (get_spectral_field (l_grid K)) /\
  (forall e, snd (compute_laser_energy d (l_grid K)) = Ok e -> snd (compute_laser_energy d (l_grid K')) = Ok (s ^ 3 * e)).
Proof.
  intros S s d lo hi np p nm nte L h HS Hs H. exists (sl s L). split; [rewrite (laser_init_sl s Hs), H; reflexivity|].
  destruct (run_sl s Hs S HS h L) as (E & O). cbn zeta. rewrite E, O. cbn [sl l_grid].
  rewrite (get_t_sg s), (get_s_sg s), (compute_sg s). cbn [sp snd]. repeat (split; [reflexivity|]).
  intros e He. rewrite He. reflexivity.
Qed.
Print Assumptions C104_scale.

Theorem C104_rejects :
  forall s d lo hi np p nm nte e, 0 < s ->
  (laser_init d (map (Rmult s) lo) (map (Rmult s) hi) np (scale_profile s p) nm nte = Err e <-> laser_init d lo hi np p nm nte = Err e).
Proof.
  intros s d lo hi np p nm nte e Hs. rewrite (laser_init_sl s Hs). destruct (laser_init d lo hi np p nm nte); cbn [mapres]; split; congruence.
Qed.
Print Assumptions C104_rejects.

(** The analysis functions: the duration is s times as long; the spectrum (method "sum") has its frequencies divided by s and
    its energies per frequency multiplied by s^4; the 2D images of get_full_field are the same on axes s times as long. *)
Theorem C104_analysis :
  forall S s d lo hi np p nm nte L L' h, scale_free S -> 0 < s ->
  laser_init d lo hi np p nm nte = Ok L ->
  laser_init d (map (Rmult s) lo) (map (Rmult s) hi) np (scale_profile s p) nm nte = Ok L' ->
  let K := lrun S L h in let K' := lrun S L' (map (scale_op s) h) in
  (forall tau, snd (get_duration d (l_grid K)) = Ok tau -> snd (get_duration d (l_grid K')) = Ok (s * tau)) /\
  (forall w l, snd (get_spectrum_sum d (l_grid K) (Some w)) = Ok l ->
     snd (get_spectrum_sum d (l_grid K') (Some (w / s))) = Ok (map (fun x => (fst x / s, s ^ 4 * snd x)) l)) /\
  (forall theta slice ax img extent, snd (get_full_field K theta slice ax) = Ok (Some (img, extent)) ->
     snd (get_full_field K' theta slice ax) = Ok (Some (img, map (Rmult s) extent))).
Proof.
  intros S s d lo hi np p nm nte L L' h HS Hs H H'. rewrite (laser_init_sl s Hs), H in H'. cbn [mapres] in H'. injection H' as <-.
  destruct (run_sl s Hs S HS h L) as (E & _). cbn zeta. rewrite E. cbn [sl l_grid]. split; [|split].
  - intros tau Ht. rewrite (duration_sg s Hs), Ht. reflexivity.
  - intros w l Hl. rewrite (spectrum_sg s Hs), Hl. reflexivity.
  - intros theta slice ax img ext Hi. pose proof (full_field_sl s Hs (lrun S L h) theta slice ax) as Q. rewrite Hi in Q. exact Q.
Qed.
Print Assumptions C104_analysis.

(** The library's profiles and optical elements are such families: scaling all lengths and times in the constructor calls
    (wavelength, waist, duration, peak time, focus position; focal lengths and radii; GDD, TOD and FOD by s^2, s^3, s^4)
    gives the scaled pulse and the scaled element. *)
Theorem C104_gaussian :
  forall s l pol E w0 tau tp cep zf p, 0 < s -> gaussian_profile l pol E w0 tau tp cep zf = Ok p ->
  gaussian_profile (s * l) pol (option_map (Rmult (s ^ 3)) E) (s * w0) (s * tau) (s * tp) cep (s * zf) = Ok (scale_profile s p).
Proof. intros s l pol E w0 tau tp cep zf p Hs. exact (gaussian_profile_sc s Hs l pol E w0 tau tp cep zf p). Qed.
Print Assumptions C104_gaussian.
Theorem C104_combined :
  forall s l pol E w0 tau tp cep n m j1 p, 0 < s ->
  (combined_profile l pol E (super_gaussian_long l tau tp n cep) (super_gaussian_trans w0 m) = Ok p ->
   combined_profile (s * l) pol (option_map (Rmult (s ^ 3)) E) (super_gaussian_long (s * l) (s * tau) (s * tp) n cep) (super_gaussian_trans (s * w0) m) = Ok (scale_profile s p)) /\
  (combined_profile l pol E (cosine_long l tau tp cep) (jinc_trans j1 w0) = Ok p ->
   combined_profile (s * l) pol (option_map (Rmult (s ^ 3)) E) (cosine_long (s * l) (s * tau) (s * tp) cep) (jinc_trans j1 (s * w0)) = Ok (scale_profile s p)).
Proof.
  intros s l pol E w0 tau tp cep n m j1 p Hs. split; apply (combined_sc s); intros;
    [apply (super_long_sc s Hs) | apply (super_trans_sc s Hs) | apply (cosine_long_sc s Hs) | apply (jinc_trans_sc s Hs)].
Qed.
Print Assumptions C104_combined.
Theorem C104_elements :
  forall s, 0 < s ->
  (forall f x y w w0, parabolic_mirror (s * f) x y w w0 = scale_optic s (parabolic_mirror f) x y w w0) /\
  (forall gamma x y w w0, axicon gamma x y w w0 = scale_optic s (axicon gamma) x y w w0) /\
  (forall f0 delta Rad x y w w0, f0 <> 0 -> Rad <> 0 ->
     axiparabola (s * f0) (s * delta) (s * Rad) x y w w0 = scale_optic s (axiparabola f0 delta Rad) x y w w0) /\
  (forall gdd tod fod x y w w0,
     polynomial_spectral_phase (s ^ 2 * gdd) (s ^ 3 * tod) (s ^ 4 * fod) x y w w0 = scale_optic s (polynomial_spectral_phase gdd tod fod) x y w w0).
Proof.
  intros s Hs. split; [exact (parabolic_sc s Hs)|]. split; [exact (axicon_sc s Hs)|]. split; [exact (axiparabola_sc s Hs)|]. exact (poly_sc s).
Qed.
Print Assumptions C104_elements.

(** The hypotheses are met: a solver, a radial vortex laser 1000 times as large, a history with resampling. *)
Theorem C104_solver : scale_free linear_example.
Proof. exact linear_example_scale_free. Qed.
Print Assumptions C104_solver.
Definition c104_history (gn : grid) : list lop :=
  [OpOptics (fun x y w w0 => cis (- w * (x ^ 2 + y ^ 2))); OpNormalize (Some 3) KEnergy; OpPropagate 3 (Some (PyInt 2)) None 0%nat;
   OpNormalize (Some 3) KIntensity; OpPropagate 1 (Some (PyInt (-7))) None 0%nat; OpPropagate (-1) None (Some gn) 1%nat; OpNormalize (Some 2) KField].
Example C104_nonvacuous : exists L gn,
  scale_free linear_example /\ laser_init Rt [0;-3] [2;4] [4;5]%nat ex_vortex 2 None = Ok L /\
  grid_init Rt [0;-3] [5;4] [6;5]%nat (Some 2%Z) true = Ok gn /\
  p_eval (scale_profile 1000 ex_vortex) 1000 0 0 = p_eval ex_vortex 1 0 0 /\
  length (outcomes linear_example L (c104_history gn)) = 7%nat.
Proof.
  destruct (ex_rt ex_vortex None) as (L & HL); [exact I|lia|].
  destruct (grid_init Rt [0;-3] [5;4] [6;5]%nat (Some 2%Z) true) as [gn|e] eqn:Eg; [|discriminate].
  exists L, gn. split; [exact linear_example_scale_free|]. split; [exact HL|]. split; [reflexivity|]. split; [|reflexivity].
  cbn [scale_profile p_eval ex_vortex]. f_equal; field.
Qed.
