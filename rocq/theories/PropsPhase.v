(** C98, continued: the carrier-envelope phase is invisible to the intensity diagnostics, after every history. *)
From Verif Require Import PyBase CSum NumPy GridModel GridSpec EnergyModel LaserSpec LaserModel LaserOps LaserInv LaserStepProofs HistoryProofs LaserInitProofs LaserExamples LtiSpec LtiProofs LtiStep LtiMain LtiNorm LtiExamples RotProofs AnalysisModel DataModel SpectrumModel PhaseReads PropsRot.
Open Scope R_scope.

(** [get_duration], [get_spectrum] (methods sum and on_axis, every range, bins and omega0) and the image of [show] are the
    same for two pulses that differ by a global phase. *)
Theorem C98_analysis :
  forall S d lo hi np p p' nm nte L L' phi h, linear_solver S ->
  p_omega0 p' = p_omega0 p -> p_energy p' = p_energy p ->
  (forall x y t, p_eval p' x y t = Cmult (cis phi) (p_eval p x y t)) ->
  laser_init d lo hi np p nm nte = Ok L -> laser_init d lo hi np p' nm nte = Ok L' ->
  Forall user_op h -> clean S L h ->
  let K := lrun S L h in let K' := lrun S L' h in
  snd (get_duration d (l_grid K')) = snd (get_duration d (l_grid K)) /\
  (forall range bins w m, m = MSum \/ m = MOnAxis ->
     snd (get_spectrum d (l_grid K') range bins w m) = snd (get_spectrum d (l_grid K) range bins w m)) /\
  match snd (show_image K), snd (show_image K') with
  | Ok (img, e), Ok (img', e') => e' = e /\ shp img' = shp img /\
      forall i k q, (i < dim0 img)%nat -> (k < dim1 img)%nat -> at3 img' i k q = at3 img i k q
  | Err x, Err x' => x' = x
  | _, _ => False
  end.
Proof.
  intros S d lo hi np p p' nm nte L L' phi h HS Hw HE Hev H H' Hu Hcl. cbn zeta.
  destruct (laser_init_Inv _ _ _ _ _ _ _ _ H) as (g & n0 & n1 & nt & A1 & A2 & A3 & _ & _ & _ & _ & _ & A9 & A10).
  assert (Hc : phases (fun _ => cis phi)) by (intros i; apply Cmod_cis).
  destruct (init_phase d lo hi np p p' nm nte L L' (fun _ => cis phi) g n0 n1 nt Hc H H' Hw HE A10 A1) as (HP & HR).
  { intros i j k _ _ _. rewrite !init_arr_lin. rewrite (init_lin_comb d g nm nte (cis phi) (RtoC 0) (p_eval p') (p_eval p) (p_eval p)); [ring|]. intros x y t. rewrite Hev. ring. }
  destruct (phase_run S h (fun _ => cis phi) HS Hc Hu L L' n0 n1 nt HP ltac:(right; reflexivity) HR Hcl) as (m0 & m1 & Q1 & Q2 & _).
  assert (Hd : l_dim (lrun S L h) = d) by (destruct (run_clean_inv S L n0 n1 nt h A10 Hu Hcl) as (q0 & q1 & _ & _ & X & _); rewrite X; exact A3).
  assert (H1 : Cmod (cis phi) = 1) by apply Cmod_cis.
  split; [exact (ph_duration d _ _ m0 m1 nt _ Hd H1 Q1 Q2)|]. split; [intros range bins w m; exact (ph_spectrum d _ _ m0 m1 nt _ Hd H1 Q1 Q2 range bins w m) | exact (ph_show d _ _ m0 m1 nt _ Hd H1 Q1 Q2)].
Qed.
Print Assumptions C98_analysis.

(** Two pulses a quarter of a period apart, a history with optics, failing calls and all kinds of normalization. *)
Definition c98_quarter (p : profile) : profile :=
  mkProfile (p_omega0 p) (p_lambda0 p) (p_pol p) (p_energy p) (p_dtype p) (fun x y t => Cmult (cis (PI / 2)) (p_eval p x y t)).
Example C98_analysis_nonvacuous : linear_solver linear_example /\ Forall user_op c98_history /\ (forall S L, clean S L c98_history) /\
  exists L L', laser_init Rt [0;-3] [2;4] [4;5]%nat (c98_beam (Some (Some 2))) 2 None = Ok L /\
    laser_init Rt [0;-3] [2;4] [4;5]%nat (c98_quarter (c98_beam (Some (Some 2)))) 2 None = Ok L' /\
    p_eval (c98_quarter (c98_beam None)) 0 0 0 = Ci.
Proof.
  destruct C98_nonvacuous as (A & B & C & (L & HL) & _). split; [exact A|]. split; [exact B|]. split; [exact C|].
  destruct (ex_rt (c98_quarter (c98_beam (Some (Some 2)))) None ltac:(cbn; lra) ltac:(lia)) as (L' & HL'). exists L, L'. split; [exact HL|]. split; [exact HL'|].
  unfold c98_quarter, c98_beam, cis; cbn [p_eval]. rewrite cos_PI2, sin_PI2. unfold Ci, Cmult, Cplus, RtoC. cbn [fst snd]. f_equal; ring.
Qed.
