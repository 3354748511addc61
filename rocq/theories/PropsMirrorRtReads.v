(** C105, continued: duration and spectrum of the mirror image of an azimuthally decomposed pulse. *)
From Verif Require Import PyBase CSum NumPy GridModel GridSpec LaserSpec LaserModel LaserOps LtiSpec MirrorRtSpec MirrorRtReads AnalysisModel DataModel SpectrumModel WaveSolver PropsMirror.
Open Scope R_scope.

(** [get_duration] and [get_spectrum] (methods sum and on_axis, every range, bins and omega0) return the same for a pulse
    and its mirror image y -> -y, after every history on a fixed radial grid: also when they fail. *)
Theorem C105_analysis :
  forall S lo hi np p p' nm nte L L' h, mirror_rt_solver S ->
  p_omega0 p' = p_omega0 p -> p_energy p' = p_energy p ->
  (forall x y t, p_eval p' x y t = p_eval p x (- y) t) ->
  laser_init Rt lo hi np p nm nte = Ok L -> laser_init Rt lo hi np p' nm nte = Ok L' -> Forall no_resample h ->
  let K := lrun S L h in let K' := lrun S L' h in
  snd (get_duration Rt (l_grid K')) = snd (get_duration Rt (l_grid K)) /\
  forall range bins w m, m = MSum \/ m = MOnAxis ->
    snd (get_spectrum Rt (l_grid K') range bins w m) = snd (get_spectrum Rt (l_grid K) range bins w m).
Proof.
  intros S lo hi np p p' nm nte L L' h HS Hw HE Hev H H' Hh. cbn zeta.
  destruct (c105_rel S lo hi np p p' nm nte L L' h HS Hw HE Hev H H' Hh) as (n0 & n1 & nt & Q1 & Q2).
  split; [exact (ro_duration _ _ n0 n1 nt Q1 Q2)|]. intros range bins w m Hm. exact (ro_spectrum _ _ n0 n1 nt Q1 Q2 range bins w m Hm).
Qed.
Print Assumptions C105_analysis.

(** The vortex and the history of [C105_nonvacuous] meet the hypotheses: the opposite vortex has the same duration. *)
Example C105_analysis_nonvacuous : exists L L',
  laser_init Rt [0;-3] [2;4] [4;5]%nat (c105_beam (-1)) 2 (Some 4%Z) = Ok L /\
  laser_init Rt [0;-3] [2;4] [4;5]%nat (c105_beam 1) 2 (Some 4%Z) = Ok L' /\
  p_eval (c105_beam 1) 0 1 0 <> p_eval (c105_beam (-1)) 0 1 0 /\
  snd (get_duration Rt (l_grid (lrun (wave_solvers 1) L' c105_history))) = snd (get_duration Rt (l_grid (lrun (wave_solvers 1) L c105_history))).
Proof.
  destruct C105_nonvacuous as (Hh & _ & (L' & HL') & Hev & Hne & HS).
  destruct (LaserExamples.ex_rt (c105_beam (-1)) (Some 4%Z) ltac:(cbn; lra) ltac:(lia)) as (L & HL). exists L, L'.
  split; [exact HL|]. split; [exact HL'|]. split; [exact Hne|].
  exact (proj1 (C105_analysis _ [0;-3] [2;4] [4;5]%nat (c105_beam (-1)) (c105_beam 1) 2 (Some 4%Z) L L' c105_history HS eq_refl eq_refl Hev HL HL' Hh)).
Qed.
