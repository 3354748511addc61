(** C103, continued: the analysis functions that integrate over the transverse plane do not see a mirror image. *)
From Verif Require Import PyBase CSum NumPy GridModel GridSpec LaserSpec LaserModel LaserOps LaserExamples MirrorSpec MirrorReads AnalysisModel DataModel SpectrumModel PropsMirror.
Open Scope R_scope.

(** [get_duration] and [get_spectrum] (method sum, every range, bins and omega0) return the same for the mirror image of
    a pulse, sent through the mirror-image optics, after every history: also when they fail. *)
Theorem C103_analysis :
  forall bx bY S lo hi np p p' nm nte L L' h, mirror_solver bx bY S ->
  (bx = true -> nth 0 lo 0 = - nth 0 hi 0) -> (bY = true -> nth 1 lo 0 = - nth 1 hi 0) ->
  p_omega0 p' = p_omega0 p -> p_energy p' = p_energy p ->
  (forall x y t, p_eval p' x y t = p_eval p (sign bx x) (sign bY y) t) ->
  laser_init Xyt lo hi np p nm nte = Ok L -> laser_init Xyt lo hi np p' nm nte = Ok L' ->
  let K := lrun S L h in let K' := lrun S L' (map (mirror_op bx bY) h) in
  snd (get_duration Xyt (l_grid K')) = snd (get_duration Xyt (l_grid K)) /\
  forall range bins w, snd (get_spectrum Xyt (l_grid K') range bins w MSum) = snd (get_spectrum Xyt (l_grid K) range bins w MSum).
Proof.
  intros bx bY S lo hi np p p' nm nte L L' h HS Cx Cy Hw HE Hev H H'. cbn zeta.
  destruct (c103_rel bx bY S lo hi np p p' nm nte L L' h HS Cx Cy Hw HE Hev H H') as (n0 & n1 & nt & Q1 & Q2).
  split; [exact (mi_duration bx bY _ _ n0 n1 nt Q1 Q2)|]. intros range bins w. exact (mi_spectrum bx bY _ _ n0 n1 nt Q1 Q2 range bins w).
Qed.
Print Assumptions C103_analysis.

(** The lasers and the history of [C103_nonvacuous] (a tilted pulse and its image, different field samples) meet the hypotheses. *)
Example C103_analysis_nonvacuous : exists L L',
  laser_init Xyt [-1;-2;-3] [1;2;4] [4;3;5]%nat (ex_prof (Some (Some 3))) 1 None = Ok L /\
  laser_init Xyt [-1;-2;-3] [1;2;4] [4;3;5]%nat c103_mirrored 1 None = Ok L' /\
  p_eval c103_mirrored 1 0 0 <> p_eval (ex_prof (Some (Some 3))) 1 0 0 /\
  snd (get_duration Xyt (l_grid (lrun (WaveSolver.wave_solvers 1) L' (map (mirror_op true false) c103_history)))) =
  snd (get_duration Xyt (l_grid (lrun (WaveSolver.wave_solvers 1) L c103_history))).
Proof.
  destruct C103_nonvacuous as (L & L' & HS & HL & HL' & Hev & Hne & _). exists L, L'. split; [exact HL|]. split; [exact HL'|]. split; [exact Hne|].
  refine (proj1 (C103_analysis true false _ [-1;-2;-3] [1;2;4] [4;3;5]%nat (ex_prof (Some (Some 3))) c103_mirrored 1 None L L' c103_history HS _ _ eq_refl eq_refl Hev HL HL')); [|discriminate].
  intros _. cbn. lra.
Qed.
