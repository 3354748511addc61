(** C95, continued: what normalizations in a history do to the analysis functions. *)
From Verif Require Import PyBase CSum NpFFT FFTProofs NumPy NpMath GridModel GridSpec GridProofs GridObs EnergyModel LaserSpec LaserModel LaserOps LaserInv LaserStepProofs HistoryProofs LaserExamples LtiSpec LtiProofs LtiStep LtiMain LtiNorm LtiExamples AnalysisModel NormFreq PropsLti PropsLti2.
Open Scope R_scope.

(** Leaving the normalizations out of a history changes the field by one positive factor c; the duration and the local
    frequency are the same, and the vector potential changes by the same factor c. *)
Theorem C95_analysis :
  forall S L h, linear_solver S -> reachable S L -> positive_cells (l_dim L) (l_grid L) ->
  Forall scaling_op h -> clean S L (without_normalize h) ->
  let A := lrun S L h in let B := lrun S L (without_normalize h) in
  exists c n0 n1 nt, 0 < c /\
  (exists fa fb, snd (get_temporal_field (l_grid A)) = Ok fa /\ shp fa = [n0; n1; nt] /\
    snd (get_temporal_field (l_grid B)) = Ok fb /\ shp fb = [n0; n1; nt] /\
    forall i j k, (i < n0)%nat -> (j < n1)%nat -> (k < nt)%nat -> at3 fa i j k = Cmult (RtoC c) (at3 fb i j k)) /\
  (forall d, snd (get_duration d (l_grid A)) = snd (get_duration d (l_grid B))) /\
  (forall d w0 lb ub,
     match snd (get_frequency (l_grid B) d false w0 lb ub), snd (get_frequency (l_grid A) d false w0 lb ub) with
     | Ok (om, m), Ok (om', m') => m' = m /\ shp om' = shp om /\
         forall i j k, (i < n0)%nat -> (j < n1)%nat -> (k < nt)%nat -> at3 om' i j k = at3 om i j k
     | Err x, Err x' => x' = x
     | _, _ => False end) /\
  (forall w0,
     match snd (field_to_vector_potential (l_grid B) w0), snd (field_to_vector_potential (l_grid A) w0) with
     | Ok u, Ok u' => shp u = [n0; n1; nt] /\ shp u' = [n0; n1; nt] /\
         forall i j k, (i < n0)%nat -> (j < n1)%nat -> (k < nt)%nat -> at3 u' i j k = Cmult (RtoC c) (at3 u i j k)
     | Err x, Err x' => x' = x
     | _, _ => False end).
Proof.
  intros S L h HS Hr Hpc Hl Hc. cbn zeta. destruct (reachable_Inv S L Hr) as (n0 & n1 & nt & HI).
  destruct (strip_run S h HS L L n0 n1 nt 1 (Par_refl _ _ _ _ HI)) as (m0 & m1 & c & Z1 & Z2 & Z3 & Z4 & Z5); try assumption; [lra| |].
  { intros s s' Hs Hs' i j k _ _ _. rewrite Hs in Hs'. injection Hs' as <-. ring. }
  destruct (Inv_reads _ _ _ _ (pa_inv' _ _ _ _ _ _ Z2)) as (fa & sa & F1 & F2 & F3 & F4).
  destruct (Inv_reads _ _ _ _ (pa_inv _ _ _ _ _ _ Z2)) as (fb & sb & G1 & G2 & G3 & G4).
  assert (Hf : forall i j k, (i < m0)%nat -> (j < m1)%nat -> (k < nt)%nat -> at3 fa i j k = Cmult (RtoC c) (at3 fb i j k)).
  { intros i j k Hi Hj Hk.
    destruct (spectral_zero_like _ _ _ _ _ _ i j k (pa_inv' _ _ _ _ _ _ Z2) F1 F3 Hi Hj Hk) as (-> & _).
    destruct (spectral_zero_like _ _ _ _ _ _ i j k (pa_inv _ _ _ _ _ _ Z2) G1 G3 Hi Hj Hk) as (-> & _).
    rewrite <- fft1_scal. apply fft1_ext. intros q Hq. apply (Z3 sb sa G3 F3); assumption. }
  pose proof (pa_meta _ _ _ _ _ _ Z2) as HM. rewrite (shift_0 _ _ _ _ _ (i_shape _ _ _ _ (pa_inv _ _ _ _ _ _ Z2))) in HM.
  pose proof (i_coh _ _ _ _ (pa_inv _ _ _ _ _ _ Z2)) as ((He & _) & _).
  exists c, m0, m1, nt. split; [exact Z1|]. split; [exists fa, fb; repeat (split; [assumption|]); exact Hf|].
  split; [intros d; exact (sc_duration _ _ fb fa c m0 m1 nt Z1 G1 F1 G2 F2 Hf HM He d)|].
  split; [intros d w0 lb ub; exact (sc_frequency _ _ fb fa c m0 m1 nt Z1 G1 F1 G2 F2 Hf HM He d w0 lb ub) |
          intros w0; exact (sc_vecpot _ _ fb fa c m0 m1 nt Z1 G1 F1 G2 F2 Hf HM He w0)].
Qed.
Print Assumptions C95_analysis.
(** A laser and a history (a lens, absorbing and failing propagations, five normalizations) that meet the hypotheses. *)
Example C95_analysis_nonvacuous : forall S, exists L, laser_init Rt [0;-3] [2;4] [4;5]%nat ex_vortex 2 None = Ok L /\
  reachable S L /\ positive_cells (l_dim L) (l_grid L) /\ Forall scaling_op c95_history /\ clean S L (without_normalize c95_history).
Proof.
  intros S. destruct (C94_C95_nonvacuous S) as (_ & L & H1 & H2 & H3). destruct C95_history_ok as (A & B).
  exists L. split; [exact H1|]. split; [exact H2|]. split; [exact H3|]. split; [exact A | apply B].
Qed.
