(** Property theorems C52, C53, C62 (Gerchberg-Saxton phase retrieval). *)
From Verif Require Import PyBase CSum NumPy NpMath GridModel LaserSpec LaserModel LaserOps SolverSpec SolverProofs GSModel GSSpec GSProofs GSLaws GSFinal.
Open Scope R_scope.

(** C52: no object that existed before the call is changed (whatever the arguments and the outcome). *)
Theorem C52_untouched :
  forall fuel S h p1 p2 dz c mi ae h' q,
  gerchberg_saxton fuel S h p1 p2 dz c mi ae = Some (h', q) ->
  forall r, (r < length h)%nat -> nth_error h' r = nth_error h r.
Proof. exact c52_untouched. Qed.
Print Assumptions C52_untouched.
(** C52: the phases returned are those of exactly max_iterations rounds of the textbook iteration, and the error is that of the last one. *)
Theorem C52_iterations :
  forall S h p1 p2 L1 L2 a1 a2 dz n ae fuel,
  nth_error h p1 = Some L1 -> nth_error h p2 = Some L2 -> reachable S L1 -> reachable S L2 ->
  snd (get_temporal_field (l_grid L1)) = Ok a1 -> snd (get_temporal_field (l_grid L2)) = Ok a2 -> shp a1 = shp a2 ->
  (1 <= n)%nat -> (n < fuel)%nat ->
  exists h' phi1 phi2 q1 q2 f,
    gerchberg_saxton fuel S h p1 p2 dz MaxIterations (Z.of_nat n) ae =
      Some (h', Ok (phi1, phi2, total (shp a1) (fun i j k => modulus f i j k - modulus a1 i j k))) /\
    rounds S L1 L2 dz (shp a1) (modulus a1) (modulus a2) n q1 q2 f /\ holds phi1 (shp a1) q1 /\ holds phi2 (shp a1) q2.
Proof. exact c52_iterations. Qed.
Print Assumptions C52_iterations.
(** C52: without a pass there is nothing to return. *)
Theorem C52_no_pass :
  forall S h p1 p2 L1 L2 a1 a2 dz mi ae fuel,
  nth_error h p1 = Some L1 -> nth_error h p2 = Some L2 -> reachable S L1 -> reachable S L2 ->
  snd (get_temporal_field (l_grid L1)) = Ok a1 -> snd (get_temporal_field (l_grid L2)) = Ok a2 -> shp a1 = shp a2 ->
  (mi <= 0)%Z -> (0 < fuel)%nat -> exists h', gerchberg_saxton fuel S h p1 p2 dz MaxIterations mi ae = Some (h', Err UnboundLocalError).
Proof. exact c52_no_pass. Qed.
Print Assumptions C52_no_pass.
(** C52: an unknown condition raises. *)
Theorem C52_unknown :
  forall S h p1 p2 L1 L2 a1 a2 dz mi ae fuel,
  nth_error h p1 = Some L1 -> nth_error h p2 = Some L2 -> reachable S L1 -> reachable S L2 ->
  snd (get_temporal_field (l_grid L1)) = Ok a1 -> snd (get_temporal_field (l_grid L2)) = Ok a2 -> shp a1 = shp a2 ->
  exists h', gerchberg_saxton fuel S h p1 p2 dz OtherCondition mi ae = Some (h', Err UnboundLocalError).
Proof. exact c52_unknown. Qed.
Print Assumptions C52_unknown.
(** C52: if the flat phase already explains both amplitudes, every call returns it, with error 0. *)
Theorem C52_consistent :
  forall S h p1 p2 L1 L2 a1 a2 dz n ae fuel h' phi1 phi2 e f,
  lawful S -> nth_error h p1 = Some L1 -> nth_error h p2 = Some L2 -> reachable S L1 -> reachable S L2 -> same_kind L1 L2 ->
  snd (get_temporal_field (l_grid L1)) = Ok a1 -> snd (get_temporal_field (l_grid L2)) = Ok a2 -> shp a1 = shp a2 ->
  carried S L1 dz (polar (shp a1) (modulus a1) (fun _ _ _ => 0)) f -> (forall i j k, inb a1 i j k -> modulus f i j k = modulus a2 i j k) ->
  gerchberg_saxton fuel S h p1 p2 dz MaxIterations (Z.of_nat n) ae = Some (h', Ok (phi1, phi2, e)) ->
  e = 0 /\ forall i j k, inb a1 i j k -> real_part phi1 i j k = 0 /\ real_part phi2 i j k = argument f i j k.
Proof. exact c52_consistent. Qed.
Print Assumptions C52_consistent.
(** A pulse and the same pulse propagated over any dz meet all hypotheses of C52 (and C62). *)
Example C52_nonvacuous : forall dz n, (1 <= n)%nat -> exists L1 L2 a1 a2 f h' phi1 phi2, lawful asm_solvers /\
  reachable asm_solvers L1 /\ reachable asm_solvers L2 /\ same_kind L1 L2 /\
  snd (get_temporal_field (l_grid L1)) = Ok a1 /\ snd (get_temporal_field (l_grid L2)) = Ok a2 /\ shp a1 = shp a2 /\ 0 < modulus a1 1 1 1 /\
  (forall j, (j < dim1 a1)%nat -> 0 <= area L1 j) /\
  carried asm_solvers L1 dz (polar (shp a1) (modulus a1) (fun _ _ _ => 0)) f /\ (forall i j k, inb a1 i j k -> modulus f i j k = modulus a2 i j k) /\
  gerchberg_saxton (S n) asm_solvers [L1; L2] 0 1 dz MaxIterations (Z.of_nat n) 0 = Some (h', Ok (phi1, phi2, 0)).
Proof.
  intros dz n Hn. destruct (pulse_pair dz) as (L1 & L2 & a1 & a2 & f & R1 & R2 & K & T1 & T2 & Es & PA & P & C & M).
  destruct (c52_iterations asm_solvers [L1; L2] 0 1 L1 L2 a1 a2 dz n 0 (S n) eq_refl eq_refl R1 R2 T1 T2 Es Hn ltac:(lia)) as (h' & phi1 & phi2 & q1 & q2 & fb & G & _).
  pose proof (proj1 (c52_consistent asm_solvers [L1; L2] 0 1 L1 L2 a1 a2 dz n 0 (S n) h' phi1 phi2 _ f asm_lawful eq_refl eq_refl R1 R2 K T1 T2 Es C M G)) as E0.
  rewrite E0 in G. exists L1, L2, a1, a2, f, h', phi1, phi2. exact (conj asm_lawful (conj R1 (conj R2 (conj K (conj T1 (conj T2 (conj Es (conj P (conj PA (conj C (conj M G))))))))))).
Qed.
(** C53 (partial): what is bounded on return is the SIGNED sum of the deviations; missing: the sum of the absolute deviations (refuted below) and the iteration limit (refuted below). *)
Theorem C53_signed_partial :
  forall S h p1 p2 L1 L2 a1 a2 dz mi ae fuel h' phi1 phi2 e,
  nth_error h p1 = Some L1 -> nth_error h p2 = Some L2 -> reachable S L1 -> reachable S L2 ->
  snd (get_temporal_field (l_grid L1)) = Ok a1 -> snd (get_temporal_field (l_grid L2)) = Ok a2 -> shp a1 = shp a2 -> 0 < total (shp a1) (modulus a1) ->
  gerchberg_saxton fuel S h p1 p2 dz AmplitudeError mi ae = Some (h', Ok (phi1, phi2, e)) ->
  e <= ae * total (shp a1) (modulus a1) /\
  exists n q1 q2 f, rounds S L1 L2 dz (shp a1) (modulus a1) (modulus a2) n q1 q2 f /\ holds phi1 (shp a1) q1 /\ holds phi2 (shp a1) q2 /\
    e = total (shp a1) (fun i j k => modulus f i j k - modulus a1 i j k).
Proof. exact c53_signed. Qed.
Print Assumptions C53_signed_partial.
(** C53 is false: two reachable lasers for which the call returns although the summed absolute deviation is 100 times the allowed one. *)
Theorem C53_refuted_residual :
  exists L1 L2 a1 h' phi1 phi2 e f,
  reachable asm_solvers L1 /\ reachable asm_solvers L2 /\ same_kind L1 L2 /\ snd (get_temporal_field (l_grid L1)) = Ok a1 /\
  gerchberg_saxton 2 asm_solvers [L1; L2] 0 1 0 AmplitudeError 100 (1 / 100) = Some (h', Ok (phi1, phi2, e)) /\
  (exists a2, snd (get_temporal_field (l_grid L2)) = Ok a2 /\ carried asm_solvers L2 (- 0) (polar (shp a1) (modulus a2) (real_part phi2)) f) /\
  0 < total (shp a1) (modulus a1) /\ deviation (shp a1) f (modulus a1) = total (shp a1) (modulus a1).
Proof. exact c53_refuted_residual. Qed.
Print Assumptions C53_refuted_residual.
(** C53 is false: two reachable lasers for which the call never returns, whatever max_iterations. *)
Theorem C53_refuted_limit :
  exists L1 L2, reachable asm_solvers L1 /\ reachable asm_solvers L2 /\ same_kind L1 L2 /\
  forall max_iterations fuel, gerchberg_saxton fuel asm_solvers [L1; L2] 0 1 0 AmplitudeError max_iterations (1 / 100) = None.
Proof. exact c53_refuted_limit. Qed.
Print Assumptions C53_refuted_limit.
(** C53: more generally, at zero distance it never returns as soon as the second pulse is brighter by more than the tolerance. *)
Theorem C53_never :
  forall S h p1 p2 L1 L2 a1 a2 mi ae,
  per_frequency S -> zero_step S -> nth_error h p1 = Some L1 -> nth_error h p2 = Some L2 -> reachable S L1 -> reachable S L2 ->
  snd (get_temporal_field (l_grid L1)) = Ok a1 -> snd (get_temporal_field (l_grid L2)) = Ok a2 -> shp a1 = shp a2 -> 0 < total (shp a1) (modulus a1) ->
  ae * total (shp a1) (modulus a1) < 9 * 10 ^ 30 ->
  ae * total (shp a1) (modulus a1) < total (shp a1) (fun i j k => modulus a2 i j k - modulus a1 i j k) ->
  forall fuel, gerchberg_saxton fuel S h p1 p2 0 AmplitudeError mi ae = None.
Proof. exact c53_never. Qed.
Print Assumptions C53_never.
(** C53: and otherwise it returns after one pass with the amplitude of the second pulse as its reconstruction of the first. *)
Theorem C53_early :
  forall S h p1 p2 L1 L2 a1 a2 mi ae fuel,
  per_frequency S -> zero_step S -> nth_error h p1 = Some L1 -> nth_error h p2 = Some L2 -> reachable S L1 -> reachable S L2 ->
  snd (get_temporal_field (l_grid L1)) = Ok a1 -> snd (get_temporal_field (l_grid L2)) = Ok a2 -> shp a1 = shp a2 -> 0 < total (shp a1) (modulus a1) ->
  ae * total (shp a1) (modulus a1) < 9 * 10 ^ 30 ->
  total (shp a1) (fun i j k => modulus a2 i j k - modulus a1 i j k) <= ae * total (shp a1) (modulus a1) -> (2 <= fuel)%nat ->
  exists h' phi1 phi2 e f, gerchberg_saxton fuel S h p1 p2 0 AmplitudeError mi ae = Some (h', Ok (phi1, phi2, e)) /\
    carried S L2 (- 0) (polar (shp a1) (modulus a2) (real_part phi2)) f /\ (forall i j k, inb a1 i j k -> modulus f i j k = modulus a2 i j k).
Proof. exact c53_early. Qed.
Print Assumptions C53_early.
(** The first refutation meets the hypotheses of [C53_signed_partial]. *)
Example C53_nonvacuous : exists L1 L2 a1 h' phi1 phi2 e, reachable asm_solvers L1 /\ reachable asm_solvers L2 /\ snd (get_temporal_field (l_grid L1)) = Ok a1 /\
  0 < total (shp a1) (modulus a1) /\ gerchberg_saxton 2 asm_solvers [L1; L2] 0 1 0 AmplitudeError 100 (1 / 100) = Some (h', Ok (phi1, phi2, e)).
Proof. destruct c53_refuted_residual as (L1 & L2 & a1 & h' & phi1 & phi2 & e & f & H1 & H2 & _ & H4 & H5 & _ & H7 & _). exists L1, L2, a1, h', phi1, phi2, e. auto. Qed.
(** C62: with a lawful solver, the mismatch of the returned phases never grows with the number of iterations, in either plane. *)
Theorem C62_monotone :
  forall S h p1 p2 L1 L2 a1 a2 dz n m ae ae' fuel fuel' h1 h2 phi1 phi2 e psi1 psi2 e' f f' g g',
  lawful S -> nth_error h p1 = Some L1 -> nth_error h p2 = Some L2 -> reachable S L1 -> reachable S L2 -> same_kind L1 L2 ->
  snd (get_temporal_field (l_grid L1)) = Ok a1 -> snd (get_temporal_field (l_grid L2)) = Ok a2 -> shp a1 = shp a2 ->
  (forall j, (j < dim1 a1)%nat -> 0 <= area L1 j) -> (n <= m)%nat ->
  gerchberg_saxton fuel S h p1 p2 dz MaxIterations (Z.of_nat n) ae = Some (h1, Ok (phi1, phi2, e)) ->
  gerchberg_saxton fuel' S h p1 p2 dz MaxIterations (Z.of_nat m) ae' = Some (h2, Ok (psi1, psi2, e')) ->
  carried S L1 dz (polar (shp a1) (modulus a1) (real_part phi1)) g ->
  carried S L1 dz (polar (shp a1) (modulus a1) (real_part psi1)) g' ->
  carried S L2 (- dz) (polar (shp a1) (modulus a2) (real_part phi2)) f ->
  carried S L2 (- dz) (polar (shp a1) (modulus a2) (real_part psi2)) f' ->
  mismatch L1 (shp a1) f' (modulus a1) <= mismatch L1 (shp a1) f (modulus a1) /\
  mismatch L1 (shp a1) g' (modulus a2) <= mismatch L1 (shp a1) g (modulus a2) /\
  mismatch L1 (shp a1) g (modulus a2) <= mismatch L1 (shp a1) f (modulus a1).
Proof. exact c62_monotone. Qed.
Print Assumptions C62_monotone.
