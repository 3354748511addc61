(** Property theorems C74 (profiles from INSIGHT files). *)
From Verif Require Import PyBase CSum NumPy LaserModel InsightModel FromArraySpec InsightSpec InsightProofs.
Open Scope R_scope.

(** C74: with a frequency given, the profile reproduces the data. *)
Theorem C74_given :
  forall F pol w p,
  from_insight F pol (OmegaIs w) = Ok p -> w <> 0 ->
  (2 <= length (if_x F))%nat -> (2 <= length (if_y F))%nat -> reproduces F p w.
Proof. exact c74_given. Qed.
Print Assumptions C74_given.
(** C74: with a frequency detected, it lies between the smallest and the largest local frequency on the axis (it is exact for
    a monochromatic field: lo = hi), and the profile reproduces the data. *)
Theorem C74_range :
  forall F pol o p lo hi,
  from_insight F pol o = Ok p -> o = Peak \/ o = Barycenter ->
  (2 <= length (if_x F))%nat -> (2 <= length (if_y F))%nat ->
  (forall k, (S k < length (if_t F))%nat -> local_freq F k lo hi) -> 0 < lo \/ hi < 0 ->
  exists w, lo <= w <= hi /\ reproduces F p w.
Proof. exact c74_range. Qed.
Print Assumptions C74_range.
(** C74: "peak" takes the local frequency at the brightest sample. *)
Theorem C74_peak :
  forall F pol p lo hi,
  from_insight F pol Peak = Ok p ->
  (2 <= length (if_x F))%nat -> (2 <= length (if_y F))%nat ->
  (forall b k, brightest F b -> (S k < length (if_t F))%nat -> (k = b \/ S k = b)%nat -> local_freq F k lo hi) -> 0 < lo \/ hi < 0 ->
  exists w, lo <= w <= hi /\ reproduces F p w.
Proof. exact c74_peak. Qed.
Print Assumptions C74_peak.
(** C74: whichever convention the data follows, the real field of the profile is the measured one. *)
Theorem C74_real :
  forall F p w,
  reproduces F p w -> w <> 0 ->
  forall i j k, (i < length (if_x F))%nat -> (j < length (if_y F))%nat -> (k < length (if_t F))%nat ->
    Re (Cmult (p_eval p (sample_x F i) (sample_y F j) (sample_t F k)) (cis (- (p_omega0 p * sample_t F k)))) = Re (at3 (if_data F) i j k).
Proof. exact c74_real. Qed.
Print Assumptions C74_real.
(** C74: dark outside the measured region. *)
Theorem C74_outside :
  forall F pol o p,
  from_insight F pol o = Ok p ->
  forall x y t, outside_of (sample_x F) (length (if_x F)) x \/ outside_of (sample_y F) (length (if_y F)) y \/ outside_of (sample_t F) (length (if_t F)) t ->
    p_eval p x y t = RtoC 0.
Proof. exact c74_outside. Qed.
Print Assumptions C74_outside.
(** C74: which well-formed files are accepted. *)
Theorem C74_constructs :
  forall F pol o,
  shp (if_data F) = [length (if_x F); length (if_y F); length (if_t F)] ->
  (1 <= length (if_x F))%nat -> (1 <= length (if_y F))%nat -> (2 <= length (if_t F))%nat ->
  strictly_monotone (if_x F) ->
  strictly_monotone (if_y F) ->
  strictly_monotone (if_t F) ->
  match o with
  | OmegaOther => from_insight F pol o = Err AssertionError
  | Barycenter => ((forall k, (k < length (if_t F))%nat -> central F k = RtoC 0) -> exists e, from_insight F pol o = Err e) /\
                  ((exists k, (k < length (if_t F))%nat /\ central F k <> RtoC 0) -> exists p, from_insight F pol o = Ok p)
  | _ => exists p, from_insight F pol o = Ok p
  end.
Proof. exact c74_constructs. Qed.
Print Assumptions C74_constructs.
(** A field exp(+i 10^15 t), the convention opposite to that of lasy: it is recognised and conjugated. *)
Example C74_nonvacuous : exists F p, from_insight F (RtoC 1, RtoC 0) Barycenter = Ok p /\ length (if_t F) = 3%nat /\
  at3 (if_data F) 1 1 2 = cis 2 /\ reproduces F p (- 10 ^ 15) /\ p_omega0 p = 10 ^ 15.
Proof.
  set (F := mkInsight (mkArr [2;2;3]%nat Complex128 (fun _ _ k => cis (INR k))) [0;1;2] [0;1] [0;1]). exists F.
  destruct (c74_constructs F (RtoC 1, RtoC 0) Barycenter) as (_ & HC); try reflexivity; try (cbn; lia).
  1-3: (left; intros i Hi; cbn in Hi; destruct i as [|[|i]]; try lia; unfold vget; cbn; lra).
  destruct HC as (p & Hp); [exists 0%nat; split; [cbn; lia|]; unfold central; cbn; rewrite cis_0; intros E; apply RtoC_inj in E; lra|].
  exists p. split; [exact Hp|]. split; [reflexivity|]. split; [cbn; f_equal; ring|].
  destruct (c74_range F (RtoC 1, RtoC 0) Barycenter p (- 10 ^ 15) (- 10 ^ 15) Hp (or_intror eq_refl)) as (w & Hw & HR); try (cbn; lia).
  - intros k Hk. exists (-1). split.
    + exists 1, 1, (INR k). split; [lra|]. split; [lra|]. split; [pose proof PI2_3_2; lra|]. split; [unfold central; cbn; ring|].
      unfold central. cbn [if_data F at3]. rewrite S_INR. replace (INR k - -1) with (INR k + 1) by ring. ring.
    + assert (E : vget (if_t F) (S k) - vget (if_t F) k = 1) by (cbn in Hk; destruct k as [|[|k]]; try lia; unfold vget; cbn; lra).
      unfold sample_t. replace (vget (if_t F) (S k) / 10 ^ 15 - vget (if_t F) k / 10 ^ 15) with (1 / 10 ^ 15) by (rewrite <- E; field).
      replace (-1 / (1 / 10 ^ 15)) with (- 10 ^ 15) by field. lra.
  - right. pose proof (pow_lt 10 15). lra.
  - assert (w = - 10 ^ 15) by lra. subst w. split; [exact HR|]. destruct HR as (-> & _). rewrite Rabs_Ropp. apply Rabs_pos_eq. pose proof (pow_lt 10 15). lra.
Qed.
