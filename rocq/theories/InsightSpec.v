(** Vocabulary for C74 (profiles from INSIGHT files). *)
From Verif Require Import PyBase NumPy LaserModel InsightModel.
Open Scope R_scope.

(** Positions and times of the samples: the file has millimetres and femtoseconds. *)
Definition sample_x (F : insight_file) (i : nat) : R := vget (if_x F) i / 1000.
Definition sample_y (F : insight_file) (j : nat) : R := vget (if_y F) j / 1000.
Definition sample_t (F : insight_file) (k : nat) : R := vget (if_t F) k / 10 ^ 15.
(** The measured field on the axis of the measurement: the middle column. *)
Definition central (F : insight_file) (k : nat) : C := at3 (if_data F) (length (if_x F) / 2) (length (if_y F) / 2) k.
(** Between samples k and k+1 the phase of the field decreases by s, |s| < pi, the field vanishing at neither. *)
Definition phase_drop (F : insight_file) (k : nat) (s : R) : Prop :=
  exists r0 r1 th, 0 < r0 /\ 0 < r1 /\ - PI < s < PI /\ central F k = Cmult (RtoC r0) (cis th) /\ central F (S k) = Cmult (RtoC r1) (cis (th - s)).
(** Between samples k and k+1 the local frequency of E ~ exp(-i omega t) is in [lo, hi]. *)
Definition local_freq (F : insight_file) (k : nat) (lo hi : R) : Prop :=
  exists s, phase_drop F k s /\ lo <= s / (sample_t F (S k) - sample_t F k) <= hi.
(** v lies below all of the n samples of an axis, or above all of them. *)
Definition outside_of (sample : nat -> R) (n : nat) (v : R) : Prop :=
  (forall i, (i < n)%nat -> v < sample i) \/ (forall i, (i < n)%nat -> sample i < v).
(** Sample k is one of the brightest. *)
Definition brightest (F : insight_file) (k : nat) : Prop :=
  (k < length (if_t F))%nat /\ forall q, (q < length (if_t F))%nat -> Cmod (central F q) <= Cmod (central F k).
(** The profile p has the positive frequency |w| and, at every sample, its envelope under the carrier exp(-i |w| t) is the
    measured field, or its complex conjugate if w is negative (data in the other convention). *)
Definition reproduces (F : insight_file) (p : profile) (w : R) : Prop :=
  p_omega0 p = Rabs w /\
  forall i j k, (i < length (if_x F))%nat -> (j < length (if_y F))%nat -> (k < length (if_t F))%nat ->
    let E := Cmult (p_eval p (sample_x F i) (sample_y F j) (sample_t F k)) (cis (- (p_omega0 p * sample_t F k))) in
    (0 < w -> E = at3 (if_data F) i j k) /\ (w < 0 -> E = Cconj (at3 (if_data F) i j k)).
