(** Vocabulary of C100: where the window ought to be. *)
From Verif Require Import PyBase FloatModel.
Open Scope R_scope.

(** Time taken by the whole path, and by the path with every step counted positively. *)
Fixpoint path_time (ds : list R) : R := match ds with [] => 0 | d :: t => d / c_light + path_time t end.
Fixpoint path_length (ds : list R) : R := match ds with [] => 0 | d :: t => Rabs d / c_light + path_length t end.
(** A distance whose travel time is not below the normal range of doubles. *)
Definition normal_distance (d : R) : Prop := d = 0 \/ / 2 ^ 1022 <= Rabs d / c_light.
(** Unit roundoff of double precision. *)
Definition u64 : R := / 2 ^ 53.
(** A time axis that double precision can hold: representable ends, and a spacing that does not underflow. *)
Definition axis_ok (lo hi : R) (n : nat) : Prop :=
  is_b64 lo /\ is_b64 hi /\ lo < hi /\ (2 <= n)%nat /\ INR n <= 2 ^ 50 /\ / 2 ^ 1021 <= (hi - lo) / (INR n - 1).
