(** Property theorem C102 (the weights of the Hermite-Gauss decomposition and overlap integrals). *)
From Coq Require Import Lra Lia.
From Coquelicot Require Import Coquelicot.
From Verif Require Import PyBase NumPy AnalyticModel ModesModel ModesSpec HGConvSpec HGConv HGConv2.
Open Scope R_scope.

(** C102: for a beam without offsets whose field varies at a bounded rate and is not zero on the window, there are a resolution
    below which every call returns a positive waist, and a constant (the same for all finer resolutions) such that the weight of
    mode (i, j) is within this constant times the resolution of the overlap integral of the field with that mode. *)
Theorem C102_weights :
  forall f w0 p q i j,
  0 < w0 -> locally_lipschitz f -> Rabs p < 5 * w0 -> Rabs q < 5 * w0 -> f p q <> RtoC 0 ->
  exists M r0, 0 < r0 /\ forall r nx ny, 0 < r <= r0 -> (i < nx)%nat -> (j < ny)%nat ->
  exists wt w v, hermite_gauss_decomposition (analytic f w0 0 0) nx ny r = Ok (wt, Some w) /\ 0 < w /\ wt i j = Some v /\
    Rabs (v - square_overlap f (hg_trans_at w i j 0) (5 * w0)) <= M * r.
Proof. exact c102. Qed.
Print Assumptions C102_weights.
(** C102: and, whatever the resolution up to w0, the constant depends on the waist returned only through a range that contains it. *)
Theorem C102_range :
  forall f w0 wa wb i j, 0 < w0 -> 0 < wa <= wb -> locally_lipschitz f -> exists M, 0 <= M /\ forall r nx ny wt w,
  0 < r <= w0 -> wa <= w <= wb -> (i < nx)%nat -> (j < ny)%nat ->
  hermite_gauss_decomposition (analytic f w0 0 0) nx ny r = Ok (wt, Some w) ->
  exists v, wt i j = Some v /\ Rabs (v - square_overlap f (hg_trans_at w i j 0) (5 * w0)) <= M * r.
Proof. exact c102_range. Qed.
Print Assumptions C102_range.

(** Non-vacuity: the fundamental mode is such a field. *)
Example C102_nonvacuous : 0 < 1 /\ locally_lipschitz (hg_trans_at 1 0 0 0) /\ Rabs 0 < 5 * 1 /\ hg_trans_at 1 0 0 0 0 0 <> RtoC 0.
Proof. split; [lra|]. split; [apply hg_locally_lipschitz; lra|]. split; [rewrite Rabs_R0; lra | apply hg00_centre; lra]. Qed.
