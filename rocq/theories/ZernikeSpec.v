(** Vocabulary for C50, C51. *)
From Verif Require Import PyBase.
Open Scope R_scope.

(** An admissible pair of Zernike indices. *)
Definition zernike_pair (m n : Z) : Prop := (0 <= n)%Z /\ (Z.abs m <= n)%Z /\ Z.Even (n - m).
(** The OSA/ANSI index of a pair. *)
Definition osa_index (m n j : Z) : Prop := (2 * j = n * (n + 2) + m)%Z.
(** Radial polynomial of degree n = a + b and azimuthal order b - a:
    sum_k (-1)^k (n-k)! / (k! (b-k)! (a-k)!) rho^(n-2k). *)
Definition radial (a b : nat) (rho : R) : R :=
  rsum (S a) (fun k => (-1) ^ k * INR (fact (a + b - k)) / (INR (fact k) * INR (fact (b - k)) * INR (fact (a - k))) * rho ^ (a + b - 2 * k)).
(** Azimuthal part. *)
Definition azimuthal (m : Z) (theta : R) : R := if Z.ltb m 0 then sin (- IZR m * theta) else cos (IZR m * theta).
(** Normalisation. *)
Definition zernike_norm (m n : Z) : R := if Z.eqb m 0 then sqrt (IZR n + 1) else sqrt (2 * (IZR n + 1)).
