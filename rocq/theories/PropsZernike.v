(** Property theorems C50, C51, C61 (Zernike polynomials). *)
From Verif Require Import PyBase CSum NumPy NpMath NpMathProofs AnalysisModel ZernikeModel ZernikeSpec ZernikeProofs ZernikeOrtho.
From Coquelicot Require Import Coquelicot.
Open Scope R_scope.

(** C50: the index j of the pair (m, n) is sent back to that pair. *)
Theorem C50_pair :
  forall m n j,
  zernike_pair m n -> osa_index m n j -> get_zernike_nm j = (m, n).
Proof. exact c50_pair. Qed.
Print Assumptions C50_pair.
(** C50: every index gives an admissible pair with that OSA index. *)
Theorem C50_result :
  forall j,
  (0 <= j)%Z -> zernike_pair (fst (get_zernike_nm j)) (snd (get_zernike_nm j)) /\ osa_index (fst (get_zernike_nm j)) (snd (get_zernike_nm j)) j.
Proof. exact c50_result. Qed.
Print Assumptions C50_result.
Theorem C50_injective :
  forall j j',
  (0 <= j)%Z -> (0 <= j')%Z -> get_zernike_nm j = get_zernike_nm j' -> j = j'.
Proof. exact c50_injective. Qed.
Print Assumptions C50_injective.
Theorem C50_onto :
  forall m n,
  zernike_pair m n -> exists j, (0 <= j)%Z /\ get_zernike_nm j = (m, n).
Proof. exact c50_onto. Qed.
Print Assumptions C50_onto.
Example C50_nonvacuous : zernike_pair (-2) 4 /\ osa_index (-2) 4 11 /\ get_zernike_nm 11 = ((-2)%Z, 4%Z).
Proof. assert (P : zernike_pair (-2) 4) by (split; [lia|split; [lia|exists 3%Z; lia]]). assert (O : osa_index (-2) 4 11) by reflexivity. split; [exact P|]. split; [exact O|]. exact (c50_pair _ _ _ P O). Qed.
(** C51: the radial factor is the textbook sum. *)
Theorem C51_radial :
  forall rank a b rho,
  (rank = 1 \/ rank = 2)%nat -> (a <= b)%nat -> RmnGenerator rank (Z.of_nat (a + b)) (Z.of_nat (b - a)) rho = Ok (radial a b rho).
Proof. exact c51_radial. Qed.
Print Assumptions C51_radial.
(** C51: it vanishes when n - m is odd. *)
Theorem C51_odd :
  forall rank n m rho,
  (rank = 1 \/ rank = 2)%nat -> (0 < n)%Z -> Z.Odd (n - m) -> RmnGenerator rank n m rho = Ok 0.
Proof. exact c51_odd. Qed.
Print Assumptions C51_odd.
(** C51: it is 1 at the edge of the pupil. *)
Theorem C51_edge :
  forall rank n m rho,
  (rank = 1 \/ rank = 2)%nat -> zernike_pair m n -> (0 <= m)%Z -> rho = 1 -> RmnGenerator rank n m rho = Ok 1.
Proof. exact c51_edge. Qed.
Print Assumptions C51_edge.
(** C51: it has the parity of n. *)
Theorem C51_parity :
  forall rank n m rho,
  (rank = 1 \/ rank = 2)%nat -> zernike_pair m n -> (0 <= m)%Z ->
  exists v, RmnGenerator rank n m rho = Ok v /\ RmnGenerator rank n m (- rho) = Ok ((-1) ^ Z.to_nat m * v).
Proof. exact c51_parity. Qed.
Print Assumptions C51_parity.
(** C51: the mode in polar coordinates about the pupil. *)
Theorem C51_mode :
  forall rank cx cy r j rho th m n,
  (rank = 1 \/ rank = 2)%nat -> 0 < r -> 0 <= rho -> zernike_pair m n -> osa_index m n j ->
  zernike rank (cx + r * (rho * cos th)) (cy + r * (rho * sin th)) (cx, cy, r) j =
  Ok (zernike_norm m n * radial (Z.to_nat ((n - Z.abs m) / 2)) (Z.to_nat ((n + Z.abs m) / 2)) rho * azimuthal m th).
Proof. exact c51_mode. Qed.
Print Assumptions C51_mode.
(** C51: only the position relative to the pupil matters. *)
Theorem C51_scaling :
  forall rank x y cx cy r j,
  0 < r -> zernike rank x y (cx, cy, r) j = zernike rank ((x - cx) / r) ((y - cy) / r) (0, 0, 1) j.
Proof. exact c51_scaling. Qed.
Print Assumptions C51_scaling.
(** C51: only one- and two-dimensional grids are accepted. *)
Theorem C51_rank :
  forall rank n m rho,
  (rank <> 1 /\ rank <> 2)%nat -> RmnGenerator rank n m rho = Err ValueError.
Proof. exact c51_rank. Qed.
Print Assumptions C51_rank.
Example C51_nonvacuous : zernike_pair 1 3 /\ osa_index 1 3 8 /\ radial 1 2 (1 / 2) = - (5 / 8).
Proof. split; [split; [lia|split; [lia|exists 1%Z; lia]]|]. split; [reflexivity|]. unfold radial. simpl. field. Qed.
(** C61: with the weight rho d rho d theta over the pupil, two modes have inner product pi if they are the same and 0 otherwise. *)
Theorem C61_orthonormal :
  forall rank cx cy r j k (zj zk : R -> R -> R),
  (rank = 1 \/ rank = 2)%nat -> 0 < r -> (0 <= j)%Z -> (0 <= k)%Z ->
  (forall rho th, 0 <= rho -> zernike rank (cx + r * (rho * cos th)) (cy + r * (rho * sin th)) (cx, cy, r) j = Ok (zj rho th)) ->
  (forall rho th, 0 <= rho -> zernike rank (cx + r * (rho * cos th)) (cy + r * (rho * sin th)) (cx, cy, r) k = Ok (zk rho th)) ->
  exists A : R -> R,
    (forall rho, 0 <= rho <= 1 -> is_RInt (fun th => zj rho th * zk rho th) 0 (2 * PI) (A rho)) /\
    is_RInt (fun rho => A rho * rho) 0 1 (if Z.eqb j k then PI else 0).
Proof. exact c61_orthonormal. Qed.
Print Assumptions C61_orthonormal.
(** The modes do exist: the hypotheses of [C61_orthonormal] can be met for all indices. *)
Example C61_nonvacuous : forall j, (0 <= j)%Z -> exists zj : R -> R -> R, (forall rho th, 0 <= rho -> zernike 2 (1 + 3 * (rho * cos th)) (2 + 3 * (rho * sin th)) (1, 2, 3) j = Ok (zj rho th)).
Proof.
  intros j Hj. destruct (pair_exists j Hj) as (m & n & P & O). eexists (fun rho th => _). intros rho th H. apply c51_mode; [right; reflexivity|lra|exact H|exact P|exact O].
Qed.
