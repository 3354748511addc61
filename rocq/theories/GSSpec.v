(** Vocabulary for C52, C53, C62. *)
From Verif Require Import PyBase NpMath GridModel LaserModel SolverSpec GSModel.
Open Scope R_scope.

(** Overwriting the temporal field of laser L with a, calling propagate(d) and reading the temporal
    field gives f. *)
Definition carried (S : solvers) (L : laser) (d : R) (a f : ndarray) : Prop :=
  exists g0 L', set_temporal_field (l_grid L) a = (g0, Ok tt) /\
    propagate S (set_grid L g0) d None None backend_NP = (L', Ok tt) /\
    snd (get_temporal_field (l_grid L')) = Ok f.
(** The array A exp(i p). *)
Definition polar (s : list nat) (A p : nat -> nat -> nat -> R) : ndarray :=
  mkArr s Complex128 (fun i j k => Cmult (RtoC (A i j k)) (cis (p i j k))).
Definition modulus (f : ndarray) (i j k : nat) : R := Cmod (at3 f i j k).
Definition argument (f : ndarray) (i j k : nat) : R := angle (at3 f i j k).
(** The textbook iteration between the planes of L1 and L2: [rounds n p1 p2 f] holds of the phases
    after n rounds and of the field f that arrived back in the first plane. *)
Inductive rounds (S : solvers) (L1 L2 : laser) (dz : R) (s : list nat) (A1 A2 : nat -> nat -> nat -> R)
  : nat -> (nat -> nat -> nat -> R) -> (nat -> nat -> nat -> R) -> ndarray -> Prop :=
| first_round : forall f1 f2,
    carried S L1 dz (polar s A1 (fun _ _ _ => 0)) f1 ->
    carried S L2 (- dz) (polar s A2 (argument f1)) f2 ->
    rounds S L1 L2 dz s A1 A2 1 (argument f2) (argument f1) f2
| next_round : forall n p1 p2 f f1 f2,
    rounds S L1 L2 dz s A1 A2 n p1 p2 f ->
    carried S L1 dz (polar s A1 p1) f1 ->
    carried S L2 (- dz) (polar s A2 (argument f1)) f2 ->
    rounds S L1 L2 dz s A1 A2 (Datatypes.S n) (argument f2) (argument f1) f2.
(** Sum over all samples of an array of shape [n0;n1;nt] *)
Definition total (s : list nat) (F : nat -> nat -> nat -> R) : R :=
  rsum3 (nth 0 s 0%nat) (nth 1 s 0%nat) (nth 2 s 0%nat) F.
(** A real-valued array holds the numbers F. *)
Definition holds (a : ndarray) (s : list nat) (F : nat -> nat -> nat -> R) : Prop :=
  shp a = s /\ dty a = Float64 /\ forall i j k, at3 a i j k = RtoC (F i j k).
(** The solver superposes: step(x - y) = step(x) - step(y). *)
Definition superposes (S : solvers) : Prop :=
  (forall p x y d k j, (k < length (rp_k p))%nat -> (j < length (rp_r p))%nat ->
     step_rt S p (fun k j => Cminus (x k j) (y k j)) d k j = Cminus (step_rt S p x d k j) (step_rt S p y d k j)) /\
  (forall p x y d k i j, (k < length (fp_k p))%nat -> (i < snd (fp_x p))%nat -> (j < snd (fp_y p))%nat ->
     step_xyt S p (fun k i j => Cminus (x k i j) (y k i j)) d k i j = Cminus (step_xyt S p x d k i j) (step_xyt S p y d k i j)).
(** The two lasers are of the same kind: same geometry, transverse grid, modes, frequencies, and the
    same propagator object, if any, left from earlier calls. *)
Definition same_kind (L1 L2 : laser) : Prop :=
  l_dim L1 = l_dim L2 /\ l_omega L1 = l_omega L2 /\ p_omega0 (l_prof L1) = p_omega0 (l_prof L2) /\
  g_shape (l_grid L1) = g_shape (l_grid L2) /\ g_modes (l_grid L1) = g_modes (l_grid L2) /\
  nth 0 (g_axes (l_grid L1)) [] = nth 0 (g_axes (l_grid L2)) [] /\
  (l_dim L1 <> Rt -> nth 1 (g_axes (l_grid L1)) [] = nth 1 (g_axes (l_grid L2)) []) /\
  nth 0 (g_lo (l_grid L1)) 0 = nth 0 (g_lo (l_grid L2)) 0 /\ nth 0 (g_hi (l_grid L1)) 0 = nth 0 (g_hi (l_grid L2)) 0 /\
  (l_dim L1 <> Rt -> nth 1 (g_lo (l_grid L1)) 0 = nth 1 (g_lo (l_grid L2)) 0 /\ nth 1 (g_hi (l_grid L1)) 0 = nth 1 (g_hi (l_grid L2)) 0) /\
  l_prop L1 = l_prop L2.
(** Area weight of a sample: r in cylindrical geometry, 1 in cartesian geometry. *)
Definition area (L : laser) (j : nat) : R := match l_dim L with Rt => nth j (nth 0 (g_axes (l_grid L)) []) 0 | _ => 1 end.
(** Weighted squared mismatch between the modulus of f and the amplitude A. *)
Definition mismatch (L : laser) (s : list nat) (f : ndarray) (A : nat -> nat -> nat -> R) : R :=
  total s (fun i j k => area L j * (modulus f i j k - A i j k) ^ 2).
(** The numbers in a real-valued array. *)
Definition real_part (a : ndarray) (i j k : nat) : R := Re (at3 a i j k).
(** What the error-reduction theorem assumes of the solver (all satisfied by the angular-spectrum method). *)
Definition lawful (S : solvers) : Prop := per_frequency S /\ superposes S /\ unitary S /\ additive S /\ zero_step S.
(** Sum of the absolute deviations between the modulus of f and the amplitude A. *)
Definition deviation (s : list nat) (f : ndarray) (A : nat -> nat -> nat -> R) : R := total s (fun i j k => Rabs (modulus f i j k - A i j k)).
