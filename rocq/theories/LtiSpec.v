(** Vocabulary of C93: linear diffraction solvers, transfer kernels, calls that act linearly. *)
From Verif Require Import PyBase CSum NumPy GridModel EnergyModel LaserModel LaserOps.
Open Scope R_scope.

(** Number of radial points of the output of a cylindrical solver. *)
Definition out_points (p : rt_prop) : nat := match rp_rnew p with None => length (rp_r p) | Some l => length l end.
(** A linear solver, one frequency at a time: with coefficients a_k, b_k that may depend on the
    frequency, the output for a x + b y is a (output for x) + b (output for y); only the samples
    inside the arrays matter. *)
Record linear_solver (S : solvers) : Prop := mkLS {
  ls_rt : forall p (a b : nat -> C) x y w d,
    (forall k j, (k < length (rp_k p))%nat -> (j < length (rp_r p))%nat ->
       w k j = Cplus (Cmult (a k) (x k j)) (Cmult (b k) (y k j))) ->
    forall k j, (k < length (rp_k p))%nat -> (j < out_points p)%nat ->
      step_rt S p w d k j = Cplus (Cmult (a k) (step_rt S p x d k j)) (Cmult (b k) (step_rt S p y d k j));
  ls_xy : forall p (a b : nat -> C) x y w d,
    (forall k i j, (k < length (fp_k p))%nat -> (i < snd (fp_x p))%nat -> (j < snd (fp_y p))%nat ->
       w k i j = Cplus (Cmult (a k) (x k i j)) (Cmult (b k) (y k i j))) ->
    forall k i j, (k < length (fp_k p))%nat -> (i < snd (fp_x p))%nat -> (j < snd (fp_y p))%nat ->
      step_xyt S p w d k i j = Cplus (Cmult (a k) (step_xyt S p x d k i j)) (Cmult (b k) (step_xyt S p y d k i j))
}.

(** A transfer kernel: T i j i' j' k is the contribution of the spectral sample (i', j') at frequency
    k to the sample (i, j) at the same frequency. *)
Definition kernel : Type := nat -> nat -> nat -> nat -> nat -> C.
Definition kapply (n0 n1 : nat) (T : kernel) (s : nat -> nat -> nat -> C) (i j k : nat) : C :=
  csum n0 (fun i' => csum n1 (fun j' => Cmult (T i j i' j' k) (s i' j' k))).
(** No coupling between different first indices (azimuthal modes in rt geometry). *)
Definition mode_diagonal (T : kernel) : Prop := forall i j i' j' k, i <> i' -> T i j i' j' k = RtoC 0.

(** Every call except normalize; a new grid passed to propagate is an rt envelope grid. *)
Definition linear_op (o : lop) : Prop := match o with OpNormalize _ _ => False | _ => user_op o end.
Definition is_write (o : lop) : Prop := match o with OpWrite _ => True | _ => False end.
(** The time limits moved by tau (the time is the last coordinate). *)
Definition later (tau : R) (l : list R) : list R := removelast l ++ [last l 0 + tau].
(** The same axes, the time axis moved by tau. *)
Definition axes_later (tau : R) (ax ax' : list (list R)) : Prop :=
  ax' = removelast ax ++ [map (fun t => t + tau) (last ax [])].
(** How each call of a history ended (calls of write_to_file, whose outcome depends on the file system, left out). *)
Fixpoint outcomes (S : solvers) (L : laser) (h : list lop) : list (option (res unit)) :=
  match h with
  | [] => []
  | o :: t => match o with OpWrite _ => None | _ => Some (snd (lstep S L o)) end :: outcomes S (fst (lstep S L o)) t
  end.

(** An element that acts on the colours only: its multiplier does not depend on the transverse position. *)
Definition spectral_element (e : optic) : Prop := forall x y x' y' w w0, e x y w w0 = e x' y' w w0.

(** Cells of positive size: positive spacings and, in rt geometry, radii that are not negative. *)
Definition positive_cells (d : pydim) (g : grid) : Prop :=
  Forall (fun h => 0 < h) (g_dx g) /\ (d = Rt -> Forall (fun r => 0 <= r) (nth 0 (g_axes g) [])).
(** Calls of a history with normalizations to positive values (or None). *)
Definition scaling_op (o : lop) : Prop :=
  match o with
  | OpNormalize (Some v) _ => 0 < v
  | OpPropagate _ _ (Some gn) _ => user_grid gn /\ positive_cells Rt gn
  | _ => True
  end.
(** The same calls without the normalizations. *)
Definition is_normalize (o : lop) : bool := match o with OpNormalize _ _ => true | _ => false end.
Definition without_normalize (h : list lop) : list lop := filter (fun o => negb (is_normalize o)) h.
(** How the calls other than normalize (and write_to_file) ended. *)
Fixpoint other_outcomes (S : solvers) (L : laser) (h : list lop) : list (res unit) :=
  match h with
  | [] => []
  | o :: t => match o with OpNormalize _ _ | OpWrite _ => [] | _ => [snd (lstep S L o)] end ++ other_outcomes S (fst (lstep S L o)) t
  end.
