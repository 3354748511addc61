(** Histories of calls on a Laser. *)
From Verif Require Import PyBase NumPy GridModel GridSpec GridProofs EnergyModel LaserModel.
Open Scope R_scope.

(** Calls a user can make on a Laser object (arguments as in laser.py; [w] stands for the file
    system / openPMD library, see write_to_file). *)
Inductive lop : Type :=
| OpPropagate (dist : R) (nr : option pynum) (newgrid : option grid) (b : backend_t)
| OpOptics (o : optic)
| OpNormalize (v : option R) (k : norm_kind)
| OpWrite (w : nat -> grid -> ndarray -> res unit).

Definition lstep (S : solvers) (L : laser) (o : lop) : laser * res unit :=
  match o with
  | OpPropagate dist nr ng b => propagate S L dist nr ng b
  | OpOptics e => apply_optics L e
  | OpNormalize v k => normalize L v k
  | OpWrite w => write_to_file L w
  end.

Fixpoint lrun (S : solvers) (L : laser) (h : list lop) : laser :=
  match h with [] => L | o :: t => lrun S (fst (lstep S L o)) t end.

(** Sum of the distances of the propagate calls that did not raise. *)
Fixpoint travelled (S : solvers) (L : laser) (h : list lop) : R :=
  match h with
  | [] => 0
  | o :: t =>
      (match o, snd (lstep S L o) with OpPropagate dist _ _ _, Ok _ => dist | _, _ => 0 end)
      + travelled S (fst (lstep S L o)) t
  end.

(** Every call of the history returned normally. *)
Fixpoint all_ok (S : solvers) (L : laser) (h : list lop) : Prop :=
  match h with
  | [] => True
  | o :: t => snd (lstep S L o) = Ok tt /\ all_ok S (fst (lstep S L o)) t
  end.

(** A Grid object built by the user: constructed (rt, envelope) and used through any calls. *)
Definition user_grid (g : grid) : Prop :=
  exists lo hi np M g0 h, grid_init Rt lo hi np (Some M) true = Ok g0 /\ g = grun g0 h.
Definition user_op (o : lop) : Prop :=
  match o with OpPropagate _ _ (Some g) _ => user_grid g | _ => True end.

(** propagate is called without a resampling grid. *)
Definition no_resample (o : lop) : Prop :=
  match o with OpPropagate _ _ (Some _) _ => False | _ => True end.
(** Every propagate call of the history uses backend b. *)
Definition uses_backend (b : backend_t) (o : lop) : Prop :=
  match o with OpPropagate _ _ _ b' => b' = b | _ => True end.

(** Every resampling propagate of the history returned normally (other calls may have raised). *)
Fixpoint clean (S : solvers) (L : laser) (h : list lop) : Prop :=
  match h with
  | [] => True
  | o :: t => (no_resample o \/ snd (lstep S L o) = Ok tt) /\ clean S (fst (lstep S L o)) t
  end.

(** Lasers a user can hold: constructed, then used through any such history. *)
Definition reachable (S : solvers) (L : laser) : Prop :=
  exists d lo hi np p nm nte L0 h,
    laser_init d lo hi np p nm nte = Ok L0 /\ Forall user_op h /\ clean S L0 h /\ L = lrun S L0 h.

(** A solver that does nothing (vacuum of zero length). *)
Definition id_solvers : solvers := mkSolvers (fun _ x _ => x) (fun _ x _ => x).

(** The metadata, the counter, the carrier and the solver cache. *)
Definition same_except_field (L L' : laser) : Prop :=
  l_iter L' = l_iter L /\ l_omega L' = l_omega L /\ l_prof L' = l_prof L /\ l_prop L' = l_prop L /\
  l_dim L' = l_dim L /\
  g_lo (l_grid L') = g_lo (l_grid L) /\ g_hi (l_grid L') = g_hi (l_grid L) /\
  g_axes (l_grid L') = g_axes (l_grid L) /\ g_dx (l_grid L') = g_dx (l_grid L) /\
  g_npoints (l_grid L') = g_npoints (l_grid L) /\ g_modes (l_grid L') = g_modes (l_grid L).

(** The element depends on (x,y) only through x^2+y^2. *)
Definition rotationally_symmetric (o : optic) : Prop :=
  forall x y x' y' w w0, x ^ 2 + y ^ 2 = x' ^ 2 + y' ^ 2 -> o x y w w0 = o x' y' w w0.
