(** Specification vocabulary for C84: programs with several lasers. *)
From Verif Require Import PyBase NumPy GridModel EnergyModel LaserModel LaserOps WorldModel.
Open Scope R_scope.

(** Laser l exists and Grid g is (the object) self.grid of it. *)
Definition uses (w : world) (l g : nat) : Prop := (l < w_nl w)%nat /\ w_lg w l = g.
(** The call does not resample onto a Grid object that some laser is using. *)
Definition free_target (w : world) (o : wop) : Prop :=
  match o with CallPropagate _ _ _ (Some g) _ => forall l, ~ uses w l g | _ => True end.
Fixpoint free_targets (S : solvers) (w : world) (h : list wop) : Prop :=
  match h with [] => True | o :: t => free_target w o /\ free_targets S (fst (wstep S w o)) t end.
(** The call is a method of Laser l, or of the Grid it is using. *)
Definition acts_on (w : world) (o : wop) (l : nat) : Prop :=
  match o with
  | NewLaser _ _ _ _ _ _ _ | NewGrid _ _ _ _ _ _ => False
  | CallGrid g _ => w_lg w l = g
  | CallPropagate l' _ _ _ _ | CallOptics l' _ | CallNormalize l' _ _ | CallWrite l' _ => l' = l
  end.
(** The method calls made on Laser l in a program, each with the value that the Grid passed as
    argument had at the time. *)
Definition call_on (w : world) (o : wop) (l : nat) : list lop :=
  match o with
  | CallPropagate l' dist nr g b =>
      if Nat.eqb l' l then
        match g with
        | Some g => if Nat.ltb g (w_ng w) then [OpPropagate dist nr (Some (grid_at w g)) b]
                    else match l_dim (w_la w l) with Rt => [] | _ => [OpPropagate dist nr None b] end
        | None => [OpPropagate dist nr None b]
        end
      else []
  | CallOptics l' e => if Nat.eqb l' l then [OpOptics e] else []
  | CallNormalize l' v k => if Nat.eqb l' l then [OpNormalize v k] else []
  | CallWrite l' f => if Nat.eqb l' l then [OpWrite f] else []
  | _ => []
  end.
Fixpoint calls_on (S : solvers) (w : world) (h : list wop) (l : nat) : list lop :=
  match h with [] => [] | o :: t => call_on w o l ++ calls_on S (fst (wstep S w o)) t l end.
(** No method of the laser's Grid is called directly. *)
Fixpoint no_grid_calls (S : solvers) (w : world) (h : list wop) (l : nat) : Prop :=
  match h with
  | [] => True
  | o :: t => match o with CallGrid g _ => w_lg w l <> g | _ => True end /\ no_grid_calls S (fst (wstep S w o)) t l
  end.
