(** What an expression over profiles and numbers means, pointwise. *)
From Verif Require Import PyBase LaserModel ProfileModel.
Open Scope R_scope.

Definition val_at (v : pyval) (x y t : R) : C :=
  match v with VProf p => p_eval p x y t | VNum k => RtoC k | VComplex z => z | VOther => RtoC 0 end.
Fixpoint expr_at (e : pexpr) (x y t : R) : C :=
  match e with
  | EVal v => val_at v x y t
  | EAdd a b => Cplus (expr_at a x y t) (expr_at b x y t)
  | EMul a b => Cmult (expr_at a x y t) (expr_at b x y t)
  end.
(** The profiles occurring in an expression, from left to right. *)
Fixpoint leaves (e : pexpr) : list profile :=
  match e with
  | EVal (VProf p) => [p]
  | EVal _ => []
  | EAdd a b | EMul a b => leaves a ++ leaves b
  end.
Definition unit_pol (p : C * C) : Prop := Cmod (fst p) ^ 2 + Cmod (snd p) ^ 2 = 1.
