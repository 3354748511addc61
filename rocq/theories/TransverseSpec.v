(** Vocabulary for the theorems on transverse profile objects. *)
From Verif Require Import PyBase AnalyticModel.
Open Scope R_scope.

(** A heap some program can produce. *)
Definition theap_reachable (h : theap) : Prop := exists ops, trun [] ops = Ok h.
(** q is r itself or one of the profiles r was built from. *)
Inductive part_of (h : theap) : nat -> nat -> Prop :=
  | part_self r : part_of h r r
  | part_sum r rs o q s : nth_error h r = Some o -> t_body o = TSum rs -> In q rs -> part_of h s q -> part_of h s r
  | part_scale r k o q s : nth_error h r = Some o -> t_body o = TScale q k -> part_of h s q -> part_of h s r.
(** The offset object r was last given in a list of operations, if any. *)
Fixpoint last_offset (ops : list top) (r : nat) (d : R * R) : R * R :=
  match ops with
  | [] => d
  | TOffset q dx dy :: ops => last_offset ops r (if (q =? r)%nat then (dx, dy) else d)
  | _ :: ops => last_offset ops r d
  end.
Definition is_leaf (o : tobj) : Prop := exists f, t_body o = TLeaf f.
