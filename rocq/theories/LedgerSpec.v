(** Vocabulary of C99: the energy at one frequency, and histories of passive elements. *)
From Verif Require Import PyBase CSum NumPy GridModel LaserModel LaserOps.
Open Scope R_scope.

(** Energy at frequency k (up to a constant): the squared spectrum summed over the cells, weighted with the radius in
    cylindrical geometry. *)
Definition freq_power (d : pydim) (g : grid) (s : ndarray) (k : nat) : R :=
  rsum (dim0 s) (fun i => rsum (dim1 s) (fun j =>
    match d with Rt => axis_at g 0 j | _ => 1 end * Cnorm2 (at3 s i j k))).

(** No element amplifies; an absorbing layer may be used; no new grid. *)
Definition passive_op (o : lop) : Prop :=
  match o with
  | OpPropagate _ _ None _ => True
  | OpOptics e => forall x y w w0, Cmod (e x y w w0) <= 1
  | OpWrite _ => True
  | _ => False
  end.

(** No absorbing layer, and elements whose transmission |e|^2 depends on the frequency only:
    the product of these transmissions. *)
Inductive transmits : list lop -> (R -> R -> R) -> Prop :=
| tr_nil : transmits [] (fun _ _ => 1)
| tr_propagate d b h G : transmits h G -> transmits (OpPropagate d None None b :: h) G
| tr_rejected d nr b h G : nr = PyOther \/ (exists z, nr = PyInt z /\ (z <= 0)%Z) ->
    transmits h G -> transmits (OpPropagate d (Some nr) None b :: h) G
| tr_write w h G : transmits h G -> transmits (OpWrite w :: h) G
| tr_element e g h G : (forall x y w w0, Cmod (e x y w w0) ^ 2 = g w w0) ->
    transmits h G -> transmits (OpOptics e :: h) (fun w w0 => g w w0 * G w w0).
