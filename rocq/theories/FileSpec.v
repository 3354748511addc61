(** Histories that also write files: specification vocabulary for C26. *)
From Coq Require Import String Ascii.
From Verif Require Import PyBase NumPy GridModel EnergyModel LaserModel LaserOps OpenPMDModel.
Open Scope R_scope.

(** A call on a Laser: one of the methods that do not write (see [lop]), or write_to_file. *)
Inductive fcall : Type :=
| FOp (o : lop)
| FWrite (dir prefix fmt : string) (save_a : bool).
Definition not_write (o : lop) : Prop := match o with OpWrite _ => False | _ => True end.
Definition fcall_ok (f : fcall) : Prop := match f with FOp o => not_write o | _ => True end.

(** What one successful write_to_file call did: its arguments, the mesh handed to the openPMD
    library. *)
Record wrote : Type := mkWrote { wr_dir : string; wr_prefix : string; wr_fmt : string; wr_mesh : mesh }.

(** One call: new laser, new file system, outcome, and the record of a successful write. *)
Definition fstep (S : solvers) (io : io_t) (L : laser) (fs : fsys) (f : fcall)
  : laser * fsys * res unit * option wrote :=
  match f with
  | FOp o => (fst (lstep S L o), fs, snd (lstep S L o), None)
  | FWrite d p x a =>
      let r := write_file io L fs d p x a in
      (fst (fst r), snd (fst r), snd r,
       match snd r, snd (build_mesh (l_dim L) (l_grid L) (p_lambda0 (l_prof L)) (p_pol (l_prof L)) a) with
       | Ok _, Ok m => Some (mkWrote d p x m)
       | _, _ => None
       end)
  end.
(** A history: final laser, final file system, successful writes in order. *)
Fixpoint frun (S : solvers) (io : io_t) (L : laser) (fs : fsys) (h : list fcall) : laser * fsys * list wrote :=
  match h with
  | [] => (L, fs, [])
  | f :: t =>
      let '(L1, fs1, _, w) := fstep S io L fs f in
      let '(L2, fs2, ws) := frun S io L1 fs1 t in
      (L2, fs2, match w with Some e => e :: ws | None => ws end)
  end.

(** The openPMD library only touches the file it is given (also when the mesh is never completed), and
    a write that does not raise leaves the mesh there. *)
Definition io_law (io : io_t) : Prop :=
  forall fs p m,
    (forall q, q <> p -> fst (io fs p m) q = fs q) /\
    (forall x, m = Some x -> snd (io fs p m) = Ok tt -> fst (io fs p m) p = Some x).

Fixpoint has_char (c : ascii) (s : string) : Prop :=
  match s with EmptyString => False | String d t => c = d \/ has_char c t end.
