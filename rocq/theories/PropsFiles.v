(** Property theorem C26 (output files). *)
From Coq Require Import String Ascii DecimalString.
From Verif Require Import PyBase NumPy GridModel LaserSpec EnergyModel LaserModel LaserOps AnalysisModel OpenPMDModel
  FileSpec FileProofs LaserInitProofs LaserInv HistoryProofs LaserExamples.
Open Scope R_scope.

(** C26: the k-th successful write (counting from 0) wrote iteration k: at the end of any history the
    file named after k still holds what that call wrote; all names differ; the counter is the number
    of successful writes.  Formats may be any string without an underscore ("h5", "bp", ...). *)
Theorem C26_numbering :
  forall S io d lo hi np p nm nte L0 h fs, io_law io ->
  laser_init d lo hi np p nm nte = Ok L0 -> Forall fcall_ok h -> Forall fmt_ok h ->
  let '(L, fs', ws) := frun S io L0 fs h in
  l_iter L = List.length ws /\
  (forall k w, nth_error ws k = Some w ->
     fs' (file_path (wr_dir w) (wr_prefix w) (wr_fmt w) k) = Some (wr_mesh w)) /\
  (forall k k' w w', nth_error ws k = Some w -> nth_error ws k' = Some w' -> k <> k' ->
     file_path (wr_dir w) (wr_prefix w) (wr_fmt w) k <> file_path (wr_dir w') (wr_prefix w') (wr_fmt w') k').
Proof. exact c26. Qed.
Print Assumptions C26_numbering.
(** Same directory, prefix and format (any strings): distinct iterations, distinct names. *)
Theorem C26_same_arguments : forall dir prefix fmt i j, i <> j -> file_path dir prefix fmt i <> file_path dir prefix fmt j.
Proof. intros dir prefix fmt i j H E. apply H. exact (file_path_inj_same _ _ _ _ _ E). Qed.
Print Assumptions C26_same_arguments.
Theorem C26_failure :
  forall S io L fs d p x a,
  let r := fstep S io L fs (FWrite d p x a) in
  (snd (fst r) = Ok tt -> l_iter (fst (fst (fst r))) = (l_iter L + 1)%nat) /\
  (forall e, snd (fst r) = Err e -> l_iter (fst (fst (fst r))) = l_iter L).
Proof. exact c26_step. Qed.
Print Assumptions C26_failure.
(** Successful or not, write_to_file touches no other file. *)
Theorem C26_other_files :
  forall S io L fs d p x a, io_law io ->
  let r := fstep S io L fs (FWrite d p x a) in
  forall q, q <> file_path d p x (l_iter L) -> snd (fst (fst r)) q = fs q.
Proof. exact c26_others. Qed.
Print Assumptions C26_other_files.
(** Where a write of iteration i goes: the file prefix_NNNNN.format of the given directory (with or
    without trailing slash; the empty directory is the current one), where NNNNN are at least five
    decimal digits reading i.  An absolute prefix ("/...") would escape the directory. *)
Theorem C26_location :
  forall dir prefix fmt i, (forall t, prefix <> String "/" t) ->
  exists num, (5 <= String.length num)%nat /\ option_map Nat.of_uint (NilEmpty.uint_of_string num) = Some i /\
    let name := (prefix ++ "_" ++ num ++ "." ++ fmt)%string in
    file_path "" prefix fmt i = name /\
    file_path (dir ++ "/") prefix fmt i = (dir ++ "/" ++ name)%string /\
    (forall c, c <> "/"%char -> file_path (dir ++ String c "") prefix fmt i = (dir ++ String c "" ++ "/" ++ name)%string).
Proof. exact c26_location. Qed.
Print Assumptions C26_location.
Example C26_nonvacuous : io_law simple_io /\
  exists L0, laser_init Xyt [-1;-2;-3] [1;2;4] [4;3;5]%nat (ex_prof None) 1 None = Ok L0 /\
  let h := [FWrite "out" "laser" "h5" false; FWrite "out/" "laser" "bp" false] in
  Forall fcall_ok h /\ Forall fmt_ok h /\
  List.length (snd (frun id_solvers simple_io L0 (fun _ => None) h)) = 2%nat /\
  file_path "out" "laser" "h5" 12 = "out/laser_00012.h5"%string /\
  file_path "out/" "laser" "bp" 4321 = "out/laser_04321.bp"%string.
Proof.
  split; [exact simple_io_law|]. destruct (ex_xyt None I) as (L & HL). exists L. split; [exact HL|]. cbn zeta.
  assert (D1 : l_dim L = Xyt) by (destruct (laser_init_Inv _ _ _ _ _ _ _ _ HL) as (_ & _ & _ & _ & _ & _ & D1 & _); exact D1).
  destruct (xyt_samples _ _ _ _ _ _ _ _ _ HL) as (a & s & H1 & H2 & _); simpl nth; try lra; [exact I|].
  split; [repeat constructor|]. split; [repeat constructor; simpl; intuition discriminate|].
  split; [|split; reflexivity].
  cbn [frun fstep].
  destruct (write_simple L (fun _ => None) "out" "laser" "h5" a H1 D1) as (L1 & f1 & E1 & T1 & D2 & _ & m1 & M1).
  rewrite E1. cbn [fst snd]. rewrite M1.
  destruct (write_simple L1 f1 "out/" "laser" "bp" a T1 D2) as (L2 & f2 & E2 & _ & _ & _ & m2 & M2).
  rewrite E2. cbn [fst snd]. rewrite M2. reflexivity.
Qed.
