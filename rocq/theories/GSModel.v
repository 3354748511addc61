(** Model of lasy/utils/phase_retrieval.py (gerchberg_saxton_algo). *)
From Verif Require Import PyBase NpFFT NumPy NpMath GridModel EnergyModel LaserModel.
Open Scope R_scope.

(** ** Objects and references.  Laser objects live on a heap; a Python variable holds a reference.
    Everything that is not a Laser (arrays, numbers) is a value: phase_retrieval.py only ever binds
    fresh arrays (np.abs, np.angle, np.exp, products), never an array of a grid. *)
Definition heap : Type := list laser.
Definition hm (A : Type) : Type := heap -> heap * res A.
Definition hret {A} (a : A) : hm A := fun h => (h, Ok a).
Definition hlift {A} (m : res A) : hm A := fun h => (h, m).
Definition hbind {A B} (m : hm A) (f : A -> hm B) : hm B :=
  fun h => let q := m h in match snd q with Ok a => f a (fst q) | Err e => (fst q, Err e) end.
Notation "'dh' x <- m ; f" := (hbind m (fun x => f)) (at level 200, x name, m at level 100, f at level 200).

(** copy.deepcopy(laser): a new object with the same contents. *)
Definition h_deepcopy (r : nat) : hm nat := fun h =>
  match nth_error h r with Some L => (h ++ [L], Ok (length h)) | None => (h, Err OtherException) end.
(** A method call on the object at r: changes that object only. *)
Definition h_call {A} (r : nat) (f : laser -> laser * res A) : hm A := fun h =>
  match nth_error h r with
  | Some L => let q := f L in (set_nth h r (fst q), snd q)
  | None => (h, Err OtherException)
  end.
Definition h_get_t (r : nat) : hm ndarray :=
  h_call r (fun L => let q := get_temporal_field (l_grid L) in (set_grid L (fst q), snd q)).
Definition h_set_t (r : nat) (a : ndarray) : hm unit :=
  h_call r (fun L => let q := set_temporal_field (l_grid L) a in (set_grid L (fst q), snd q)).
(** laser.propagate(d, show_progress=False): default backend "NP", no absorbing layer, no new grid. *)
Definition backend_NP : backend_t := 0%nat.
Definition h_propagate (S : solvers) (r : nat) (d : R) : hm unit :=
  h_call r (fun L => propagate S L d None None backend_NP).

(** ** numpy *)
Definition np_abs (a : ndarray) : ndarray := mkArr (shp a) Float64 (fun i j k => RtoC (Cmod (at3 a i j k))).
Definition np_angle (a : ndarray) : ndarray := mkArr (shp a) Float64 (fun i j k => RtoC (angle (at3 a i j k))).
(** np.exp(1j * phase), phase a real array *)
Definition np_expi (p : ndarray) : ndarray := mkArr (shp p) Complex128 (fun i j k => cis (Re (at3 p i j k))).
Definition np_zeros_like (a : ndarray) : ndarray := zeros (shp a) (dty a).
(** Broadcasting of two arrays of rank 3 (the rank of every field). *)
Definition bdim (a b : nat) : option nat :=
  if (a =? b)%nat then Some a else if (a =? 1)%nat then Some b else if (b =? 1)%nat then Some a else None.
Fixpoint bshape (s t : list nat) : option (list nat) :=
  match s, t with
  | [], [] => Some []
  | a :: s, b :: t => match bdim a b, bshape s t with Some c, Some r => Some (c :: r) | _, _ => None end
  | _, _ => None
  end.
(* index into a dimension of size n when the result has size m there (n = m or n = 1) *)
Definition bidx (n m i : nat) : nat := if (n =? m)%nat then i else 0%nat.
Definition bget (s : list nat) (a : ndarray) (i j k : nat) : C :=
  at3 a (bidx (dim0 a) (nth 0 s 0%nat) i) (bidx (dim1 a) (nth 1 s 0%nat) j) (bidx (dim2 a) (nth 2 s 0%nat) k).
Definition np_binop (f : C -> C -> C) (d : dtype) (a b : ndarray) : res ndarray :=
  match bshape (shp a) (shp b) with
  | Some s => Ok (mkArr s d (fun i j k => f (bget s a i j k) (bget s b i j k)))
  | None => Err ValueError
  end.
(** np.sum of a real array *)
Definition np_sum (a : ndarray) : R := rsum3 (dim0 a) (dim1 a) (dim2 a) (fun i j k => Re (at3 a i j k)).
(** a / s > e for numpy floats: a division by zero gives +inf, -inf or nan. *)
Definition np_ratio_gt (a s e : R) : bool := if Reqb s 0 then Rltb 0 a else Rltb e (a / s).

(** phase_retrieval.py:14 argument condition *)
Inductive gs_condition : Type := MaxIterations | AmplitudeError | OtherCondition.
(** phase_retrieval.py:59-70 the function breakout (None: the name is unbound) and the initial cond. *)
Definition gs_breakout (c : gs_condition) (max_iterations : Z) (amplitude_error amp1_summed : R) : option (R -> bool) :=
  match c with
  | MaxIterations => Some (fun cond => Rltb cond (IZR max_iterations))
  | AmplitudeError => Some (fun amp => np_ratio_gt amp amp1_summed amplitude_error)
  | OtherCondition => None
  end.
Definition gs_cond0 (c : gs_condition) : R := match c with AmplitudeError => 9 * 10 ^ 30 | _ => 0 end.
(** phase_retrieval.py:91-94 *)
Definition gs_next (c : gs_condition) (cond err : R) : R := match c with MaxIterations => cond + 1 | _ => err end.

(** phase_retrieval.py:74-84 one pass of the loop: new phase1, phase2 and amp_error_summed.
    (Lines 85-90 only print.) *)
Definition gs_body (S : solvers) (r1 r2 : nat) (dz : R) (amp1 amp2 phase1 : ndarray) : hm (ndarray * ndarray * R) :=
  dh e1 <- hlift (np_binop Cmult Complex128 amp1 (np_expi phase1));
  dh u1 <- h_set_t r1 e1;
  dh u2 <- h_propagate S r1 dz;
  dh f1 <- h_get_t r1;
  dh e2 <- hlift (np_binop Cmult Complex128 amp2 (np_expi (np_angle f1)));
  dh u3 <- h_set_t r2 e2;
  dh u4 <- h_propagate S r2 (- dz);
  dh f2 <- h_get_t r2;
  dh de <- hlift (np_binop Cminus Float64 (np_abs (np_abs f2)) amp1);
  hret (np_angle f2, np_angle f1, np_sum de).

(** phase_retrieval.py:73-96.  [fuel] bounds the number of tests of the loop condition (None: not
    finished).  [last] holds phase2 and amp_error_summed, unbound before the first pass. *)
Fixpoint gs_loop (fuel : nat) (S : solvers) (r1 r2 : nat) (dz : R) (amp1 amp2 : ndarray) (c : gs_condition)
    (breakout : R -> bool) (cond : R) (phase1 : ndarray) (last : option (ndarray * R)) (h : heap)
    : option (heap * res (ndarray * ndarray * R)) :=
  match fuel with
  | O => None
  | S fuel =>
      if breakout cond then
        let q := gs_body S r1 r2 dz amp1 amp2 phase1 h in
        match snd q with
        | Err e => Some (fst q, Err e)
        | Ok (p1, p2, err) => gs_loop fuel S r1 r2 dz amp1 amp2 c breakout (gs_next c cond err) p1 (Some (p2, err)) (fst q)
        end
      else
        Some (h, match last with Some (p2, err) => Ok (phase1, p2, err) | None => Err UnboundLocalError end)
  end.

(** phase_retrieval.py:6-96 gerchberg_saxton_algo(lasers at p1 and p2, dz, condition, max_iterations,
    amplitude_error). *)
Definition gs_prepare (p1 p2 : nat) : hm (nat * nat * ndarray * ndarray) :=
  dh r1 <- h_deepcopy p1;
  dh r2 <- h_deepcopy p2;
  dh f1 <- h_get_t r1;
  dh f2 <- h_get_t r2;
  hret (r1, r2, np_abs f1, np_abs f2).
Definition gerchberg_saxton (fuel : nat) (S : solvers) (h : heap) (p1 p2 : nat) (dz : R) (c : gs_condition)
    (max_iterations : Z) (amplitude_error : R) : option (heap * res (ndarray * ndarray * R)) :=
  let q := gs_prepare p1 p2 h in
  match snd q with
  | Err e => Some (fst q, Err e)
  | Ok (r1, r2, amp1, amp2) =>
      let phase1 := np_zeros_like amp1 in
      match gs_breakout c max_iterations amplitude_error (np_sum amp1) with
      | None => Some (fst q, Err UnboundLocalError)
      | Some breakout => gs_loop fuel S r1 r2 dz amp1 amp2 c breakout (gs_cond0 c) phase1 None (fst q)
      end
  end.
