(** Heap-level model of grid.py, making array identity and in-place mutation explicit.
    An array object is an address; the Grid object holds two addresses (temporal_field,
    spectral_field); the caller holds addresses of arrays it created or that a call returned. *)
From Verif Require Import PyBase NpFFT NumPy GridModel.
Open Scope R_scope.

Definition addr := nat.
Record hstate : Type := mkH {
  h_mem : addr -> ndarray;        (* contents of every array object *)
  h_next : addr;                  (* allocator: addresses >= h_next are unused *)
  h_held : list addr;             (* arrays the caller holds, oldest first *)
  h_meta : grid;                  (* scalar attributes of the Grid (its two array fields are not
                                     used here: the arrays live in h_mem) *)
  h_t : addr;                     (* self.temporal_field *)
  h_s : addr                      (* self.spectral_field *)
}.

Definition upd_mem (m : addr -> ndarray) (a : addr) (v : ndarray) : addr -> ndarray :=
  fun b => if Nat.eqb b a then v else m b.

(** The Grid as a value: what the attributes currently denote. *)
Definition deref (h : hstate) : grid :=
  let g := h_meta h in
  mkGrid (g_lo g) (g_hi g) (g_npoints g) (g_axes g) (g_dx g) (g_nmodes g) (g_modes g)
         (g_shape g) (g_isenv g) (g_dtype g) (h_mem h (h_t h)) (g_tv g) (h_mem h (h_s h)) (g_sv g).

(** [a[...] = v] on a caller-held array: overwrites entries in place (shape and dtype stay). *)
Definition overwrite (a : ndarray) (f : nat -> nat -> nat -> C) : ndarray :=
  mkArr (shp a) (dty a) (fun i j k => cast (dty a) (f i j k)).

Inductive hop : Type :=
| CNew (a : ndarray)                             (* caller creates an array *)
| CWrite (i : nat) (f : nat -> nat -> nat -> C)  (* caller writes into its i-th array *)
| CSetT (i : nat)                                (* grid.set_temporal_field(i-th array) *)
| CSetS (i : nat)
| CGetT                                          (* result becomes a new held array *)
| CGetS
| CSetEnv (b : bool).

Definition with_meta (h : hstate) (m : addr -> ndarray) (n : addr) (held : list addr)
           (g : grid) (t s : addr) : hstate := mkH m n held g t s.

(** grid.py:94-107: element-wise store into the existing temporal_field buffer. *)
Definition h_set_temporal (h : hstate) (p : addr) : hstate * res unit :=
  let field := h_mem h p in
  let buf := h_mem h (h_t h) in
  if negb (shape_eqb (shp field) (shp buf)) then (h, Err AssertionError)
  else if negb (dtype_eqb (dty field) (g_dtype (h_meta h))) then (h, Err AssertionError)
  else (mkH (upd_mem (h_mem h) (h_t h)
               (mkArr (shp buf) (dty buf) (fun i j k => cast (dty buf) (at3 field i j k))))
            (h_next h) (h_held h)
            (with_t (h_meta h) (g_tf (h_meta h)) true false) (h_t h) (h_s h), Ok tt).

(** grid.py:109-122 *)
Definition h_set_spectral (h : hstate) (p : addr) : hstate * res unit :=
  let field := h_mem h p in
  let buf := h_mem h (h_s h) in
  if negb (shape_eqb (shp field) (shp buf)) then (h, Err AssertionError)
  else if negb (dtype_eqb (dty field) Complex128) then (h, Err AssertionError)
  else (mkH (upd_mem (h_mem h) (h_s h) (mkArr (shp buf) (dty buf) (at3 field)))
            (h_next h) (h_held h)
            (with_s (h_meta h) (g_sf (h_meta h)) true false) (h_t h) (h_s h), Ok tt).

(** grid.py:181-191: np.fft.fft returns a new array, the attribute is rebound. *)
Definition h_spectral2temporal (h : hstate) : hstate :=
  mkH (upd_mem (h_mem h) (h_next h) (np_fft_last (h_mem h (h_s h)))) (S (h_next h)) (h_held h)
      (with_t (h_meta h) (g_tf (h_meta h)) true (g_sv (h_meta h))) (h_next h) (h_s h).
(** grid.py:169-179 *)
Definition h_temporal2spectral (h : hstate) : hstate :=
  mkH (upd_mem (h_mem h) (h_next h) (np_ifft_last (h_mem h (h_t h)))) (S (h_next h)) (h_held h)
      (with_s (h_meta h) (g_sf (h_meta h)) true (g_tv (h_meta h))) (h_t h) (h_next h).

(** [a.copy()] handed to the caller. *)
Definition h_return_copy (h : hstate) (p : addr) : hstate * res unit :=
  (mkH (upd_mem (h_mem h) (h_next h) (h_mem h p)) (S (h_next h)) (h_held h ++ [h_next h])
       (h_meta h) (h_t h) (h_s h), Ok tt).

(** grid.py:124-144 *)
Definition h_get_temporal (h : hstate) : hstate * res unit :=
  if g_tv (h_meta h) then h_return_copy h (h_t h)
  else if g_sv (h_meta h) then
    let h' := h_spectral2temporal h in h_return_copy h' (h_t h')
  else (h, Err ValueError).
(** grid.py:146-167 *)
Definition h_get_spectral (h : hstate) : hstate * res unit :=
  if negb (g_isenv (h_meta h)) then (h, Err AssertionError)
  else if g_sv (h_meta h) then h_return_copy h (h_s h)
  else if g_tv (h_meta h) then
    let h' := h_temporal2spectral h in h_return_copy h' (h_s h')
  else (h, Err ValueError).

(** grid.py:76-92: astype returns a new array, the attribute is rebound. *)
Definition h_set_env (h : hstate) (b : bool) : hstate :=
  mkH (upd_mem (h_mem h) (h_next h) (astype (dtype_of_env b) (h_mem h (h_t h))))
      (S (h_next h)) (h_held h) (set_is_envelope (h_meta h) b) (h_next h) (h_s h).

(** One user action.  An action naming an array the caller does not hold is not expressible
    in Python; it is a no-op here. *)
Definition hstep (h : hstate) (o : hop) : hstate * res unit :=
  match o with
  | CNew a => (mkH (upd_mem (h_mem h) (h_next h) a) (S (h_next h)) (h_held h ++ [h_next h])
                   (h_meta h) (h_t h) (h_s h), Ok tt)
  | CWrite i f =>
      match nth_error (h_held h) i with
      | Some p => (mkH (upd_mem (h_mem h) p (overwrite (h_mem h p) f)) (h_next h) (h_held h)
                       (h_meta h) (h_t h) (h_s h), Ok tt)
      | None => (h, Err OtherException)
      end
  | CSetT i => match nth_error (h_held h) i with
               | Some p => h_set_temporal h p | None => (h, Err OtherException) end
  | CSetS i => match nth_error (h_held h) i with
               | Some p => h_set_spectral h p | None => (h, Err OtherException) end
  | CGetT => h_get_temporal h
  | CGetS => h_get_spectral h
  | CSetEnv b => (h_set_env h b, Ok tt)
  end.
Fixpoint hrun (h : hstate) (ops : list hop) : hstate :=
  match ops with [] => h | o :: t => hrun (fst (hstep h o)) t end.
Fixpoint houts (h : hstate) (ops : list hop) : list (res unit) :=
  match ops with [] => [] | o :: t => snd (hstep h o) :: houts (fst (hstep h o)) t end.

(** grid.py:71-73: np.zeros allocates the two buffers; the caller holds nothing yet. *)
Definition h_init (g : grid) : hstate :=
  mkH (upd_mem (upd_mem (fun _ => zeros [] Float64) 0%nat (g_tf g)) 1%nat (g_sf g))
      2%nat [] g 0%nat 1%nat.

(** What the caller sees: the contents of all arrays it holds. *)
Definition h_view (h : hstate) : list ndarray := map (h_mem h) (h_held h).

(** ** By-value semantics: the grid is a value, the caller's arrays are a list of values.
    Here isolation holds by construction. *)
Record vstate : Type := mkV { v_grid : grid; v_arrs : list ndarray }.
Definition vstep (v : vstate) (o : hop) : vstate * res unit :=
  match o with
  | CNew a => (mkV (v_grid v) (v_arrs v ++ [a]), Ok tt)
  | CWrite i f =>
      match nth_error (v_arrs v) i with
      | Some a => (mkV (v_grid v) (set_nth (v_arrs v) i (overwrite a f)), Ok tt)
      | None => (v, Err OtherException)
      end
  | CSetT i => match nth_error (v_arrs v) i with
               | Some a => let r := set_temporal_field (v_grid v) a in
                           (mkV (fst r) (v_arrs v), snd r)
               | None => (v, Err OtherException) end
  | CSetS i => match nth_error (v_arrs v) i with
               | Some a => let r := set_spectral_field (v_grid v) a in
                           (mkV (fst r) (v_arrs v), snd r)
               | None => (v, Err OtherException) end
  | CGetT => let r := get_temporal_field (v_grid v) in
             match snd r with
             | Ok a => (mkV (fst r) (v_arrs v ++ [a]), Ok tt)
             | Err e => (mkV (fst r) (v_arrs v), Err e) end
  | CGetS => let r := get_spectral_field (v_grid v) in
             match snd r with
             | Ok a => (mkV (fst r) (v_arrs v ++ [a]), Ok tt)
             | Err e => (mkV (fst r) (v_arrs v), Err e) end
  | CSetEnv b => (mkV (set_is_envelope (v_grid v) b) (v_arrs v), Ok tt)
  end.
Fixpoint vrun (v : vstate) (ops : list hop) : vstate :=
  match ops with [] => v | o :: t => vrun (fst (vstep v o)) t end.
Fixpoint vouts (v : vstate) (ops : list hop) : list (res unit) :=
  match ops with [] => [] | o :: t => snd (vstep v o) :: vouts (fst (vstep v o)) t end.
