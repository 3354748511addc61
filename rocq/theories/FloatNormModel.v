(** Floating-point model of compute_laser_energy, normalize_energy and normalize_peak_field_amplitude
    (lasy/utils/laser_utils.py): every elementary operation returns its exact result up to a relative error of at
    most [u] (whichever it is), and np.sum adds the terms in any order.  Overflow and underflow are outside the model.
    [u = 0] is exact arithmetic. *)
From Coq Require Import Permutation.
From Verif Require Import PyBase NumPy FloatModel.
Open Scope R_scope.

(** y is a floating-point value of x *)
Definition near (u x y : R) : Prop := exists d, Rabs d <= u /\ y = x * (1 + d).

(** ndarray.sum(): any tree of additions over any order of the terms; [p] is the depth of the tree. *)
Inductive float_sum (u : R) : nat -> list R -> R -> Prop :=
| fs_nil : float_sum u 0 [] 0
| fs_one x : float_sum u 0 [x] x
| fs_add p q l m a b s : float_sum u p l a -> float_sum u q m b -> near u (a + b) s ->
    float_sum u (S (Nat.max p q)) (l ++ m) s
| fs_perm p l m a : Permutation l m -> float_sum u p l a -> float_sum u p m a.

(** laser_utils.py:46-51: one term w * abs(E)**2, where w is the computed dV * epsilon_0 *)
Definition float_term (u w : R) (z : C) (t : R) : Prop :=
  exists a q, near u (Cmod z) a /\ near u (a * a) q /\ near u (w * q) t.
(** laser_utils.py:42-56.  [w j] is the value of dV * epsilon_0 at index j of the second axis (for xyt it does not
    depend on j): it is computed from the metadata of the grid only. *)
Definition float_energy (u : R) (p : nat) (w : nat -> R) (isenv : bool) (env : ndarray) (e : R) : Prop :=
  exists ts s,
    (forall i j k, inb env i j k -> float_term u (w j) (at3 env i j k) (ts i j k)) /\
    float_sum u p (flat3 (dim0 env) (dim1 env) (dim2 env) ts) s /\
    (if isenv then near u (s * / 2) e else e = s).

(** field *= s for a real number s: the two components of every sample are multiplied. *)
Definition float_scale (u s : R) (f f' : ndarray) : Prop :=
  shp f' = shp f /\
  forall i j k, inb f i j k -> near u (s * Re (at3 f i j k)) (Re (at3 f' i j k)) /\
                               near u (s * Im (at3 f i j k)) (Im (at3 f' i j k)).
(** laser_utils.py:86-88: [cur] is the (non-zero) computed energy, [en] the requested one *)
Definition float_rescale_energy (u en cur : R) (f f' : ndarray) : Prop :=
  exists r s, near u (en / cur) r /\ near u (sqrt r) s /\ float_scale u s f f'.
(** np.abs(field).max() (laser_utils.py:106): the maximum is exact *)
Definition float_abs_max (u : R) (f : ndarray) (m : R) : Prop :=
  exists a, (forall i j k, inb f i j k -> near u (Cmod (at3 f i j k)) (a i j k)) /\
    (exists i j k, inb f i j k /\ m = a i j k) /\ (forall i j k, inb f i j k -> a i j k <= m).
(** laser_utils.py:110 *)
Definition float_rescale_field (u amp mx : R) (f f' : ndarray) : Prop :=
  exists s, near u (amp / mx) s /\ float_scale u s f f'.

(** laser_utils.py:629-637 and 47, 50 in double precision: dV * epsilon_0 at radius r (rt), and for a Cartesian grid (xyt). *)
Definition weight_rt64 (r dr dt : R) : R :=
  let dz := b64 (dt * c_light) in
  let a := b64 (r + b64 (/ 2 * dr)) in
  let b := b64 (r - b64 (/ 2 * dr)) in
  b64 (b64 (b64 (b64 PI * b64 (b64 (a * a) - b64 (b * b))) * dz) * eps0).
Definition weight_xyt64 (dx dy dt : R) : R :=
  b64 (b64 (b64 (dx * dy) * b64 (dt * c_light)) * eps0).
