(** Base layer of the model: Python results/exceptions, numpy arrays, finite sums,
    complex exponential.  Nothing here models lasy itself; it is the vocabulary in
    which the lasy functions are written.

    Numbers are exact reals/complexes (no floating-point rounding). *)
From Coq Require Export Reals Lra Lia ZArith List Arith Bool.
From Coquelicot Require Export Complex.
Export ListNotations.
Open Scope R_scope.
Open Scope list_scope.

(** ** Python exceptions as values *)
Inductive exn : Type :=
| AssertionError | ValueError | IndexError | TypeError | AttributeError
| UnboundLocalError | NotImplementedError | KeyError | OtherException.

Inductive res (A : Type) : Type :=
| Ok (a : A)
| Err (e : exn).
Arguments Ok {A} a.
Arguments Err {A} e.

Definition bind {A B} (m : res A) (f : A -> res B) : res B :=
  match m with Ok a => f a | Err e => Err e end.
Notation "'do' x <- m ; f" := (bind m (fun x => f))
  (at level 200, x name, m at level 100, f at level 200).
Definition pyassert (b : bool) : res unit := if b then Ok tt else Err AssertionError.

Definition is_ok {A} (m : res A) : Prop := match m with Ok _ => True | Err _ => False end.

(** ** numpy dtypes used by lasy *)
Inductive dtype : Type := Complex128 | Float64.
Definition dtype_eqb (a b : dtype) : bool :=
  match a, b with
  | Complex128, Complex128 => true
  | Float64, Float64 => true
  | _, _ => false
  end.

(** ** numpy arrays of rank at most 3: shape, dtype, and a total index function whose
    values are meaningful only for indices within the shape.  (For rank 0/1/2 the missing
    indices are ignored.)  *)
Record ndarray : Type := mkArr {
  shp : list nat;
  dty : dtype;
  at3 : nat -> nat -> nat -> C
}.

Definition shape_eqb (s1 s2 : list nat) : bool :=
  if list_eq_dec Nat.eq_dec s1 s2 then true else false.

Definition dim0 (a : ndarray) : nat := nth 0 (shp a) 0%nat.
Definition dim1 (a : ndarray) : nat := nth 1 (shp a) 0%nat.
Definition dim2 (a : ndarray) : nat := nth 2 (shp a) 0%nat.

(** In-range indices of a rank-3 array. *)
Definition inb (a : ndarray) (i j k : nat) : Prop :=
  (i < dim0 a)%nat /\ (j < dim1 a)%nat /\ (k < dim2 a)%nat.

(** Two arrays are the same numpy value: same shape, dtype and in-range entries. *)
Definition arr_eq (a b : ndarray) : Prop :=
  shp a = shp b /\ dty a = dty b /\
  forall i j k, inb a i j k -> at3 a i j k = at3 b i j k.

(** numpy [a.astype(d)]: complex -> float keeps the real part. *)
Definition cast (d : dtype) (z : C) : C :=
  match d with Complex128 => z | Float64 => RtoC (Re z) end.
Definition astype (d : dtype) (a : ndarray) : ndarray :=
  mkArr (shp a) d (fun i j k => cast d (at3 a i j k)).

Definition zeros (s : list nat) (d : dtype) : ndarray := mkArr s d (fun _ _ _ => RtoC 0).

(** Pointwise map keeping shape and dtype. *)
Definition amap (f : C -> C) (a : ndarray) : ndarray :=
  mkArr (shp a) (dty a) (fun i j k => f (at3 a i j k)).

(** A numpy 0-d value (numpy float scalars have shape () and dtype float64). *)
Definition np_float_scalar (x : R) : ndarray := mkArr [] Float64 (fun _ _ _ => RtoC x).

(** ** Finite sums [sum_{i<n} f i] *)
Fixpoint rsum (n : nat) (f : nat -> R) : R :=
  match n with O => 0 | S k => rsum k f + f k end.
Fixpoint csum (n : nat) (f : nat -> C) : C :=
  match n with O => RtoC 0 | S k => Cplus (csum k f) (f k) end.

(** Sum over all entries of a 3-D index range. *)
Definition rsum3 (n0 n1 n2 : nat) (f : nat -> nat -> nat -> R) : R :=
  rsum n0 (fun i => rsum n1 (fun j => rsum n2 (fun k => f i j k))).

(** Squared modulus. *)
Definition Cnorm2 (z : C) : R := fst z * fst z + snd z * snd z.

(** [cis t = exp(i t)] and the complex exponential. *)
Definition cis (t : R) : C := (cos t, sin t).
Definition cexp (z : C) : C := Cmult (RtoC (exp (Re z))) (cis (Im z)).

(** Decidable comparisons on R as booleans. *)
Definition Reqb (x y : R) : bool := if Req_EM_T x y then true else false.
Definition Rltb (x y : R) : bool := if Rlt_dec x y then true else false.
Definition Rleb (x y : R) : bool := if Rle_dec x y then true else false.

Lemma Reqb_true x y : Reqb x y = true <-> x = y.
Proof. unfold Reqb; destruct (Req_EM_T x y); split; intros; try assumption; try reflexivity; try discriminate; contradiction. Qed.
Lemma Reqb_false x y : Reqb x y = false <-> x <> y.
Proof. unfold Reqb; destruct (Req_EM_T x y); split; intros; try assumption; try reflexivity; try discriminate; contradiction. Qed.
Lemma Rltb_true x y : Rltb x y = true <-> x < y.
Proof. unfold Rltb; destruct (Rlt_dec x y); split; intros; try assumption; try reflexivity; try discriminate; contradiction. Qed.
Lemma Rltb_false x y : Rltb x y = false <-> ~ x < y.
Proof. unfold Rltb; destruct (Rlt_dec x y); split; intros; try assumption; try reflexivity; try discriminate; contradiction. Qed.
Lemma Rleb_true x y : Rleb x y = true <-> x <= y.
Proof. unfold Rleb; destruct (Rle_dec x y); split; intros; try assumption; try reflexivity; try discriminate; contradiction. Qed.
Lemma Rleb_false x y : Rleb x y = false <-> ~ x <= y.
Proof. unfold Rleb; destruct (Rle_dec x y); split; intros; try assumption; try reflexivity; try discriminate; contradiction. Qed.

Lemma shape_eqb_true s1 s2 : shape_eqb s1 s2 = true <-> s1 = s2.
Proof. unfold shape_eqb; destruct (list_eq_dec Nat.eq_dec s1 s2); split; intros; try assumption; try reflexivity; try discriminate; contradiction. Qed.
Lemma shape_eqb_refl s : shape_eqb s s = true.
Proof. apply shape_eqb_true; reflexivity. Qed.
Lemma shape_eqb_false s1 s2 : shape_eqb s1 s2 = false <-> s1 <> s2.
Proof. unfold shape_eqb; destruct (list_eq_dec Nat.eq_dec s1 s2); split; intros; try assumption; try reflexivity; try discriminate; contradiction. Qed.
Lemma dtype_eqb_true a b : dtype_eqb a b = true <-> a = b.
Proof. destruct a, b; simpl; split; intros; try reflexivity; discriminate. Qed.
Lemma dtype_eqb_refl a : dtype_eqb a a = true.
Proof. destruct a; reflexivity. Qed.
Lemma dtype_eqb_false a b : dtype_eqb a b = false <-> a <> b.
Proof. destruct a, b; simpl; split; intros; try reflexivity; try discriminate; try contradiction; congruence. Qed.

Lemma arr_eq_refl a : arr_eq a a.
Proof. repeat split. Qed.
Lemma arr_eq_sym a b : arr_eq a b -> arr_eq b a.
Proof.
  intros (Hs & Hd & He); repeat split; auto.
  intros i j k H; symmetry; apply He.
  unfold inb, dim0, dim1, dim2 in *; rewrite Hs; exact H.
Qed.
Lemma arr_eq_trans a b c : arr_eq a b -> arr_eq b c -> arr_eq a c.
Proof.
  intros (Hs & Hd & He) (Hs' & Hd' & He'); repeat split; try congruence.
  intros i j k H; rewrite He by exact H; apply He'.
  unfold inb, dim0, dim1, dim2 in *; rewrite <- Hs; exact H.
Qed.

Lemma cast_idem d z : cast d (cast d z) = cast d z.
Proof. destruct d; reflexivity. Qed.

(** ** Physical constants (scipy.constants, CODATA): only positivity is ever used. *)
Definition c_light : R := 299792458.
Definition eps0 : R := 88541878128 / 10 ^ 22.
Definition e_charge : R := 1602176634 / 10 ^ 28.
Definition m_e : R := 91093837015 / 10 ^ 41.
Lemma c_light_pos : 0 < c_light. Proof. unfold c_light; lra. Qed.
Lemma eps0_pos : 0 < eps0.
Proof. unfold eps0; apply Rdiv_lt_0_compat; [lra | apply pow_lt; lra]. Qed.
Lemma e_charge_pos : 0 < e_charge.
Proof. unfold e_charge; apply Rdiv_lt_0_compat; [lra | apply pow_lt; lra]. Qed.
Lemma m_e_pos : 0 < m_e.
Proof. unfold m_e; apply Rdiv_lt_0_compat; [lra | apply pow_lt; lra]. Qed.
Global Opaque c_light eps0 e_charge m_e.
