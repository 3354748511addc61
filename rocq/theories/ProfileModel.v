(** Model of lasy/profiles/profile.py. *)
From Verif Require Import PyBase NumPy GridModel LaserModel FromArrayModel.
Open Scope R_scope.

(** profile.py:35-40 Profile.__init__ followed by whatever evaluate the subclass defines
    ([ev], of element type [dt]); [pol] is the list passed by the user.  A zero pol gives nan in
    numpy and 0/0 = 0 here; no theorem below covers it. *)
Definition profile_init (wavelength : R) (pol : list C) (dt : dtype) (ev : R -> R -> R -> C) : res profile :=
  match pol with
  | [px; py] => Ok (mkProfile (2 * PI * c_light / wavelength) wavelength (norm_pol (px, py)) None dt ev)
  | _ => Err AssertionError
  end.
(** profile.py:42-60: the base class evaluates to zeros. *)
Definition base_profile (wavelength : R) (pol : list C) : res profile :=
  profile_init wavelength pol Complex128 (fun _ _ _ => RtoC 0).

(** Python objects that meet a profile in an arithmetic expression: profiles, int/float (bool
    included), complex, anything else (whose own operators do not accept a Profile). *)
Inductive pyval : Type := VProf (p : profile) | VNum (x : R) | VComplex (z : C) | VOther.

(** np.allclose(v, v[0]): |v_i - v_0| <= atol + rtol |v_0| with atol = 1e-8, rtol = 1e-5. *)
Definition atol : R := / 10 ^ 8.
Definition rtol : R := / 10 ^ 5.
Definition closeR (a b : R) : bool := Rleb (Rabs (a - b)) (atol + rtol * Rabs b).
Definition closeC (a b : C) : bool := Rleb (Cmod (Cminus a b)) (atol + rtol * Cmod b).
Definition close_pol (p q : C * C) : bool := andb (closeC (fst p) (fst q)) (closeC (snd p) (snd q)).

(** dtype of a sum or product of arrays *)
Definition promote (a b : dtype) : dtype := match a, b with Float64, Float64 => Float64 | _, _ => Complex128 end.
(** profile.py:111-114: Python's sum([...]) of the summands' values *)
Fixpoint sum_eval (l : list profile) (x y t : R) : C :=
  match l with [] => RtoC 0 | p :: l => Cplus (p_eval p x y t) (sum_eval l x y t) end.
Fixpoint sum_dtype (l : list profile) : dtype :=
  match l with [] => Float64 | p :: l => promote (p_dtype p) (sum_dtype l) end.
(** isinstance(p, Profile) for every argument *)
Fixpoint all_profiles (l : list pyval) : option (list profile) :=
  match l with
  | [] => Some []
  | VProf p :: l => match all_profiles l with Some r => Some (p :: r) | None => None end
  | _ => None
  end.
(** profile.py:87-109 SummedProfile( *profiles ) *)
Definition summed_profile (l : list pyval) : res profile :=
  match all_profiles l with
  | None => Err AssertionError
  | Some ps =>
      match ps with
      | [] => Err IndexError
      | p0 :: _ =>
          do _ <- pyassert (forallb (fun p => closeR (p_lambda0 p) (p_lambda0 p0)) ps);
          do _ <- pyassert (forallb (fun p => close_pol (p_pol p) (p_pol p0)) ps);
          profile_init (p_lambda0 p0) [fst (p_pol p0); snd (p_pol p0)] (sum_dtype ps) (sum_eval ps)
      end
  end.
(** profile.py:131-149 ScaledProfile(profile, factor) *)
Definition scaled_profile (v factor : pyval) : res profile :=
  match factor with
  | VNum k =>
      match v with
      | VProf p => profile_init (p_lambda0 p) [fst (p_pol p); snd (p_pol p)] (p_dtype p)
                     (fun x y t => Cmult (p_eval p x y t) (RtoC k))
      | _ => Err AssertionError
      end
  | _ => Err AssertionError
  end.

(** Python's + and * on these values: profile.py:62-72 __add__, __mul__, __rmul__ (there is no
    __radd__), and the built-in numbers. *)
Definition vbind (r : res profile) : res pyval := do p <- r; Ok (VProf p).
Definition py_add (a b : pyval) : res pyval :=
  match a, b with
  | VProf _, _ => vbind (summed_profile [a; b])
  | VNum x, VNum y => Ok (VNum (x + y))
  | VNum x, VComplex z => Ok (VComplex (Cplus (RtoC x) z))
  | VComplex z, VNum x => Ok (VComplex (Cplus z (RtoC x)))
  | VComplex z, VComplex w => Ok (VComplex (Cplus z w))
  | _, _ => Err TypeError
  end.
Definition py_mul (a b : pyval) : res pyval :=
  match a, b with
  | VProf _, _ => vbind (scaled_profile a b)
  | _, VProf _ => vbind (scaled_profile b a)
  | VNum x, VNum y => Ok (VNum (x * y))
  | VNum x, VComplex z => Ok (VComplex (Cmult (RtoC x) z))
  | VComplex z, VNum x => Ok (VComplex (Cmult z (RtoC x)))
  | VComplex z, VComplex w => Ok (VComplex (Cmult z w))
  | _, _ => Err TypeError
  end.

(** Expressions a user can write with + and *. *)
Inductive pexpr : Type := EVal (v : pyval) | EAdd (a b : pexpr) | EMul (a b : pexpr).
Fixpoint pyeval (e : pexpr) : res pyval :=
  match e with
  | EVal v => Ok v
  | EAdd a b => do x <- pyeval a; do y <- pyeval b; py_add x y
  | EMul a b => do x <- pyeval a; do y <- pyeval b; py_mul x y
  end.
