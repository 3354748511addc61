(** Model of the analytic profiles: lasy/profiles/longitudinal/{gaussian,super_gaussian,cosine}_profile.py,
    lasy/profiles/transverse/{gaussian,laguerre_gaussian,hermite_gaussian,super_gaussian,jinc,transverse}_profile.py,
    lasy/profiles/combined_profile.py and lasy/profiles/gaussian_profile.py.
    A longitudinal profile object is the function its evaluate computes, pointwise; a transverse one
    the function its _evaluate computes; [res] is the outcome of the constructor. *)
From Verif Require Import PyBase NumPy NpMath GridModel LaserModel ProfileModel.
From Coq Require Import Arith.Factorial.
Open Scope R_scope.

(** np.power(a, b) of floats with a >= 0 (0 ** 0 = 1; 0 ** b = 0 for b > 0; inf for b < 0, not covered). *)
Definition np_power (a b : R) : R :=
  if Reqb a 0 then (if Reqb b 0 then 1 else 0) else Rpower a b.
(** z ** n for a complex z and an integer n >= 0 *)
Fixpoint cpow (z : C) (n : nat) : C := match n with O => RtoC 1 | S n => Cmult z (cpow z n) end.

(** longitudinal_profile.py:14-16 *)
Definition long_omega0 (wavelength : R) : R := 2 * PI * c_light / wavelength.
(** longitudinal/gaussian_profile.py:37-63 *)
Definition gaussian_long (wavelength tau t_peak cep t : R) : C :=
  cexp (- ((t - t_peak) ^ 2) / tau ^ 2, cep + long_omega0 wavelength * t_peak).
(** longitudinal/super_gaussian_profile.py:42-69 *)
Definition super_gaussian_long (wavelength tau t_peak n_order cep t : R) : C :=
  cexp (- np_power ((t - t_peak) ^ 2 / tau ^ 2) (n_order / 2), cep + long_omega0 wavelength * t_peak).
(** longitudinal/cosine_profile.py:41-71 *)
Definition cosine_long (wavelength tau_fwhm t_peak cep t : R) : C :=
  let tn := (t - t_peak) / tau_fwhm in
  let b := fun c : bool => if c then 1 else 0 in
  Cmult (RtoC (cos (/ 2 * PI * tn) * b (Rltb (- 1) tn) * b (Rltb tn 1)))
        (cexp (0, cep + long_omega0 wavelength * t_peak)).

(** The common part of the constructors of the Gaussian, Laguerre- and Hermite-Gaussian transverse
    profiles (gaussian_profile.py:44-53, laguerre_gaussian_profile.py:53-65,
    hermite_gaussian_profile.py:55-67): self.z_foc_over_zr. *)
Definition z_foc_over_zr (w0 : R) (wavelength : option R) (z_foc : R) : res R :=
  if Reqb z_foc 0 then Ok 0
  else match wavelength with
       | None => Err AssertionError
       | Some l => Ok (z_foc * l / (PI * w0 ^ 2))
       end.
(** transverse/gaussian_profile.py:71-78, with z = self.z_foc_over_zr *)
Definition gaussian_trans_at (w0 z x y : R) : C :=
  let d : C := (1, - z) in
  Cdiv (cexp (Cdiv (RtoC (- (x ^ 2 + y ^ 2))) (Cmult (RtoC (w0 ^ 2)) d))) d.
Definition gaussian_transverse (w0 : R) (wavelength : option R) (z_foc : R) : res (R -> R -> C) :=
  do z <- z_foc_over_zr w0 wavelength z_foc; Ok (gaussian_trans_at w0 z).

(** scipy.special.genlaguerre(p, k) for natural p and k, as a function: the generalised Laguerre
    polynomial  sum_{i<=p} (-1)^i binom(p+k, p-i) x^i / i!  (scipy's numerical construction of the
    coefficients is not modelled). *)
Definition genlaguerre (p k : nat) (x : R) : R :=
  rsum (S p) (fun i => (-1) ^ i * (INR (fact (p + k)) / (INR (fact (p - i)) * INR (fact (k + i)))) * x ^ i / INR (fact i)).
(** scipy.special.hermite(n): physicists' Hermite polynomial, by its recurrence. *)
Fixpoint hermite2 (n : nat) (x : R) : R * R := (* (H_n, H_(n+1)) *)
  match n with
  | O => (1, 2 * x)
  | S n => let '(a, b) := hermite2 n x in (b, 2 * x * b - 2 * INR (S n) * a)
  end.
Definition hermite (n : nat) (x : R) : R := fst (hermite2 n x).

(** laguerre_gaussian_profile.py:83-104.  p is a natural number (scipy raises for p < 0), m any integer. *)
Definition lg_trans_at (w0 : R) (p : nat) (m : Z) (z x y : R) : C :=
  let d : C := (1, - z) in
  let w := w0 * Cmod d in
  let psi := angle d in
  let pos : C := if Z.ltb 0 m then (x, - y) else (x, y) in
  let radius := Cmod pos in
  Cmult (Cmult (Cmult (cpow pos (Z.abs_nat m)) (RtoC (genlaguerre p (Z.abs_nat m) (2 * radius ^ 2 / w ^ 2))))
    (cexp (Cminus (Cdiv (RtoC (- radius ^ 2)) (Cmult (RtoC (w0 ^ 2)) d))
                  (Cmult (Cmult Ci (RtoC (IZR (2 * Z.of_nat p + m)))) (RtoC psi)))))
    (Cdiv (RtoC 1) d).
Definition lg_transverse (w0 : R) (p : nat) (m : Z) (wavelength : option R) (z_foc : R) : res (R -> R -> C) :=
  do z <- z_foc_over_zr w0 wavelength z_foc; Ok (lg_trans_at w0 p m z).

(** hermite_gaussian_profile.py:86-104.  n_x, n_y natural numbers (math.factorial and scipy raise otherwise). *)
Definition hg_trans_at (w0 : R) (nx ny : nat) (z x y : R) : C :=
  let d : C := (1, - z) in
  let w := w0 * Cmod d in
  let psi := angle d in
  Cmult (Cmult
    (RtoC (sqrt (2 / PI) * sqrt (1 / (2 ^ nx * INR (fact nx) * w0)) * sqrt (1 / (2 ^ ny * INR (fact ny) * w0)) *
           hermite nx (sqrt 2 * x / w) * hermite ny (sqrt 2 * y / w)))
    (cexp (Cminus (Cdiv (RtoC (- (x ^ 2 + y ^ 2))) (Cmult (RtoC (w0 ^ 2)) d))
                  (Cmult (Cmult Ci (RtoC (INR (nx + ny)))) (RtoC psi)))))
    (Cdiv (RtoC 1) d).
Definition hg_transverse (w0 : R) (nx ny : nat) (wavelength : option R) (z_foc : R) : res (R -> R -> C) :=
  do z <- z_foc_over_zr w0 wavelength z_foc; Ok (hg_trans_at w0 nx ny z).

(** transverse/super_gaussian_profile.py:27-50 *)
Definition super_gaussian_trans (w0 n_order x y : R) : C :=
  RtoC (exp (- np_power ((x ^ 2 + y ^ 2) / w0 ^ 2) (n_order / 2))).
(** transverse/jinc_profile.py:25-56; [j1] is scipy.special.jv(1, .), not modelled. *)
Definition jinc_trans (j1 : R -> R) (w0 x y : R) : C :=
  let u := sqrt (x ^ 2 + y ^ 2) / w0 in
  RtoC (if Rltb 0 u then 2 * j1 u / u else 1).

(** combined_profile.py:49-72.  The longitudinal value is always complex, hence so is the product. *)
Definition combined_profile (wavelength : R) (pol : list C) (laser_energy : option R) (long : R -> C) (trans : R -> R -> C) : res profile :=
  do p <- profile_init wavelength pol Complex128 (fun x y t => Cmult (trans x y) (long t));
  Ok (mkProfile (p_omega0 p) (p_lambda0 p) (p_pol p) (Some laser_energy) (p_dtype p) (p_eval p)).
(** gaussian_profile.py:105-115: z_foc is passed where GaussianTransverseProfile expects the
    wavelength, and the wavelength where it expects z_foc. *)
Definition gaussian_profile (wavelength : R) (pol : list C) (laser_energy : option R) (w0 tau t_peak cep z_foc : R) : res profile :=
  do tr <- gaussian_transverse w0 (Some z_foc) wavelength;
  combined_profile wavelength pol laser_energy (gaussian_long wavelength tau t_peak cep) tr.

(** ** Transverse profile objects (transverse_profile.py)
    Objects are mutable (set_offset assigns x_offset and y_offset and returns self) and composite
    profiles keep references to their parts, so there is a heap: the list of objects in order of
    creation, an object being referred to by its position. *)
Inductive tbody : Type :=
  | TLeaf (f : R -> R -> C)          (* any class that defines _evaluate; TransverseProfile itself: zero *)
  | TSum (refs : list nat)           (* SummedTransverseProfile *)
  | TScale (ref : nat) (factor : C). (* ScaledTransverseProfile *)
Record tobj : Type := mkTobj { t_body : tbody; t_xoff : R; t_yoff : R }.
Definition theap : Type := list tobj.
Definition tref (tbl : list (R -> R -> C)) (r : nat) : R -> R -> C := nth r tbl (fun _ _ => RtoC 0).
Fixpoint tsum (tbl : list (R -> R -> C)) (rs : list nat) (x y : R) : C :=
  match rs with [] => RtoC 0 | r :: rs => Cplus (tref tbl r x y) (tsum tbl rs x y) end.
(** transverse_profile.py:52-70 evaluate, 115-118 and 149-152 its overrides, given the table [tbl]
    of what the earlier objects evaluate to. *)
Definition teval_obj (tbl : list (R -> R -> C)) (o : tobj) : R -> R -> C :=
  match t_body o with
  | TLeaf f => fun x y => f (x + t_xoff o) (y + t_yoff o)
  | TSum rs => tsum tbl rs
  | TScale r k => fun x y => Cmult (tref tbl r x y) k
  end.
Fixpoint ttable (tbl : list (R -> R -> C)) (h : theap) : list (R -> R -> C) :=
  match h with [] => tbl | o :: h => ttable (tbl ++ [teval_obj tbl o]) h end.
(** evaluate of the object r in heap h *)
Definition tevaluate (h : theap) (r : nat) : R -> R -> C := tref (ttable [] h) r.

(** What a user can do with transverse profiles.  Arguments of TAdd and TMul: an object or something
    else. *)
Inductive targ : Type := ARef (r : nat) | ANum (z : C) | AOther.
Inductive top : Type :=
  | TNew (f : R -> R -> C)        (* construct a profile of one of the analytic classes *)
  | TAdd (r : nat) (a : targ)     (* p + a, SummedTransverseProfile(p, a) *)
  | TMul (r : nat) (a : targ)     (* p * a, a * p *)
  | TOffset (r : nat) (dx dy : R).
(** transverse_profile.py:18-21, 40-50, 72-91, 107-114, 135-148: the new heap and the object returned. *)
Definition tstep (h : theap) (op : top) : res (theap * nat) :=
  match op with
  | TNew f => Ok (h ++ [mkTobj (TLeaf f) 0 0], length h)
  | TAdd r a => match a with
                | ARef q => if andb (r <? length h)%nat (q <? length h)%nat
                            then Ok (h ++ [mkTobj (TSum [r; q]) 0 0], length h) else Err OtherException
                | _ => Err AssertionError
                end
  | TMul r a => match a with
                | ANum z => if (r <? length h)%nat then Ok (h ++ [mkTobj (TScale r z) 0 0], length h) else Err OtherException
                | _ => Err AssertionError
                end
  | TOffset r dx dy =>
      match nth_error h r with
      | Some o => Ok (set_nth h r (mkTobj (t_body o) dx dy), r)
      | None => Err OtherException
      end
  end.
Fixpoint trun (h : theap) (ops : list top) : res theap :=
  match ops with [] => Ok h | op :: ops => do s <- tstep h op; trun (fst s) ops end.
