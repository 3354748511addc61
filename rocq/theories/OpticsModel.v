(** Model of lasy/optical_elements/*.py (amplitude_multiplier at one point). *)
From Verif Require Import PyBase LaserModel.
Open Scope R_scope.

(** parabolic_mirror.py:50: np.exp(-1j * omega * (x**2 + y**2) / (2 * c * self.f)).
    f = 0 (division by zero) is outside the model; theorems require f <> 0. *)
Definition parabolic_mirror (f : R) : optic :=
  fun x y omega omega0 => cis (- (omega * (x ^ 2 + y ^ 2) / (2 * c_light * f))).

(** axicon.py:54-56: np.exp(-2j * (omega / c) * np.sqrt(x**2 + y**2) * np.tan(0.5 * self.gamma)) *)
Definition axicon (gamma : R) : optic :=
  fun x y omega omega0 =>
    cis (- (2 * (omega / c_light) * sqrt (x ^ 2 + y ^ 2) * tan (/ 2 * gamma))).

(** axiparabola.py:56-64: the sag *)
Definition axiparabola_sag (f0 delta Rad : R) (r2 : R) : R :=
  (1 / (4 * f0)) * r2 - (delta / (8 * f0 ^ 2 * Rad ^ 2)) * r2 ^ 2
  + delta * (Rad ^ 2 + 8 * f0 * delta) / (96 * f0 ^ 4 * Rad ^ 4) * r2 ^ 3.
(** axiparabola.py:56-71: T = exp(-2j (omega/c) sag), then T[x**2+y**2 > R**2] = 0 *)
Definition axiparabola (f0 delta Rad : R) : optic :=
  fun x y omega omega0 =>
    if Rltb (Rad ^ 2) (x ^ 2 + y ^ 2) then RtoC 0
    else cis (- (2 * (omega / c_light) * axiparabola_sag f0 delta Rad (x ^ 2 + y ^ 2))).

(** polynomial_spectral_phase.py:62-68 *)
Definition polynomial_spectral_phase (gdd tod fod : R) : optic :=
  fun x y omega omega0 =>
    cis (gdd / 2 * (omega - omega0) ^ 2 + tod / 6 * (omega - omega0) ^ 3
         + fod / 24 * (omega - omega0) ^ 4).
