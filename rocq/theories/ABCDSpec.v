(** Specification for C82: the complex beam parameter of a Gaussian beam. *)
From Verif Require Import PyBase.
Open Scope R_scope.
(** q = z + i zR, z the position of the plane relative to the focus (the focus lies z_foc ahead), zR = pi w0^2 / lambda. *)
Definition beam_q (wavelength w0 z_foc : R) : C := (- z_foc, PI * w0 ^ 2 / wavelength).
(** A thin lens (or mirror) of focal length f: 1/q' = 1/q - 1/f. *)
Definition lens_law (f : R) (q q' : C) : Prop := Cinv q' = Cminus (Cinv q) (RtoC (/ f)).
