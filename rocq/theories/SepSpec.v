(** Vocabulary of C96: calls that act on the colours only, and what they do to a trace in time. *)
From Verif Require Import PyBase CSum NpFFT NumPy GridModel GridSpec EnergyModel LaserSpec LaserModel LaserOps LtiSpec.
Open Scope R_scope.

(** Spectral elements, normalizations to positive values (or None), write_to_file; not propagate. *)
Definition colour_op (o : lop) : Prop :=
  match o with
  | OpPropagate _ _ _ _ => False
  | OpOptics e => spectral_element e
  | OpNormalize (Some v) _ => 0 < v
  | _ => True
  end.
(** The product of the multipliers of the elements of a history at the frequency w (carrier w0). *)
Fixpoint response (h : list lop) (w w0 : R) : C :=
  match h with
  | [] => RtoC 1
  | OpOptics e :: t => Cmult (response t w w0) (e 0 0 w w0)
  | _ :: t => response t w w0
  end.
(** nt samples spaced by dt, each Fourier component (of frequency w0 + w_q) multiplied by the response. *)
Definition shaped (nt : nat) (dt w0 : R) (h : list lop) (x : nat -> C) (k : nat) : C :=
  fft1 nt (fun q => Cmult (response h (w0 + dft_omega nt dt q) w0) (ifft1 nt x q)) k.
(** A time trace: the samples of a longitudinal profile on a window. *)
Definition trace (long : R -> C) (lo hi : R) (nt k : nat) : C := long (coord lo hi nt k).
(** Positive or no requested energy. *)
Definition energy_positive (en : option R) : Prop := match en with Some E => 0 < E | None => True end.
(** A window: lower limits below upper limits, radii from 0 up. *)
Definition window_ok (d : pydim) (lo hi : list R) : Prop :=
  (forall q, (q < ndims_of d)%nat -> nth q lo 0 < nth q hi 0) /\ (d = Rt -> 0 <= nth 0 lo 0).
