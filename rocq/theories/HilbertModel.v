(** scipy.signal.hilbert (called by laser_utils.py:610), scipy contract: the discrete analytic signal
    obtained by doubling the positive frequencies of the DFT and removing the negative ones. *)
From Verif Require Import PyBase NpFFT NumPy GridModel AnalysisModel.
Open Scope R_scope.

(** scipy/signal/_signaltools.py hilbert: h[0] = 1, h[N//2] = 1 for even N, h[1:N//2] or
    h[1:(N+1)//2] = 2, the others 0. *)
Definition hilbert_h (N k : nat) : R :=
  if Nat.eqb k 0 then 1
  else if Nat.even N then
    if Nat.eqb k (N / 2) then 1 else if Nat.ltb k (N / 2) then 2 else 0
  else if Nat.ltb k ((N + 1) / 2) then 2 else 0.
Definition scipy_hilbert (N : nat) (x : nat -> C) (n : nat) : C :=
  ifft1 N (fun k => Cmult (fft1 N x k) (RtoC (hilbert_h N k))) n.
