(** Models of the numpy.fft functions lasy calls (numpy contract, norm="backward"):
    [fft]  A_k = sum_n a_n exp(-2 pi i n k / N)
    [ifft] a_n = 1/N sum_k A_k exp(+2 pi i n k / N)
    [fftfreq n d]. *)
From Verif Require Import PyBase.
Open Scope R_scope.

Definition fft1 (N : nat) (x : nat -> C) (k : nat) : C :=
  csum N (fun n => Cmult (x n) (cis (- (2 * PI * (INR n * INR k) / INR N)))).
Definition ifft1 (N : nat) (X : nat -> C) (n : nat) : C :=
  Cmult (RtoC (/ INR N))
        (csum N (fun k => Cmult (X k) (cis (2 * PI * (INR n * INR k) / INR N)))).

(** np.fft.fftfreq(n, d)[k] = (k if k < (n-1)//2+1 else k-n) / (n*d) *)
Definition fftfreq_int (n k : nat) : Z :=
  if Nat.ltb k (Nat.div (n - 1) 2 + 1) then Z.of_nat k else (Z.of_nat k - Z.of_nat n)%Z.
Definition fftfreq (n : nat) (d : R) (k : nat) : R := IZR (fftfreq_int n k) / (INR n * d).

(** np.fft.fft / np.fft.ifft along the last axis of a rank-3 array. *)
Definition np_fft_last (a : ndarray) : ndarray :=
  mkArr (shp a) Complex128 (fun i j k => fft1 (dim2 a) (fun q => at3 a i j q) k).
Definition np_ifft_last (a : ndarray) : ndarray :=
  mkArr (shp a) Complex128 (fun i j k => ifft1 (dim2 a) (fun q => at3 a i j q) k).
(** np.fft.ifft(a, axis=0) of a rank-3 array. *)
Definition np_ifft_first (a : ndarray) : ndarray :=
  mkArr (shp a) Complex128 (fun i j k => ifft1 (dim0 a) (fun q => at3 a q j k) i).
