(** What is assumed of a diffraction solver in the properties that depend on it (C20, C22), and two
    concrete solvers satisfying it: the angular-spectrum method in xyt and free carrier phase in rt. *)
From Verif Require Import PyBase NpFFT LaserModel.
Open Scope R_scope.

(** A solver treats each frequency separately, and only looks at samples inside the arrays:
    step of z_k * x = z_k * step of x. *)
Record per_frequency (S : solvers) : Prop := mkPF {
  pf_rt_ext : forall p x y d,
    (forall k j, (k < length (rp_k p))%nat -> (j < length (rp_r p))%nat -> x k j = y k j) ->
    forall k j, (k < length (rp_k p))%nat -> (j < length (rp_r p))%nat ->
    step_rt S p x d k j = step_rt S p y d k j;
  pf_rt_hom : forall p x z d k j, (k < length (rp_k p))%nat -> (j < length (rp_r p))%nat ->
    step_rt S p (fun k j => Cmult (z k) (x k j)) d k j = Cmult (z k) (step_rt S p x d k j);
  pf_xy_ext : forall p x y d,
    (forall k i j, (k < length (fp_k p))%nat -> (i < snd (fp_x p))%nat -> (j < snd (fp_y p))%nat -> x k i j = y k i j) ->
    forall k i j, (k < length (fp_k p))%nat -> (i < snd (fp_x p))%nat -> (j < snd (fp_y p))%nat ->
    step_xyt S p x d k i j = step_xyt S p y d k i j;
  pf_xy_hom : forall p x z d k i j,
    (k < length (fp_k p))%nat -> (i < snd (fp_x p))%nat -> (j < snd (fp_y p))%nat ->
    step_xyt S p (fun k i j => Cmult (z k) (x k i j)) d k i j = Cmult (z k) (step_xyt S p x d k i j)
}.

(** step(d1) then step(d2) = step(d1+d2) (propagators without resampling). *)
Definition additive (S : solvers) : Prop :=
  (forall p x d1 d2 k j, rp_rnew p = None -> (k < length (rp_k p))%nat -> (j < length (rp_r p))%nat ->
     step_rt S p (step_rt S p x d1) d2 k j = step_rt S p x (d1 + d2) k j) /\
  (forall p x d1 d2 k i j, (k < length (fp_k p))%nat -> (i < snd (fp_x p))%nat -> (j < snd (fp_y p))%nat ->
     step_xyt S p (step_xyt S p x d1) d2 k i j = step_xyt S p x (d1 + d2) k i j).
(** step(0) changes nothing. *)
Definition zero_step (S : solvers) : Prop :=
  (forall p x k j, rp_rnew p = None -> (k < length (rp_k p))%nat -> (j < length (rp_r p))%nat ->
     step_rt S p x 0 k j = x k j) /\
  (forall p x k i j, (k < length (fp_k p))%nat -> (i < snd (fp_x p))%nat -> (j < snd (fp_y p))%nat ->
     step_xyt S p x 0 k i j = x k i j).
(** The weighted L2 norm of each frequency is preserved (weight r in cylindrical geometry). *)
Definition unitary (S : solvers) : Prop :=
  (forall p x d k, rp_rnew p = None -> (k < length (rp_k p))%nat ->
     rsum (length (rp_r p)) (fun j => nth j (rp_r p) 0 * Cnorm2 (step_rt S p x d k j)) =
     rsum (length (rp_r p)) (fun j => nth j (rp_r p) 0 * Cnorm2 (x k j))) /\
  (forall p x d k, (k < length (fp_k p))%nat ->
     rsum (snd (fp_x p)) (fun i => rsum (snd (fp_y p)) (fun j => Cnorm2 (step_xyt S p x d k i j))) =
     rsum (snd (fp_x p)) (fun i => rsum (snd (fp_y p)) (fun j => Cnorm2 (x k i j)))).

(** Angular-spectrum propagation: 2-D DFT over (x,y), multiplication by exp(i kz d), inverse DFT,
    with kz = sqrt(k^2 - kx^2 - ky^2) (0 where that is negative). *)
Definition asm_kz (p : fft2_prop) (k u v : nat) : R :=
  let kk := nth k (fp_k p) 0 in
  let kx := 2 * PI * fftfreq (snd (fp_x p)) (fst (fp_x p) / INR (snd (fp_x p))) u in
  let ky := 2 * PI * fftfreq (snd (fp_y p)) (fst (fp_y p) / INR (snd (fp_y p))) v in
  sqrt (kk ^ 2 - kx ^ 2 - ky ^ 2).
Definition fft2 (nx ny : nat) (x : nat -> nat -> C) (u v : nat) : C :=
  fft1 nx (fun i => fft1 ny (fun j => x i j) v) u.
Definition ifft2 (nx ny : nat) (X : nat -> nat -> C) (i j : nat) : C :=
  ifft1 nx (fun u => ifft1 ny (fun v => X u v) j) i.
Definition asm_solvers : solvers :=
  mkSolvers
    (fun p x d k j => Cmult (cis (nth k (rp_k p) 0 * d)) (x k j))
    (fun p x d k i j =>
       ifft2 (snd (fp_x p)) (snd (fp_y p))
         (fun u v => Cmult (cis (asm_kz p k u v * d)) (fft2 (snd (fp_x p)) (snd (fp_y p)) (x k) u v)) i j).
