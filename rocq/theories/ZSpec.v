(** Contracts of the axiprop functions used by export_to_z / import_from_z, and vocabulary for C78. *)
From Verif Require Import PyBase NpFFT NumPy GridModel LaserModel ZModel.
Open Scope R_scope.

(** One wavenumber for each time; results depend only on the entries that exist. *)
Definition z_local (A : zaxiprop) : Prop :=
  (forall k0 t, length (z_kfreq A k0 t) = length t) /\
  (forall k0 t u u' k, (forall n, (n < length t)%nat -> u n = u' n) -> z_ft A k0 t u k = z_ft A k0 t u' k) /\
  (forall r ks m F F' z z0 t0 q j, (forall k j, (k < length ks)%nat -> (j < length r)%nat -> F k j = F' k j) ->
     z_t2z_rt A r ks m F z z0 t0 q j = z_t2z_rt A r ks m F' z z0 t0 q j /\ z_z2t_rt A r ks m F z z0 t0 q j = z_z2t_rt A r ks m F' z z0 t0 q j) /\
  (forall X Y ks F F' z z0 t0 q i j, (forall k i j, (k < length ks)%nat -> (i < snd X)%nat -> (j < snd Y)%nat -> F k i j = F' k i j) ->
     z_t2z_xy A X Y ks F z z0 t0 q i j = z_t2z_xy A X Y ks F' z z0 t0 q i j /\ z_z2t_xy A X Y ks F z z0 t0 q i j = z_z2t_xy A X Y ks F' z z0 t0 q i j).
(** Linear combinations. *)
Definition lin (a b u v : C) : C := Cplus (Cmult a u) (Cmult b v).
Definition z_linear (A : zaxiprop) : Prop :=
  (forall k0 t u v a b k, z_ft A k0 t (fun n => lin a b (u n) (v n)) k = lin a b (z_ft A k0 t u k) (z_ft A k0 t v k)) /\
  (forall r ks m F G a b z z0 t0 q j,
     z_t2z_rt A r ks m (fun k j => lin a b (F k j) (G k j)) z z0 t0 q j = lin a b (z_t2z_rt A r ks m F z z0 t0 q j) (z_t2z_rt A r ks m G z z0 t0 q j) /\
     z_z2t_rt A r ks m (fun k j => lin a b (F k j) (G k j)) z z0 t0 q j = lin a b (z_z2t_rt A r ks m F z z0 t0 q j) (z_z2t_rt A r ks m G z z0 t0 q j)) /\
  (forall X Y ks F G a b z z0 t0 q i j,
     z_t2z_xy A X Y ks (fun k i j => lin a b (F k i j) (G k i j)) z z0 t0 q i j = lin a b (z_t2z_xy A X Y ks F z z0 t0 q i j) (z_t2z_xy A X Y ks G z z0 t0 q i j) /\
     z_z2t_xy A X Y ks (fun k i j => lin a b (F k i j) (G k i j)) z z0 t0 q i j = lin a b (z_z2t_xy A X Y ks F z z0 t0 q i j) (z_z2t_xy A X Y ks G z z0 t0 q i j)).
(** An axis with at least two points and constant step h > 0. *)
Definition steps (l : list R) (h : R) : Prop := (2 <= length l)%nat /\ 0 < h /\ forall i, (S i < length l)%nat -> vget l (S i) - vget l i = h.
(** ScalarFieldEnvelope decomposes the envelope into exp(-i (omega_k - omega0) t). *)
Definition z_spectrum (A : zaxiprop) : Prop := forall k0 t h, steps t h ->
  length (z_kfreq A k0 t) = length t /\
  (forall k, (k < length t)%nat -> vget (z_kfreq A k0 t) k = k0 + 2 * PI * fftfreq (length t) (c_light * h) k) /\
  forall u n, (n < length t)%nat ->
    u n = csum (length t) (fun k => Cmult (z_ft A k0 t u k) (cis (- (c_light * (vget (z_kfreq A k0 t) k - k0) * vget t n)))).
(** A spectrum that does not depend on x and y propagates as plane waves exp(i (k z - c k t)); time 0, plane 0. *)
Definition flat (X Y nk : nat) (F : nat -> nat -> nat -> C) : Prop := forall k i j, (k < nk)%nat -> (i < X)%nat -> (j < Y)%nat -> F k i j = F k 0%nat 0%nat.
Definition z_plane (A : zaxiprop) : Prop := forall X Y ks F, flat (snd X) (snd Y) (length ks) F ->
  (forall z q i j, (q < length z)%nat -> (i < snd X)%nat -> (j < snd Y)%nat ->
     z_t2z_xy A X Y ks F z 0 0 q i j = csum (length ks) (fun k => Cmult (F k 0%nat 0%nat) (cis (vget ks k * vget z q)))) /\
  (forall t n i j, (n < length t)%nat -> (i < snd X)%nat -> (j < snd Y)%nat ->
     z_z2t_xy A X Y ks F t 0 0 n i j = csum (length ks) (fun k => Cmult (F k 0%nat 0%nat) (cis (- (c_light * vget ks k * vget t n))))).

(** An instance of these contracts: no diffraction at all, each point propagates as a sum of plane waves. *)
Definition flat_kap (t : list R) (k : nat) : R := 2 * PI * fftfreq (length t) (c_light * (vget t 1 - vget t 0)) k.
Definition flat_axiprop : zaxiprop := {|
  z_kfreq := fun k0 t => map (fun k => k0 + flat_kap t k) (seq 0 (length t));
  z_ft := fun k0 t u k => csum (length t) (fun n => Cmult (Cmult (RtoC (/ INR (length t))) (u n)) (cis (c_light * flat_kap t k * vget t n)));
  z_t2z_rt := fun r ks m F z z0 t0 q j => if Nat.ltb j (length r) then csum (length ks) (fun k => Cmult (F k j) (cis (vget ks k * (vget z q - z0 + c_light * t0)))) else RtoC 0;
  z_t2z_xy := fun X Y ks F z z0 t0 q i j => if andb (Nat.ltb i (snd X)) (Nat.ltb j (snd Y)) then csum (length ks) (fun k => Cmult (F k i j) (cis (vget ks k * (vget z q - z0 + c_light * t0)))) else RtoC 0;
  z_z2t_rt := fun r ks m F t z0 t0 n j => if Nat.ltb j (length r) then csum (length ks) (fun k => Cmult (F k j) (cis (vget ks k * (z0 - c_light * (vget t n - t0))))) else RtoC 0;
  z_z2t_xy := fun X Y ks F t z0 t0 n i j => if andb (Nat.ltb i (snd X)) (Nat.ltb j (snd Y)) then csum (length ks) (fun k => Cmult (F k i j) (cis (vget ks k * (z0 - c_light * (vget t n - t0))))) else RtoC 0
|}.
(** Plane waves for other values of z0 and t0: whatever axiprop's conventions for them are, they are assumed to amount, for
    plane waves, to a shift [s] of the origin (s = c t0 - z0 if the field leaves the plane z0 with the delay t0). *)
Definition z_emit (A : zaxiprop) (z0 t0 s : R) : Prop := forall X Y ks F, flat (snd X) (snd Y) (length ks) F ->
  forall z q i j, (q < length z)%nat -> (i < snd X)%nat -> (j < snd Y)%nat ->
    z_t2z_xy A X Y ks F z z0 t0 q i j = csum (length ks) (fun k => Cmult (F k 0%nat 0%nat) (cis (vget ks k * (vget z q + s)))).
Definition z_record (A : zaxiprop) (z0 t0 s : R) : Prop := forall X Y ks F, flat (snd X) (snd Y) (length ks) F ->
  forall t n i j, (n < length t)%nat -> (i < snd X)%nat -> (j < snd Y)%nat ->
    z_z2t_xy A X Y ks F t z0 t0 n i j = csum (length ks) (fun k => Cmult (F k 0%nat 0%nat) (cis (- (vget ks k * (c_light * vget t n + s))))).
