(** Property theorems C55, C69 (Hermite-Gauss decomposition). *)
From Verif Require Import PyBase CSum NumPy AnalyticModel ModesModel ModesSpec ModesProofs.
Open Scope R_scope.

(** C55 (partial): without offsets, an even number of points with spacing res, centred on the beam, leaves no point of |x| <= 5 w0 further than res/2 from a sample; the weights are the sums over these points. *)
Theorem C55_window_partial :
  forall f w0 nx ny r,
  0 < r -> 0 <= w0 ->
  exists N wt waist, hermite_gauss_decomposition (analytic f w0 0 0) nx ny r = Ok (wt, waist) /\
    Nat.even N = true /\ 10 * w0 < INR N * r <= 10 * w0 + 2 * r /\
    (forall u, Rabs u <= 5 * w0 -> exists i, (i < N)%nat /\ Rabs (u - axis_point 0 r N i) <= r / 2) /\
    forall i j w, (i < nx)%nat -> (j < ny)%nat -> waist = Some w -> w <> 0 -> wt i j = Some (mode_weight f 0 0 r N N w i j).
Proof. exact c55_window. Qed.
Print Assumptions C55_window_partial.
(** C55: for a given waist the weights are linear in the profile. *)
Theorem C55_linear :
  forall f g h a b w0 xo yo nx ny r wf wg wh w i j,
  0 < r -> 0 <= w0 -> w <> 0 -> (i < nx)%nat -> (j < ny)%nat ->
  (forall x y, h x y = Cplus (Cmult (RtoC a) (f x y)) (Cmult (RtoC b) (g x y))) ->
  hermite_gauss_decomposition (analytic f w0 xo yo) nx ny r = Ok (wf, Some w) -> hermite_gauss_decomposition (analytic g w0 xo yo) nx ny r = Ok (wg, Some w) ->
  hermite_gauss_decomposition (analytic h w0 xo yo) nx ny r = Ok (wh, Some w) ->
  exists u v, wf i j = Some u /\ wg i j = Some v /\ wh i j = Some (a * u + b * v).
Proof. exact c55_linear. Qed.
Print Assumptions C55_linear.
(** C55: the waist returned maximises the overlap with the fundamental mode among the 30 candidates between half and 3/2 of the estimate. *)
Theorem C55_waist :
  forall x y f w,
  estimate_best_HG_waist x y f = Ok (Some w) -> w <> 0 ->
  let west := estimated_waist x y f (vget x 1 - vget x 0) in
    (exists q, (q < 30)%nat /\ w = west / 2 + INR q * (west / 29)) /\
    forall q, (q < 30)%nat -> grid_overlap x y (hg_trans_at (west / 2 + INR q * (west / 29)) 0 0 0) f <= grid_overlap x y (hg_trans_at w 0 0 0) f.
Proof. exact c55_waist_spec. Qed.
Print Assumptions C55_waist.
(** C55: with offsets, only the values of the profile around (2 x_offset, x_offset + y_offset), in its own coordinates, matter: the window moves away from the beam in x, and follows x_offset in y. *)
Theorem C55_region :
  forall f g w0 xo yo nx ny r,
  0 < r -> 0 <= w0 ->
  (forall u v, Rabs (u - 2 * xo) <= 5 * w0 + r / 2 -> Rabs (v - (xo + yo)) <= 5 * w0 + r / 2 -> f u v = g u v) ->
  hermite_gauss_decomposition (analytic f w0 xo yo) nx ny r = hermite_gauss_decomposition (analytic g w0 xo yo) nx ny r.
Proof. exact c55_region. Qed.
Print Assumptions C55_region.
(** C55 is false: a top-hat beam with an x offset decomposes exactly like no beam at all. *)
Theorem C55_refuted_x :
  forall nx ny,
  hermite_gauss_decomposition (analytic (hat 1) 1 10 0) nx ny (1 / 10) = hermite_gauss_decomposition (analytic (fun _ _ => RtoC 0) 1 10 0) nx ny (1 / 10).
Proof. exact c55_refuted_x. Qed.
Print Assumptions C55_refuted_x.
(** C55 is false: and so does one with a y offset. *)
Theorem C55_refuted_y :
  forall nx ny,
  hermite_gauss_decomposition (analytic (hat 1) 1 0 20) nx ny (1 / 10) = hermite_gauss_decomposition (analytic (fun _ _ => RtoC 0) 1 0 20) nx ny (1 / 10).
Proof. exact c55_refuted_y. Qed.
Print Assumptions C55_refuted_y.
(** C55 is false: with measured data and an x offset the call can raise. *)
Theorem C55_refuted_data :
  forall f nx ny,
  hermite_gauss_decomposition (mkTp (FromData [-1; 1] [-1; 1]) 10 0 f) nx ny 1 = Err ValueError.
Proof. exact c55_data_raises. Qed.
Print Assumptions C55_refuted_data.
(** C55 is false: for measured data of 20 by 2, without offsets, only |x| <= 3/2 is looked at (the extents in x and y are swapped). *)
Theorem C55_refuted_transposed :
  forall f g nx ny,
  (forall x y, Rabs x <= 3 / 2 -> f x y = g x y) ->
  hermite_gauss_decomposition (mkTp (FromData [-1; 1] [-10; 10]) 0 0 f) nx ny 1 = hermite_gauss_decomposition (mkTp (FromData [-1; 1] [-10; 10]) 0 0 g) nx ny 1.
Proof. exact c55_data_transposed. Qed.
Print Assumptions C55_refuted_transposed.
(** C55: a sum or multiple of profiles (no attribute w0) raises. *)
Theorem C55_composite :
  forall p nx ny r,
  tp_extent p = NoExtent -> r <> 0 -> hermite_gauss_decomposition p nx ny r = Err AttributeError.
Proof. exact c55_composite. Qed.
Print Assumptions C55_composite.
(** C69: a profile that is even (s = 1) or odd (s = -1) in x or y has weight exactly 0 on every mode of the other parity. *)
Theorem C69_parity :
  forall f w0 nx ny r s i j,
  0 < r -> 0 <= w0 -> (i < nx)%nat -> (j < ny)%nat ->
  ((forall x y, f (- x) y = Cmult (RtoC s) (f x y)) /\ s * (-1) ^ i = -1 \/ (forall x y, f x (- y) = Cmult (RtoC s) (f x y)) /\ s * (-1) ^ j = -1) ->
  exists wt waist, hermite_gauss_decomposition (analytic f w0 0 0) nx ny r = Ok (wt, waist) /\ wt i j = Some 0.
Proof. exact c69_parity. Qed.
Print Assumptions C69_parity.
(** Non-vacuity: the decomposition of the fundamental mode itself returns, and it is even in x. *)
Example C55_nonvacuous : exists wt waist, hermite_gauss_decomposition (analytic (hg_trans_at 1 0 0 0) 1 0 0) 3 3 (1 / 10) = Ok (wt, waist) /\ wt 1%nat 0%nat = Some 0.
Proof.
  apply (C69_parity (hg_trans_at 1 0 0 0) 1 3 3 (1 / 10) 1 1 0); try lra; try lia. left. split; [intros x y; rewrite hg_parity_x; cbn [pow]; reflexivity|]. cbn [pow]. ring.
Qed.
Example C55_hat_nonzero : hat 1 0 0 = RtoC 1.
Proof. unfold hat. rewrite Rabs_R0. rewrite (proj2 (Rleb_true 0 (5 * 1))) by lra. reflexivity. Qed.
