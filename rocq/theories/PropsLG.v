(** Property theorems C79, C80: orthogonality and power of the Laguerre-Gauss modes. *)
From Coquelicot Require Import Coquelicot.
From Coq Require Import Arith.Factorial.
From Verif Require Import PyBase CSum AnalyticModel PolarSpec LGOrtho.
Open Scope R_scope.

(** C79: two profiles returned by LaguerreGaussianTransverseProfile with the same waist, wavelength and focus, and different
    orders, have the scalar product 0. *)
Theorem C79_orthogonal :
  forall w0 wavelength z_foc p p' m m' f g, 0 < w0 ->
  lg_transverse w0 p m wavelength z_foc = Ok f -> lg_transverse w0 p' m' wavelength z_foc = Ok g ->
  p <> p' \/ m <> m' -> polar_overlap f g (RtoC 0).
Proof. exact c79_orthogonal. Qed.
Print Assumptions C79_orthogonal.
(** C80: the power of the Gaussian profile is the same in every plane. *)
Theorem C80_gaussian_partial :
  forall w0 wavelength z_foc f, 0 < w0 -> gaussian_transverse w0 wavelength z_foc = Ok f -> power f (PI * w0 ^ 2 / 2).
Proof. exact c80_gaussian. Qed.
Print Assumptions C80_gaussian_partial.
(** C80: the power of every Laguerre-Gauss mode; it does not depend on the plane for m = 0. *)
Theorem C80_laguerre_partial :
  forall w0 wavelength z_foc p m f, 0 < w0 -> lg_transverse w0 p m (Some wavelength) z_foc = Ok f ->
  let k := Z.abs_nat m in let zr := PI * w0 ^ 2 / wavelength in
  (wavelength <> 0 -> power f (PI * (w0 ^ 2 / 2) ^ S k * (1 + (z_foc / zr) ^ 2) ^ k * (INR (fact (p + k)) / INR (fact p)))) /\
  (m = 0%Z -> power f (PI * w0 ^ 2 / 2)).
Proof.
  intros w0 l zf p m f Hw Hf k zr. pose proof (c80_power w0 l zf p m f Hw Hf) as H. fold k in H. split.
  - intros Hl. replace (zf / zr) with (zf * l / (PI * w0 ^ 2)); [exact H|]. unfold zr. pose proof PI_RGT_0. field. repeat split; lra.
  - intros ->. unfold k in H. cbn [Z.abs_nat] in H. rewrite Nat.add_0_r in H. replace (PI * w0 ^ 2 / 2) with (PI * (w0 ^ 2 / 2) ^ 1 * (1 + (zf * l / (PI * w0 ^ 2)) ^ 2) ^ 0 * (INR (fact p) / INR (fact p))); [exact H|].
    rewrite pow_1. simpl (_ ^ 0). field. apply INR_fact_neq_0.
Qed.
Print Assumptions C80_laguerre_partial.
(** REFUTED: with m <> 0 the power grows with the distance to the focus. *)
Theorem C80_refuted :
  exists f g u v, lg_transverse 1 0 1 (Some PI) 0 = Ok f /\ lg_transverse 1 0 1 (Some PI) 1 = Ok g /\ power f u /\ power g v /\ v = 2 * u /\ u <> v /\
    forall u', power f u' -> u' = u.
Proof.
  exists (lg_trans_at 1 0 1 0), (lg_trans_at 1 0 1 (1 * PI / (PI * 1 ^ 2))), (PI / 4), (PI / 2).
  assert (E0 : lg_transverse 1 0 1 (Some PI) 0 = Ok (lg_trans_at 1 0 1 0)) by (unfold lg_transverse, z_foc_over_zr; rewrite (proj2 (Reqb_true 0 0) eq_refl); reflexivity).
  assert (E1 : lg_transverse 1 0 1 (Some PI) 1 = Ok (lg_trans_at 1 0 1 (1 * PI / (PI * 1 ^ 2)))) by (unfold lg_transverse, z_foc_over_zr; replace (Reqb 1 0) with false by (symmetry; apply Reqb_false; lra); reflexivity).
  pose proof (c80_power 1 PI 0 0 1 _ ltac:(lra) E0) as P0. pose proof (c80_power 1 PI 1 0 1 _ ltac:(lra) E1) as P1. pose proof PI_RGT_0 as HP.
  assert (Q0 : power (lg_trans_at 1 0 1 0) (PI / 4)) by (match type of P0 with power _ ?v => replace (PI / 4) with v; [exact P0|simpl; field; lra] end).
  split; [exact E0|]. split; [exact E1|]. split; [exact Q0|].
  split; [match type of P1 with power _ ?v => replace (PI / 2) with v; [exact P1|simpl; field; lra] end|].
  split; [field|]. split; [lra|]. intros u' H. exact (power_unique _ _ _ H Q0).
Qed.
Print Assumptions C80_refuted.
(** Modes out of focus are returned by the constructor. *)
Example C79_nonvacuous : exists f g, lg_transverse 2 1 1 (Some 1) 5 = Ok f /\ lg_transverse 2 0 1 (Some 1) 5 = Ok g /\ polar_overlap f g (RtoC 0) /\ exists v, 0 < v /\ power f v.
Proof.
  assert (Z : forall p m, lg_transverse 2 p m (Some 1) 5 = Ok (lg_trans_at 2 p m (5 * 1 / (PI * 2 ^ 2)))).
  { intros p m. unfold lg_transverse, z_foc_over_zr. replace (Reqb 5 0) with false by (symmetry; apply Reqb_false; lra). reflexivity. }
  do 2 eexists. split; [apply Z|]. split; [apply Z|]. split; [apply (C79_orthogonal 2 (Some 1) 5 1 0 1 1 _ _ ltac:(lra) (Z _ _) (Z _ _)); left; discriminate|].
  eexists. split; [|exact (c80_power 2 1 5 1 1 _ ltac:(lra) (Z _ _))]. pose proof PI_RGT_0. pose proof (INR_fact_lt_0 (1 + Z.abs_nat 1)). pose proof (INR_fact_lt_0 1).
  pose proof (pow2_ge_0 (5 * 1 / (PI * 2 ^ 2))) as Q. assert (0 < (2 ^ 2 / 2) ^ S (Z.abs_nat 1)) by (apply pow_lt; lra). assert (0 < (1 + (5 * 1 / (PI * 2 ^ 2)) ^ 2) ^ Z.abs_nat 1) by (apply pow_lt; lra).
  assert (0 < INR (fact (1 + Z.abs_nat 1)) / INR (fact 1)) by (apply Rdiv_lt_0_compat; assumption). apply Rmult_lt_0_compat; [apply Rmult_lt_0_compat; [apply Rmult_lt_0_compat|]|]; assumption.
Qed.
