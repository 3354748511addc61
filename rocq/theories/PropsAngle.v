(** C08, continued: cylindrical construction for any profile. *)
From Verif Require Import PyBase CSum NpFFT NumPy GridModel GridSpec LaserSpec AngleSpec EnergyModel LaserModel LaserInitProofs LaserExamples AngleProofs.
Open Scope R_scope.

(** Mode m holds the n_theta_evals-point average of profile * exp(i m theta), times the energy factor;
    no hypothesis on the angular content of the profile. *)
Theorem C08_any_profile :
  forall lo hi np n1 nt p (M : nat) nte L,
  laser_init Rt lo hi np p (Z.of_nat M) nte = Ok L ->
  nth_error np 0 = Some n1 -> nth_error np 1 = Some nt ->
  0 <= nth 0 lo 0 -> nth 0 lo 0 < nth 0 hi 0 -> nth 1 lo 0 < nth 1 hi 0 ->
  energy_request_ok (p_energy p) ->
  let N := Z.to_nat (match nte with None => 2 * Z.of_nat M - 1 | Some n => n end) in
  let f := fun (m : Z) j k => angle_mode N (fun theta =>
     p_eval p (coord (nth 0 lo 0) (nth 0 hi 0) n1 j * cos theta) (coord (nth 0 lo 0) (nth 0 hi 0) n1 j * sin theta)
              (coord (nth 1 lo 0) (nth 1 hi 0) nt k)) m in
  exists a s, snd (get_temporal_field (l_grid L)) = Ok a /\
    shp a = [(2 * M - 1)%nat; n1; nt] /\ 0 <= s /\
    (forall m j k, (- Z.of_nat M < m < Z.of_nat M)%Z -> (j < n1)%nat -> (k < nt)%nat ->
       at3 a (mode_slot M m) j k = Cmult (RtoC s) (f m j k)) /\
    energy_factor (p_energy p)
      (E_rt lo hi (2 * M - 1) n1 nt (fun q j k => f (Z.of_nat q - (Z.of_nat M - 1))%Z j k)) s.
Proof. exact rt_any. Qed.
Print Assumptions C08_any_profile.

(** Aliasing law: when the angular content is sum_{|m'|<=K} A_m' exp(-i m' theta), that average is the sum
    of the A_m' with m' congruent to m modulo the number of angles. *)
Theorem C08_aliasing :
  forall N K (A : Z -> C) (F : R -> C) m, (0 < N)%nat ->
  (forall theta, F theta = recon (S K) A theta) -> angle_mode N F m = folded N K A m.
Proof. exact angle_mode_folded. Qed.
Print Assumptions C08_aliasing.

(** With the default n_theta_evals the stored modes reproduce any profile at the 2M-1 sampled angles. *)
Theorem C08_interpolates :
  forall lo hi np n1 nt p (M : nat) L,
  laser_init Rt lo hi np p (Z.of_nat M) None = Ok L -> (1 <= M)%nat ->
  nth_error np 0 = Some n1 -> nth_error np 1 = Some nt ->
  0 <= nth 0 lo 0 -> nth 0 lo 0 < nth 0 hi 0 -> nth 1 lo 0 < nth 1 hi 0 ->
  energy_request_ok (p_energy p) ->
  exists a s, snd (get_temporal_field (l_grid L)) = Ok a /\ 0 <= s /\
    forall i j k, (i < 2 * M - 1)%nat -> (j < n1)%nat -> (k < nt)%nat ->
    let theta := angle_node (2 * M - 1) i in
    recon M (comp M a j k) theta =
    Cmult (RtoC s) (p_eval p (coord (nth 0 lo 0) (nth 0 hi 0) n1 j * cos theta) (coord (nth 0 lo 0) (nth 0 hi 0) n1 j * sin theta)
                             (coord (nth 1 lo 0) (nth 1 hi 0) nt k)).
Proof. exact c08_interpolates. Qed.
Print Assumptions C08_interpolates.

(** The vortex exp(-i theta) sampled with one mode (one angle) is stored as mode 0: 1 = 0 modulo 1. *)
Example C08_aliasing_nonvacuous :
  folded 1 1 (fun m => if Z.eqb m 1 then RtoC 5 else RtoC 0) 0 = RtoC 5 /\
  folded 3 1 (fun m => if Z.eqb m 1 then RtoC 5 else RtoC 0) 0 = RtoC 0 /\
  (exists L, laser_init Rt [0;-3] [2;4] [4;5]%nat (ex_prof None) 2 None = Ok L).
Proof.
  split; [|split].
  - unfold folded. cbn. rewrite !Cplus_0_l. reflexivity.
  - unfold folded. cbn. rewrite !Cplus_0_l. reflexivity.
  - apply ex_rt; [exact I|lia].
Qed.
