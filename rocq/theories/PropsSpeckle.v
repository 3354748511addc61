(** Property theorems C54, C63-C68 (speckle profile). *)
From Verif Require Import PyBase CSum NpFFT NumPy NpMath DataModel SpeckleModel SpeckleSpec SpeckleProofs SpeckleBound SpeckleSeries SpeckleMore SpeckleFacts.
Open Scope R_scope.

(** C54: random/continuous phase plates: the call returns the documented sum of beamlets (times the sinc envelope if asked for). *)
Theorem C54_plates :
  forall wl f D n ty bw amp cyc dist env sp d n0 n1 nt x y t xs ys ts,
  speckle_init wl f D n ty bw amp cyc dist env = Ok sp -> (ty = RPP \/ ty = CPP) ->
  wl <> 0 -> f <> 0 -> fst D <> 0 -> snd D <> 0 -> (0 < fst n)%nat -> (0 < snd n)%nat -> cartesian x y t xs ys ts -> (0 < n0)%nat -> (0 < n1)%nat -> (0 < nt)%nat ->
  exists E, speckle_evaluate sp d n0 n1 nt x y t = Ok E /\ forall i j k, (i < n0)%nat -> (j < n1)%nat -> (k < nt)%nat ->
    E i j k = Some (Cmult (RtoC (if env then sinc_envelope wl f D n (xs i) (ys j) else 1)) (beamlet_sum wl f D n (fun _ _ => RtoC 1) (d_plate d) (xs i) (ys j))).
Proof. exact c54_plates. Qed.
Print Assumptions C54_plates.
(** C54: smoothing by spectral dispersion: the documented sinusoidal phase modulation. *)
Theorem C54_fm_ssd :
  forall wl f D n bw a c s env sp d n0 n1 nt x y t xs ys ts,
  speckle_init wl f D n FM_SSD bw (Some a) (Some c) (Some s) env = Ok sp ->
  0 < fst a -> 0 < snd a -> 0 < fst s -> 0 < snd s ->
  wl <> 0 -> f <> 0 -> fst D <> 0 -> snd D <> 0 -> (0 < fst n)%nat -> (0 < snd n)%nat -> cartesian x y t xs ys ts -> (0 < n0)%nat -> (0 < n1)%nat -> (0 < nt)%nat ->
  exists E, speckle_evaluate sp d n0 n1 nt x y t = Ok E /\ forall i j k, (i < n0)%nat -> (j < n1)%nat -> (k < nt)%nat ->
    E i j k = Some (Cmult (RtoC (if env then sinc_envelope wl f D n (xs i) (ys j) else 1))
      (beamlet_sum wl f D n (fun m l => cis (psi_ssd a c (ssd_nu bw a s) (d_dephasing d) n (cycles wl (ts k)) m l)) (d_plate d) (xs i) (ys j))).
Proof. exact c54_fm. Qed.
Print Assumptions C54_fm_ssd.
(** C54: random phase modulation: all beamlets share one phase history per direction, each with its own delay, sampled inside the series generated. *)
Theorem C54_gp_rpm_ssd :
  forall wl f D n bw a c s env sp d n0 n1 nt x y t xs ys ts,
  speckle_init wl f D n GP_RPM_SSD bw (Some a) (Some c) (Some s) env = Ok sp ->
  0 < fst a -> 0 < snd a -> 0 < fst s -> 0 < snd s -> 0 <= fst c -> 0 <= snd c ->
  0 < wl -> f <> 0 -> fst D <> 0 -> snd D <> 0 -> (0 < fst n)%nat -> (0 < snd n)%nat -> cartesian x y t xs ys ts -> (0 < n0)%nat -> (0 < n1)%nat -> (0 < nt)%nat ->
  (forall k, (k < nt)%nat -> 0 <= ts k <= ts (nt - 1)%nat) -> (forall i, d_normal d i 0%nat 0%nat <> RtoC 0) ->
  let dt := 1 / bw / 50 in
  let delay := (fst c / fst (ssd_nu bw a s), snd c / snd (ssd_nu bw a s)) in
  exists E N s0 s1 psi0 psi1, speckle_evaluate sp d n0 n1 nt x y t = Ok E /\
    linear_through psi0 dt N (quadrature s0) /\ linear_through psi1 dt N (quadrature s1) /\
    rsum N (fun k => Cmod (s0 k) ^ 2) / INR N = fst a ^ 2 /\ rsum N (fun k => Cmod (s1 k) ^ 2) / INR N = snd a ^ 2 /\
    cycles wl (ts (nt - 1)%nat) + fst delay + snd delay < INR (N - 1) * dt /\
    forall i j k, (i < n0)%nat -> (j < n1)%nat -> (k < nt)%nat ->
      E i j k = Some (Cmult (RtoC (if env then sinc_envelope wl f D n (xs i) (ys j) else 1))
        (beamlet_sum wl f D n (fun m l => cis (psi0 (cycles wl (ts k) + INR m * fst delay / INR (fst n)) + psi1 (cycles wl (ts k) + INR l * snd delay / INR (snd n)))) (d_plate d) (xs i) (ys j))).
Proof. exact c54_rpm. Qed.
Print Assumptions C54_gp_rpm_ssd.
(** C54: induced spatial incoherence: at each time the beamlet amplitudes are those of the nearest sample, always inside the series generated. *)
Theorem C54_gp_isi :
  forall wl f D n bw amp cyc dist env sp d n0 n1 nt x y t xs ys ts,
  speckle_init wl f D n GP_ISI bw amp cyc dist env = Ok sp ->
  0 < wl -> f <> 0 -> fst D <> 0 -> snd D <> 0 -> (0 < fst n)%nat -> (0 < snd n)%nat -> cartesian x y t xs ys ts -> (0 < n0)%nat -> (0 < n1)%nat -> (0 < nt)%nat ->
  (forall k, (k < nt)%nat -> 0 <= ts k <= ts (nt - 1)%nat) -> (forall i j, d_normal d i j 0%nat <> RtoC 0) ->
  let dt := 1 / bw / 50 in
  exists E N s, speckle_evaluate sp d n0 n1 nt x y t = Ok E /\
    (forall m l, rsum N (fun k => Cmod (s m l k) ^ 2) / INR N = 1) /\
    forall i j k, (i < n0)%nat -> (j < n1)%nat -> (k < nt)%nat ->
      exists q, (q < N)%nat /\ Rabs (cycles wl (ts k) - INR q * dt) <= dt / 2 /\
      E i j k = Some (Cmult (RtoC (if env then sinc_envelope wl f D n (xs i) (ys j) else 1)) (beamlet_sum wl f D n (fun m l => s m l q) (fun _ _ => 0) (xs i) (ys j))).
Proof. exact c54_isi. Qed.
Print Assumptions C54_gp_isi.
(** C54: the modulus never exceeds the number of beamlets. *)
Theorem C54_bound :
  forall wl f D n ty bw amp cyc dist env sp d n0 n1 nt x y t xs ys ts E i j k e,
  speckle_init wl f D n ty bw amp cyc dist env = Ok sp -> ty <> GP_ISI ->
  wl <> 0 -> f <> 0 -> fst D <> 0 -> snd D <> 0 -> (0 < fst n)%nat -> (0 < snd n)%nat -> cartesian x y t xs ys ts ->
  speckle_evaluate sp d n0 n1 nt x y t = Ok E -> (k < nt)%nat -> E i j k = Some e -> Cmod e <= INR (fst n) * INR (snd n).
Proof. exact c54_bound. Qed.
Print Assumptions C54_bound.
Example C54_nonvacuous : exists spp spf spg spi,
  speckle_init 1 1 (1, 1) (2, 3)%nat CPP 1 None None None true = Ok spp /\
  speckle_init 1 1 (1, 1) (2, 3)%nat FM_SSD 1 (Some (1, 2)) (Some (1, 1)) (Some (1, 1)) false = Ok spf /\
  speckle_init 1 1 (1, 1) (2, 3)%nat GP_RPM_SSD 1 (Some (1, 2)) (Some (1, 1)) (Some (1, 1)) false = Ok spg /\
  speckle_init 1 1 (1, 1) (2, 3)%nat GP_ISI 1 None None None false = Ok spi /\
  cartesian (fun i _ _ => INR i) (fun _ j _ => INR j) (fun _ _ k => INR k) INR INR INR /\ (forall k, (k < 4)%nat -> 0 <= INR k <= INR (4 - 1)).
Proof.
  assert (P1 : Rltb 0 1 = true) by (apply Rltb_true; lra). assert (P2 : Rltb 0 2 = true) by (apply Rltb_true; lra). assert (N1 : Reqb 1 0 = false) by (destruct (Reqb 1 0) eqn:B; [apply Reqb_true in B; lra|reflexivity]).
  do 4 eexists. unfold speckle_init, some_positive, pyassert. cbn [has_SSD supported bind fst snd]. rewrite N1, P1. cbn [andb orb bind].
  do 4 (split; [reflexivity|]). split; [intros i j k; auto|]. intros k Hk. split; [apply pos_INR|apply le_INR; lia].
Qed.
(** C63: the intensity is periodic in x and in y, with period (wavelength * focal length * beamlets / aperture). *)
Theorem C63_period :
  forall wl f D n ty bw amp cyc dist sp d n0 n1 nt x y t xs ys ts E i j i' j' k e,
  speckle_init wl f D n ty bw amp cyc dist false = Ok sp ->
  wl <> 0 -> f <> 0 -> fst D <> 0 -> snd D <> 0 -> (0 < fst n)%nat -> (0 < snd n)%nat -> cartesian x y t xs ys ts ->
  speckle_evaluate sp d n0 n1 nt x y t = Ok E -> (k < nt)%nat -> E i j k = Some e ->
  (xs i' = xs i + wl * f * INR (fst n) / fst D /\ ys j' = ys j) \/ (xs i' = xs i /\ ys j' = ys j + wl * f * INR (snd n) / snd D) ->
  exists e', E i' j' k = Some e' /\ Cmod e' = Cmod e.
Proof. exact c63_period. Qed.
Print Assumptions C63_period.
(** C63: over one period, sampled with one point per speckle width, the mean intensity is the number of beamlets, whatever the random draws. *)
Theorem C63_mean_intensity :
  forall wl f D n ty bw amp cyc dist sp d nt x y t xs ys ts E k e x0 y0,
  speckle_init wl f D n ty bw amp cyc dist false = Ok sp -> ty <> GP_ISI ->
  wl <> 0 -> f <> 0 -> fst D <> 0 -> snd D <> 0 -> (0 < fst n)%nat -> (0 < snd n)%nat -> cartesian x y t xs ys ts ->
  (forall i, (i < fst n)%nat -> xs i = x0 + INR i * (wl * f / fst D)) -> (forall j, (j < snd n)%nat -> ys j = y0 + INR j * (wl * f / snd D)) ->
  speckle_evaluate sp d (fst n) (snd n) nt x y t = Ok E -> (k < nt)%nat -> (forall i j, (i < fst n)%nat -> (j < snd n)%nat -> E i j k = Some (e i j)) ->
  rsum (fst n) (fun i => rsum (snd n) (fun j => Cmod (e i j) ^ 2)) / (INR (fst n) * INR (snd n)) = INR (fst n) * INR (snd n).
Proof. exact c63_mean. Qed.
Print Assumptions C63_mean_intensity.
Example C63_nonvacuous : exists sp E e, speckle_init 1 1 (1, 1) (2, 1)%nat CPP 1 None None None false = Ok sp /\
  speckle_evaluate sp (mkDraws (fun _ _ => 0) (0, 0) (fun _ _ _ => RtoC 1)) 2 1 1 (fun i _ _ => INR i) (fun _ j _ => INR j) (fun _ _ k => INR k) = Ok E /\
  (forall i j, E i j 0%nat = Some (e i j)).
Proof.
  assert (Hi : exists sp, speckle_init 1 1 (1, 1) (2, 1)%nat CPP 1 None None None false = Ok sp).
  { assert (N1 : Reqb 1 0 = false) by (destruct (Reqb 1 0) eqn:B; [apply Reqb_true in B; lra|reflexivity]). eexists. unfold speckle_init, pyassert. cbn [has_SSD supported bind]. rewrite N1, (proj2 (Rltb_true 0 1)) by lra. reflexivity. }
  destruct Hi as (sp & Hi). destruct (c54_plates _ _ _ _ _ _ _ _ _ _ _ (mkDraws (fun _ _ => 0) (0, 0) (fun _ _ _ => RtoC 1)) 2 1 1 (fun i _ _ => INR i) (fun _ j _ => INR j) (fun _ _ k => INR k) INR INR INR Hi) as (E & HE & _); cbn [fst snd]; try lia; try lra; auto; [intros i j k; auto|].
  destruct (evaluate_val sp _ _ _ _ _ _ _ INR INR INR E HE ltac:(intros i j k; auto)) as (B & (q & _ & HB) & V).
  { destruct (speckle_init_inv _ _ _ _ _ _ _ _ _ _ _ Hi) as (_ & _ & E1 & E2 & E3 & E4 & _). unfold proper. rewrite E1, E2, E3, E4. cbn. repeat split; lra || lia. }
  specialize (HB 0%nat ltac:(lia)). destruct (speckle_init_inv _ _ _ _ _ _ _ _ _ _ _ Hi) as (_ & _ & _ & _ & _ & _ & Ht & _). unfold beamlets_complex_amplitude in HB. rewrite Ht in HB.
  assert (EB : B 0%nat = Some (fun _ _ => RtoC 1)) by congruence. do 3 eexists. split; [exact Hi|]. split; [exact HE|]. intros i j. rewrite V, EB. reflexivity.
Qed.
(** C64 is false: with modulation in one direction only (amplitudes (delta, 0), which the constructor accepts) every value of the field is nan. *)
Theorem C64_refuted :
  forall wl f D n bw delta c s env d n0 n1 nt x y t,
  0 < bw -> 0 < delta -> some_positive c = true -> some_positive s = true -> (0 < n0)%nat -> (0 < n1)%nat -> (0 < nt)%nat ->
  exists sp E, speckle_init wl f D n FM_SSD bw (Some (delta, 0)) (Some c) (Some s) env = Ok sp /\ speckle_evaluate sp d n0 n1 nt x y t = Ok E /\
    forall i j k, (k < nt)%nat -> E i j k = None.
Proof. exact c64_nan. Qed.
Print Assumptions C64_refuted.
(** C64 (partial): with both amplitudes positive every value is finite, and is the documented one. *)
Theorem C64_partial :
  forall wl f D n bw a c s env sp d n0 n1 nt x y t xs ys ts,
  speckle_init wl f D n FM_SSD bw (Some a) (Some c) (Some s) env = Ok sp ->
  0 < fst a -> 0 < snd a -> 0 < fst s -> 0 < snd s ->
  wl <> 0 -> f <> 0 -> fst D <> 0 -> snd D <> 0 -> (0 < fst n)%nat -> (0 < snd n)%nat -> cartesian x y t xs ys ts -> (0 < n0)%nat -> (0 < n1)%nat -> (0 < nt)%nat ->
  exists E, speckle_evaluate sp d n0 n1 nt x y t = Ok E /\ forall i j k, (i < n0)%nat -> (j < n1)%nat -> (k < nt)%nat ->
    E i j k = Some (Cmult (RtoC (if env then sinc_envelope wl f D n (xs i) (ys j) else 1))
      (beamlet_sum wl f D n (fun m l => cis (psi_ssd a c (ssd_nu bw a s) (d_dephasing d) n (cycles wl (ts k)) m l)) (d_plate d) (xs i) (ys j))).
Proof. exact c54_fm. Qed.
Print Assumptions C64_partial.
(** C65 is false: on a cylindrical grid the field is not the documented one at the point (x, y). *)
Theorem C65_refuted :
  exists sp E d theta rs, speckle_init 1 1 (1, 1) (2, 1)%nat CPP 1 None None None false = Ok sp /\
  (forall i, theta i = 0) /\ (forall j, rs j = INR j) /\
  speckle_evaluate sp d 1 2 1 (fun i j _ => rs j * cos (theta i)) (fun i j _ => rs j * sin (theta i)) (fun _ _ _ => 0) = Ok E /\
  E 0%nat 1%nat 0%nat = Some (RtoC 2) /\ beamlet_sum 1 1 (1, 1) (2, 1)%nat (fun _ _ => RtoC 1) (d_plate d) (rs 1%nat * cos (theta 0%nat)) (rs 1%nat * sin (theta 0%nat)) = RtoC 0.
Proof. exact c65_witness. Qed.
Print Assumptions C65_refuted.
(** C65: on every cylindrical grid whose first angle is 0 the field does not depend on the radius (without the envelope). *)
Theorem C65_no_radius :
  forall wl f D n ty bw amp cyc dist sp d n0 n1 nt x y t theta rs ts E i j j' k,
  speckle_init wl f D n ty bw amp cyc dist false = Ok sp -> cylindrical x y t theta rs ts -> theta 0%nat = 0 ->
  speckle_evaluate sp d n0 n1 nt x y t = Ok E -> E i j k = E i j' k.
Proof. exact c65_radius. Qed.
Print Assumptions C65_no_radius.
(** C65 (partial): on Cartesian grids it is the documented field. *)
Theorem C65_partial :
  forall wl f D n ty bw amp cyc dist env sp d n0 n1 nt x y t xs ys ts,
  speckle_init wl f D n ty bw amp cyc dist env = Ok sp -> (ty = RPP \/ ty = CPP) ->
  wl <> 0 -> f <> 0 -> fst D <> 0 -> snd D <> 0 -> (0 < fst n)%nat -> (0 < snd n)%nat -> cartesian x y t xs ys ts -> (0 < n0)%nat -> (0 < n1)%nat -> (0 < nt)%nat ->
  exists E, speckle_evaluate sp d n0 n1 nt x y t = Ok E /\ forall i j k, (i < n0)%nat -> (j < n1)%nat -> (k < nt)%nat ->
    E i j k = Some (Cmult (RtoC (if env then sinc_envelope wl f D n (xs i) (ys j) else 1)) (beamlet_sum wl f D n (fun _ _ => RtoC 1) (d_plate d) (xs i) (ys j))).
Proof. exact c54_plates. Qed.
Print Assumptions C65_partial.
(** C66: the random time series has exactly the requested mean square, for any draws that are not all zero. *)
Theorem C66_rms :
  forall n dt f rms z,
  (0 < n)%nat -> f <> 0 -> (exists k, (k < n)%nat /\ z k <> RtoC 0) ->
  exists s, gen_gaussian_time_series n dt (Fin f) rms z = Some s /\ rsum n (fun k => Cmod (s k) ^ 2) / INR n = rms ^ 2.
Proof. exact gen_rms. Qed.
Print Assumptions C66_rms.
(** C66 at the edges: an infinite width (white noise) has the same mean square, a zero width gives zeros, nan gives nan. *)
Theorem C66_edges :
  (forall n dt rms z, (0 < n)%nat -> (exists k, (k < n)%nat /\ z k <> RtoC 0) ->
    exists s, gen_gaussian_time_series n dt Infinite rms z = Some s /\ rsum n (fun k => Cmod (s k) ^ 2) / INR n = rms ^ 2) /\
  (forall n dt rms z, exists s, gen_gaussian_time_series n dt (Fin 0) rms z = Some s /\ forall k, s k = RtoC 0) /\
  (forall n dt rms z, gen_gaussian_time_series n dt NaN rms z = None).
Proof.
  split; [exact gen_infinite|]. split; intros n dt rms z; apply (gen_edges n dt rms z).
Qed.
Print Assumptions C66_edges.
Example C66_nonvacuous : forall rms, exists s, gen_gaussian_time_series 3 1 (Fin 1) rms (fun _ => RtoC 1) = Some s /\ rsum 3 (fun k => Cmod (s k) ^ 2) / INR 3 = rms ^ 2.
Proof. intros rms. apply C66_rms; [lia|lra|]. exists 0%nat. split; [lia|]. intros E. injection E as E. lra. Qed.
(** C67 is false: a profile and a time window ending at 0 for which the call raises IndexError. *)
Theorem C67_refuted :
  exists sp, speckle_init 1 1 (1, 1) (2, 2)%nat GP_ISI 1 None None None false = Ok sp /\
  forall d, exists ts : nat -> R, ts 0%nat < ts 1%nat /\ speckle_evaluate sp d 2 2 2 (fun i _ _ => INR i) (fun _ j _ => INR j) (fun _ _ k => ts k) = Err IndexError.
Proof. exact c67_raises. Qed.
Print Assumptions C67_refuted.
(** C67: more generally, with GP ISI the field before time 0 is the one at the end of the series generated. *)
Theorem C67_wrap :
  forall wl f D n bw amp cyc dist env sp d n0 n1 nt x y t xs ys ts E i j k k' q N,
  speckle_init wl f D n GP_ISI bw amp cyc dist env = Ok sp -> cartesian x y t xs ys ts -> 0 < wl ->
  speckle_evaluate sp d n0 n1 nt x y t = Ok E -> (k < nt)%nat -> (k' < nt)%nat ->
  let dt := 1 / bw / 50 in
  N = length (arange0 (cycles wl (ts (nt - 1)%nat) + dt) dt) -> (1 <= q <= N)%nat ->
  cycles wl (ts k) = - (INR q * dt) -> cycles wl (ts k') = INR (N - q) * dt -> E i j k = E i j k'.
Proof. exact c67_wrap. Qed.
Print Assumptions C67_wrap.
(** C67: and with GP RPM SSD the field before time -(delay) does not change in time. *)
Theorem C67_frozen :
  forall wl f D n bw a c s env sp d n0 n1 nt x y t xs ys ts E i j k k',
  speckle_init wl f D n GP_RPM_SSD bw (Some a) (Some c) (Some s) env = Ok sp -> cartesian x y t xs ys ts -> 0 < wl ->
  speckle_evaluate sp d n0 n1 nt x y t = Ok E -> (0 < fst n)%nat -> (0 < snd n)%nat -> 0 <= fst (sk_delay sp) -> 0 <= snd (sk_delay sp) ->
  (forall u, u = k \/ u = k' -> (u < nt)%nat /\ cycles wl (ts u) + fst (sk_delay sp) <= 0 /\ cycles wl (ts u) + snd (sk_delay sp) <= 0) ->
  f <> 0 -> fst D <> 0 -> snd D <> 0 -> E i j k = E i j k'.
Proof. exact c67_frozen. Qed.
Print Assumptions C67_frozen.
(** C67 (partial): with non-negative times GP ISI returns. *)
Theorem C67_isi_partial :
  forall wl f D n bw amp cyc dist env sp d n0 n1 nt x y t xs ys ts,
  speckle_init wl f D n GP_ISI bw amp cyc dist env = Ok sp ->
  0 < wl -> f <> 0 -> fst D <> 0 -> snd D <> 0 -> (0 < fst n)%nat -> (0 < snd n)%nat -> cartesian x y t xs ys ts -> (0 < n0)%nat -> (0 < n1)%nat -> (0 < nt)%nat ->
  (forall k, (k < nt)%nat -> 0 <= ts k <= ts (nt - 1)%nat) -> (forall i j, d_normal d i j 0%nat <> RtoC 0) ->
  let dt := 1 / bw / 50 in
  exists E N s, speckle_evaluate sp d n0 n1 nt x y t = Ok E /\
    (forall m l, rsum N (fun k => Cmod (s m l k) ^ 2) / INR N = 1) /\
    forall i j k, (i < n0)%nat -> (j < n1)%nat -> (k < nt)%nat ->
      exists q, (q < N)%nat /\ Rabs (cycles wl (ts k) - INR q * dt) <= dt / 2 /\
      E i j k = Some (Cmult (RtoC (if env then sinc_envelope wl f D n (xs i) (ys j) else 1)) (beamlet_sum wl f D n (fun m l => s m l q) (fun _ _ => 0) (xs i) (ys j))).
Proof. exact c54_isi. Qed.
Print Assumptions C67_isi_partial.
(** C67 (partial): with non-negative times GP RPM SSD returns. *)
Theorem C67_rpm_partial :
  forall wl f D n bw a c s env sp d n0 n1 nt x y t xs ys ts,
  speckle_init wl f D n GP_RPM_SSD bw (Some a) (Some c) (Some s) env = Ok sp ->
  0 < fst a -> 0 < snd a -> 0 < fst s -> 0 < snd s -> 0 <= fst c -> 0 <= snd c ->
  0 < wl -> f <> 0 -> fst D <> 0 -> snd D <> 0 -> (0 < fst n)%nat -> (0 < snd n)%nat -> cartesian x y t xs ys ts -> (0 < n0)%nat -> (0 < n1)%nat -> (0 < nt)%nat ->
  (forall k, (k < nt)%nat -> 0 <= ts k <= ts (nt - 1)%nat) -> (forall i, d_normal d i 0%nat 0%nat <> RtoC 0) ->
  let dt := 1 / bw / 50 in
  let delay := (fst c / fst (ssd_nu bw a s), snd c / snd (ssd_nu bw a s)) in
  exists E N s0 s1 psi0 psi1, speckle_evaluate sp d n0 n1 nt x y t = Ok E /\
    linear_through psi0 dt N (quadrature s0) /\ linear_through psi1 dt N (quadrature s1) /\
    rsum N (fun k => Cmod (s0 k) ^ 2) / INR N = fst a ^ 2 /\ rsum N (fun k => Cmod (s1 k) ^ 2) / INR N = snd a ^ 2 /\
    cycles wl (ts (nt - 1)%nat) + fst delay + snd delay < INR (N - 1) * dt /\
    forall i j k, (i < n0)%nat -> (j < n1)%nat -> (k < nt)%nat ->
      E i j k = Some (Cmult (RtoC (if env then sinc_envelope wl f D n (xs i) (ys j) else 1))
        (beamlet_sum wl f D n (fun m l => cis (psi0 (cycles wl (ts k) + INR m * fst delay / INR (fst n)) + psi1 (cycles wl (ts k) + INR l * snd delay / INR (snd n)))) (d_plate d) (xs i) (ys j))).
Proof. exact c54_rpm. Qed.
Print Assumptions C67_rpm_partial.
(** C68 (partial): for an even number of samples the spectrum of the series is the draws times a Gaussian centred on frequency 0. *)
Theorem C68_even_partial :
  forall n dt f rms z,
  (0 < n)%nat -> Nat.even n = true -> f <> 0 -> (exists k, (k < n)%nat /\ z k <> RtoC 0) ->
  exists s K, gen_gaussian_time_series n dt (Fin f) rms z = Some s /\
    forall q, (q < n)%nat -> Cmod (ifft1 n s q) = K * exp (- (ln 2 / 2) * (2 * PI * fftfreq n dt q / f) ^ 2) * Cmod (z ((q + n / 2) mod n)%nat).
Proof. exact c68_even. Qed.
Print Assumptions C68_even_partial.
(** C68 is false: with 3 samples and equal draws the spectral amplitude at frequency 0 is below that at the lowest negative frequency. *)
Theorem C68_refuted_odd :
  exists s, gen_gaussian_time_series 3 1 (Fin 1) 1 (fun _ => RtoC 1) = Some s /\
  fftfreq 3 1 0 = 0 /\ fftfreq 3 1 2 = - (1 / 3) /\ Cmod (ifft1 3 s 0) < Cmod (ifft1 3 s 2).
Proof. exact c68_odd_witness. Qed.
Print Assumptions C68_refuted_odd.
(** C68: for every odd number of samples the Gaussian is displaced by one frequency bin. *)
Theorem C68_odd :
  forall n dt f rms z,
  Nat.even n = false -> f <> 0 -> (exists k, (k < n)%nat /\ z k <> RtoC 0) ->
  exists s K, gen_gaussian_time_series n dt (Fin f) rms z = Some s /\
    forall q, (q < n)%nat -> Cmod (ifft1 n s q) = K * exp (- (ln 2 / 2) * (2 * PI * fftfreq n dt ((q + 1) mod n) / f) ^ 2) * Cmod (z ((q + n / 2 + 1) mod n)%nat).
Proof. exact c68_odd. Qed.
Print Assumptions C68_odd.
(** C68: its square falls to one half at frequency fwhm/(2 pi), i.e. the full width of the power spectrum is fwhm/pi in frequency (2 fwhm in angular frequency), not fwhm. *)
Theorem C68_width :
  forall f nu,
  0 < f -> (exp (- (ln 2 / 2) * (2 * PI * nu / f) ^ 2) ^ 2 = 1 / 2 <-> Rabs nu = f / (2 * PI)).
Proof. exact c68_width. Qed.
Print Assumptions C68_width.

(** C92: the constructor accepts exactly the documented parameters. *)
Theorem C92_accepts_iff :
  forall wl f D n ty bw amp cyc dist env,
  (exists sp, speckle_init wl f D n ty bw amp cyc dist env = Ok sp) <->
  0 < bw /\ (ty = RPP \/ ty = CPP \/ ty = FM_SSD \/ ty = GP_RPM_SSD \/ ty = GP_ISI) /\
  (ty = FM_SSD \/ ty = GP_RPM_SSD -> forall q, In q [amp; cyc; dist] -> exists u v, q = Some (u, v) /\ (0 < u \/ 0 < v)).
Proof. exact speckle_accepts_iff. Qed.
Print Assumptions C92_accepts_iff.
(** ... and what it stores is what was asked for. *)
Theorem C92_stores :
  forall wl f D n ty bw amp cyc dist env sp,
  speckle_init wl f D n ty bw amp cyc dist env = Ok sp ->
  sk_lambda0 sp = wl /\ sk_focal sp = f /\ sk_aperture sp = D /\ sk_n sp = n /\ sk_type sp = ty /\ sk_bandwidth sp = bw /\ sk_env sp = env /\
  sk_dt sp = 1 / (50 * bw) /\ (ty = RPP \/ ty = CPP \/ ty = GP_ISI -> sk_amp sp = (0, 0) /\ sk_delay sp = (0, 0)) /\
  (ty = FM_SSD \/ ty = GP_RPM_SSD -> Some (sk_amp sp) = amp).
Proof. exact speckle_stores. Qed.
Print Assumptions C92_stores.
Example C92_nonvacuous :
  (exists sp, speckle_init 1 1 (1, 1) (2, 3)%nat GP_RPM_SSD 1 (Some (1, 0)) (Some (0, 2)) (Some (1, 1)) true = Ok sp) /\
  ~ (exists sp, speckle_init 1 1 (1, 1) (2, 3)%nat (Unsupported false) 1 (Some (1, 0)) (Some (0, 2)) (Some (1, 1)) true = Ok sp) /\
  ~ (exists sp, speckle_init 1 1 (1, 1) (2, 3)%nat FM_SSD 1 (Some (1, 0)) (Some (0, 0)) (Some (1, 1)) true = Ok sp).
Proof.
  split; [|split]; rewrite C92_accepts_iff.
  - split; [lra|]. split; [auto|]. intros _ q [<-|[<-|[<-|[]]]]; do 2 eexists; (split; [reflexivity|lra]).
  - intros (_ & [H|[H|[H|[H|H]]]] & _); discriminate H.
  - intros (_ & _ & H). destruct (H (or_introl eq_refl) (Some (0, 0))) as (u & v & E & Q); [right; left; reflexivity|]. injection E as <- <-. lra.
Qed.
