(** C63, C64, C65, C67. *)
From Verif Require Import PyBase CSum NpFFT FFTProofs NumPy NpMath NpMathProofs GridModel FromArrayProofs GridProofs LaserModel DataModel DataProofs SpectralDataProofs SpectralProps SolverSpec SolverProofs
  LaserInv EnergyProofs SpeckleModel SpeckleSpec SpeckleProofs SpeckleBound SpeckleSeries SpeckleMore.
Open Scope R_scope.

(** ** C63: lateral period and mean intensity *)
Lemma interp_total xp fp t v u : np_interp xp fp t = Ok v -> exists w, np_interp xp fp u = Ok w.
Proof. unfold np_interp, np_interp_with. destruct xp; [discriminate|]. destruct (_ =? _)%nat; [|discriminate]. eauto. Qed.
Lemma bca_unimodular sp d t times ts b i j : sk_type sp <> GP_ISI -> beamlets_complex_amplitude sp d t times ts = Ok (Some b) -> Cnorm2 (b i j) = 1.
Proof.
  intros H. unfold beamlets_complex_amplitude. destruct (sk_type sp); try contradiction; try discriminate.
  - intros E. injection E as <-. rewrite Cnorm2_R. ring.
  - intros E. injection E as <-. rewrite Cnorm2_R. ring.
  - destruct (sk_freq sp) as [[f0| |] [f1| |]]; intros E; try discriminate. injection E as <-. apply Cnorm2_cis.
  - destruct ts as [|[[p0 p1]|]|]; try discriminate. destruct (np_interp times p0 t) eqn:I0; [|discriminate]. destruct (np_interp times p1 t) eqn:I1; [|discriminate]. cbn [bind].
    intros E. match type of E with Ok (Some ?u) = Ok (Some ?v) => assert (EE : u = v) by congruence end. rewrite <- EE.
    destruct (interp_total _ _ _ _ (t + INR i * fst (sk_delay sp) / INR (fst (sk_n sp))) I0) as (w0 & ->). destruct (interp_total _ _ _ _ (t + INR j * snd (sk_delay sp) / INR (snd (sk_n sp))) I1) as (w1 & ->). apply Cnorm2_cis.
Qed.
Lemma cis_half_shift z w (n : nat) : cis (z - 2 * PI * (INR n - (INR w - 1) / 2)) = Cmult (cis z) (cis (PI * (INR w - 1))).
Proof.
  rewrite <- cis_plus. rewrite <- (cis_period (z - _) (Z.of_nat n)). f_equal. rewrite <- INR_IZR_INZ. field.
Qed.
Lemma beamlet_period_x la f D n A phi x y : la <> 0 -> f <> 0 -> fst D <> 0 -> (0 < fst n)%nat ->
  beamlet_sum la f D n A phi (x + la * f * INR (fst n) / fst D) y = Cmult (cis (PI * (INR (fst n) - 1))) (beamlet_sum la f D n A phi x y).
Proof.
  intros H1 H2 H3 H4. unfold beamlet_sum. rewrite <- csum_scal_l. apply csum_ext. intros m Hm. rewrite <- csum_scal_l. apply csum_ext. intros l Hl.
  assert (HN : INR (fst n) <> 0) by (apply not_0_INR; lia).
  replace (k_perp la f (fst D) (fst n) m * (x + la * f * INR (fst n) / fst D) + k_perp la f (snd D) (snd n) l * y + phi m l)
    with ((k_perp la f (fst D) (fst n) m * x + k_perp la f (snd D) (snd n) l * y + phi m l) - 2 * PI * (INR m - (INR (fst n) - 1) / 2)) by (set (K := k_perp la f (snd D) (snd n) l); unfold k_perp; field; repeat split; assumption).
  rewrite cis_half_shift. ring.
Qed.
Lemma beamlet_period_y la f D n A phi x y : la <> 0 -> f <> 0 -> snd D <> 0 -> (0 < snd n)%nat ->
  beamlet_sum la f D n A phi x (y + la * f * INR (snd n) / snd D) = Cmult (cis (PI * (INR (snd n) - 1))) (beamlet_sum la f D n A phi x y).
Proof.
  intros H1 H2 H3 H4. unfold beamlet_sum. rewrite <- csum_scal_l. apply csum_ext. intros m Hm. rewrite <- csum_scal_l. apply csum_ext. intros l Hl.
  assert (HN : INR (snd n) <> 0) by (apply not_0_INR; lia).
  replace (k_perp la f (fst D) (fst n) m * x + k_perp la f (snd D) (snd n) l * (y + la * f * INR (snd n) / snd D) + phi m l)
    with ((k_perp la f (fst D) (fst n) m * x + k_perp la f (snd D) (snd n) l * y + phi m l) - 2 * PI * (INR l - (INR (snd n) - 1) / 2)) by (set (K := k_perp la f (fst D) (fst n) m); unfold k_perp; field; repeat split; assumption).
  rewrite cis_half_shift. ring.
Qed.
Lemma c63_period wl f D n ty bw amp cyc dist sp d n0 n1 nt x y t xs ys ts E i j i' j' k e :
  speckle_init wl f D n ty bw amp cyc dist false = Ok sp ->
  wl <> 0 -> f <> 0 -> fst D <> 0 -> snd D <> 0 -> (0 < fst n)%nat -> (0 < snd n)%nat -> cartesian x y t xs ys ts ->
  speckle_evaluate sp d n0 n1 nt x y t = Ok E -> (k < nt)%nat -> E i j k = Some e ->
  (xs i' = xs i + wl * f * INR (fst n) / fst D /\ ys j' = ys j) \/ (xs i' = xs i /\ ys j' = ys j + wl * f * INR (snd n) / snd D) ->
  exists e', E i' j' k = Some e' /\ Cmod e' = Cmod e.
Proof.
  intros H H1 H2 H3 H4 H5 H6 C HE Hk He HP. destruct (speckle_init_inv _ _ _ _ _ _ _ _ _ _ _ H) as (_ & _ & E1 & E2 & E3 & E4 & _ & _ & _ & Een & _).
  destruct (evaluate_val sp d n0 n1 nt x y t xs ys ts E HE C) as (B & (q & _ & HB) & V); [unfold proper; rewrite E1, E2, E3, E4; auto 10|].
  rewrite V in He |- *. destruct (B k) as [b|]; [|discriminate]. eexists. split; [reflexivity|]. injection He as <-. unfold env_factor. rewrite Een, E1, E2, E3, E4.
  destruct HP as [(-> & ->)|(-> & ->)]; [rewrite beamlet_period_x by assumption|rewrite beamlet_period_y by assumption]; rewrite !Cmod_mult, Cmod_cis; ring.
Qed.
Lemma fft_beamlets la f D n A phi x0 y0 i j : la <> 0 -> f <> 0 -> fst D <> 0 -> snd D <> 0 -> (0 < fst n)%nat -> (0 < snd n)%nat ->
  Cnorm2 (beamlet_sum la f D n A phi (x0 + INR i * (la * f / fst D)) (y0 + INR j * (la * f / snd D))) =
  Cnorm2 (fft2 (fst n) (snd n) (fun m l => Cmult (A m l) (cis (k_perp la f (fst D) (fst n) m * x0 + k_perp la f (snd D) (snd n) l * y0 + phi m l))) i j).
Proof.
  intros H1 H2 H3 H4 H5 H6. assert (N1 : INR (fst n) <> 0) by (apply not_0_INR; lia). assert (N2 : INR (snd n) <> 0) by (apply not_0_INR; lia).
  transitivity (Cnorm2 (Cmult (cis (PI * (INR (fst n) - 1) / INR (fst n) * INR i + PI * (INR (snd n) - 1) / INR (snd n) * INR j))
    (fft2 (fst n) (snd n) (fun m l => Cmult (A m l) (cis (k_perp la f (fst D) (fst n) m * x0 + k_perp la f (snd D) (snd n) l * y0 + phi m l))) i j))).
  2:{ rewrite Cnorm2_mult, Cnorm2_cis. ring. }
  f_equal. unfold beamlet_sum, fft2, fft1. rewrite <- csum_scal_l. apply csum_ext. intros m Hm.
  rewrite <- csum_scal_r, <- csum_scal_l. apply csum_ext. intros l Hl.
  replace (k_perp la f (fst D) (fst n) m * (x0 + INR i * (la * f / fst D)) + k_perp la f (snd D) (snd n) l * (y0 + INR j * (la * f / snd D)) + phi m l) with
    ((PI * (INR (fst n) - 1) / INR (fst n) * INR i + PI * (INR (snd n) - 1) / INR (snd n) * INR j) + (k_perp la f (fst D) (fst n) m * x0 + k_perp la f (snd D) (snd n) l * y0 + phi m l)
      + - (2 * PI * (INR l * INR j) / INR (snd n)) + - (2 * PI * (INR m * INR i) / INR (fst n))) by (unfold k_perp; field; repeat split; assumption).
  rewrite !cis_plus. ring.
Qed.
Lemma c63_mean wl f D n ty bw amp cyc dist sp d nt x y t xs ys ts E k e x0 y0 :
  speckle_init wl f D n ty bw amp cyc dist false = Ok sp -> ty <> GP_ISI ->
  wl <> 0 -> f <> 0 -> fst D <> 0 -> snd D <> 0 -> (0 < fst n)%nat -> (0 < snd n)%nat -> cartesian x y t xs ys ts ->
  (forall i, (i < fst n)%nat -> xs i = x0 + INR i * (wl * f / fst D)) -> (forall j, (j < snd n)%nat -> ys j = y0 + INR j * (wl * f / snd D)) ->
  speckle_evaluate sp d (fst n) (snd n) nt x y t = Ok E -> (k < nt)%nat -> (forall i j, (i < fst n)%nat -> (j < snd n)%nat -> E i j k = Some (e i j)) ->
  rsum (fst n) (fun i => rsum (snd n) (fun j => Cmod (e i j) ^ 2)) / (INR (fst n) * INR (snd n)) = INR (fst n) * INR (snd n).
Proof.
  intros H Ht H1 H2 H3 H4 H5 H6 C Hx Hy HE Hk He. destruct (speckle_init_inv _ _ _ _ _ _ _ _ _ _ _ H) as (_ & _ & E1 & E2 & E3 & E4 & E5 & _ & _ & Een & _).
  destruct (evaluate_val sp d (fst n) (snd n) nt x y t xs ys ts E HE C) as (B & (q & _ & HB) & V); [unfold proper; rewrite E1, E2, E3, E4; auto 10|].
  specialize (HB k Hk). assert (N1 : INR (fst n) <> 0) by (apply not_0_INR; lia). assert (N2 : INR (snd n) <> 0) by (apply not_0_INR; lia).
  destruct (B k) as [b|] eqn:EB; [|specialize (He 0%nat 0%nat H5 H6); rewrite V, EB in He; discriminate].
  rewrite (rsum_ext (fst n) _ (fun i => rsum (snd n) (fun j => Cnorm2 (fft2 (fst n) (snd n) (fun m l => Cmult (b m l) (cis (k_perp wl f (fst D) (fst n) m * x0 + k_perp wl f (snd D) (snd n) l * y0 + plate sp d m l))) i j)))).
  2:{ intros i Hi. apply rsum_ext. intros j Hj. specialize (He i j Hi Hj). rewrite V, EB in He. rewrite <- fft_beamlets by assumption. rewrite <- Hx, <- Hy by assumption.
      injection He as He. rewrite <- He. unfold env_factor. rewrite Een, E1, E2, E3, E4. rewrite Cmod_sq, Cnorm2_mult, Cnorm2_R. ring. }
  rewrite fft2_parseval by assumption.
  rewrite (rsum_ext (fst n) _ (fun _ => INR (snd n))).
  2:{ intros i Hi. rewrite (rsum_ext (snd n) _ (fun _ => 1)); [rewrite rsum_const; ring|]. intros j Hj. rewrite Cnorm2_mult, Cnorm2_cis, (bca_unimodular sp d _ _ _ _ i j ltac:(rewrite E5; exact Ht) HB). ring. }
  rewrite rsum_const. field. auto.
Qed.
(** ** C64: dispersion in one direction only *)
Lemma c64_nan wl f D n bw delta c s env d n0 n1 nt x y t :
  0 < bw -> 0 < delta -> some_positive c = true -> some_positive s = true -> (0 < n0)%nat -> (0 < n1)%nat -> (0 < nt)%nat ->
  exists sp E, speckle_init wl f D n FM_SSD bw (Some (delta, 0)) (Some c) (Some s) env = Ok sp /\ speckle_evaluate sp d n0 n1 nt x y t = Ok E /\
    forall i j k, (k < nt)%nat -> E i j k = None.
Proof.
  intros Hb Hd Hc Hs P0 P1 P2.
  assert (Hi : exists sp, speckle_init wl f D n FM_SSD bw (Some (delta, 0)) (Some c) (Some s) env = Ok sp).
  { unfold speckle_init. destruct (Reqb bw 0) eqn:B; [apply Reqb_true in B; lra|]. cbn [has_SSD supported bind pyassert]. rewrite (proj2 (Rltb_true 0 bw) Hb). rewrite Hc, Hs. unfold some_positive at 1. cbn [fst snd].
    rewrite (proj2 (Rltb_true 0 delta) Hd). cbn. eauto. }
  destruct Hi as (sp & Hi). destruct (speckle_init_inv _ _ _ _ _ _ _ _ _ _ _ Hi) as (_ & _ & _ & _ & _ & _ & Ht & _ & _ & _ & HS).
  destruct (HS eq_refl) as (a' & c' & s' & Q1 & _ & Q3 & _ & _ & _ & _ & EF & _). injection Q1 as <-. injection Q3 as <-.
  assert (N1 : forall r, snd (sk_freq sp) <> Fin r).
  { intros r. rewrite EF. cbn [snd]. unfold ssd_frequency. destruct (xdiv (snd s) _); [|discriminate|discriminate]. unfold xdiv. rewrite (proj2 (Reqb_true 0 0) eq_refl). destruct (Reqb _ 0); discriminate. }
  assert (NB : forall tm u v, beamlets_complex_amplitude sp d tm u v = Ok None).
  { intros tm u v. unfold beamlets_complex_amplitude. rewrite Ht. destruct (sk_freq sp) as [[f0| |] [f1| |]]; try reflexivity. exfalso. apply (N1 f1). reflexivity. }
  destruct (evaluate_ok sp d n0 n1 nt x y t (arange0 (normalised_time sp t (nt - 1) + sk_dt sp) (sk_dt sp), NoSeries) P0 P1 P2) as (E & HE).
  { rewrite Ht. reflexivity. }
  { intros k Hk. rewrite NB. eauto. }
  exists sp, E. split; [exact Hi|]. split; [exact HE|]. intros i j k Hk.
  destruct (evaluate_inv _ _ _ _ _ _ _ _ _ HE) as (_ & _ & _ & q & l & _ & Hl & ->). specialize (Hl k Hk). rewrite NB in Hl. injection Hl as Hl. rewrite <- Hl. reflexivity.
Qed.
(** ** C65: cylindrical grids *)
Lemma pattern_first sp d b x y x' y' k l k' l' : sk_env sp = false -> x k 0%nat = x' k' 0%nat -> y 0%nat l = y' 0%nat l' ->
  speckle_pattern sp d b x y k l = speckle_pattern sp d b x' y' k' l'.
Proof. intros He Hx Hy. unfold speckle_pattern. destruct b as [b|]; [|reflexivity]. cbn zeta. rewrite He, Hx, Hy. reflexivity. Qed.
Lemma c65_radius wl f D n ty bw amp cyc dist sp d n0 n1 nt x y t theta rs ts E i j j' k :
  speckle_init wl f D n ty bw amp cyc dist false = Ok sp -> cylindrical x y t theta rs ts -> theta 0%nat = 0 ->
  speckle_evaluate sp d n0 n1 nt x y t = Ok E -> E i j k = E i j' k.
Proof.
  intros H C Hth HE. destruct (speckle_init_inv _ _ _ _ _ _ _ _ _ _ _ H) as (_ & _ & _ & _ & _ & _ & _ & _ & _ & Een & _).
  destruct (evaluate_inv _ _ _ _ _ _ _ _ _ HE) as (_ & _ & _ & q & l & _ & _ & ->). apply pattern_first; [exact Een|reflexivity|].
  rewrite (proj1 (proj2 (C 0%nat j 0%nat))), (proj1 (proj2 (C 0%nat j' 0%nat))), Hth, sin_0. ring.
Qed.
Lemma c65_witness : exists sp E d theta rs, speckle_init 1 1 (1, 1) (2, 1)%nat CPP 1 None None None false = Ok sp /\
  (forall i, theta i = 0) /\ (forall j, rs j = INR j) /\
  speckle_evaluate sp d 1 2 1 (fun i j _ => rs j * cos (theta i)) (fun i j _ => rs j * sin (theta i)) (fun _ _ _ => 0) = Ok E /\
  E 0%nat 1%nat 0%nat = Some (RtoC 2) /\ beamlet_sum 1 1 (1, 1) (2, 1)%nat (fun _ _ => RtoC 1) (d_plate d) (rs 1%nat * cos (theta 0%nat)) (rs 1%nat * sin (theta 0%nat)) = RtoC 0.
Proof.
  assert (Hi : exists sp, speckle_init 1 1 (1, 1) (2, 1)%nat CPP 1 None None None false = Ok sp).
  { unfold speckle_init. destruct (Reqb 1 0) eqn:B; [apply Reqb_true in B; lra|]. cbn [has_SSD supported bind pyassert]. rewrite (proj2 (Rltb_true 0 1)) by lra. cbn. eauto. }
  destruct Hi as (sp & Hi). destruct (speckle_init_inv _ _ _ _ _ _ _ _ _ _ _ Hi) as (_ & _ & E1 & E2 & E3 & E4 & Ht & _ & _ & Een & _).
  set (d := mkDraws (fun _ _ => 0) (0, 0) (fun _ _ _ => RtoC 1)).
  destruct (evaluate_ok sp d 1 2 1 (fun i j _ => INR j * cos 0) (fun i j _ => INR j * sin 0) (fun _ _ _ => 0) (arange0 (normalised_time sp (fun _ _ _ => 0) 0 + sk_dt sp) (sk_dt sp), NoSeries)) as (E & HE); try lia.
  { rewrite Ht. reflexivity. }
  { intros k Hk. unfold beamlets_complex_amplitude. rewrite Ht. eauto. }
  exists sp, E, d, (fun _ => 0), INR. split; [exact Hi|]. split; [reflexivity|]. split; [reflexivity|]. split; [exact HE|].
  destruct (evaluate_inv _ _ _ _ _ _ _ _ _ HE) as (_ & _ & _ & q & l & _ & Hl & ->). specialize (Hl 0%nat ltac:(lia)). unfold beamlets_complex_amplitude in Hl. rewrite Ht in Hl. injection Hl as Hl. rewrite <- Hl.
  split.
  - unfold speckle_pattern. cbn zeta. rewrite Een, E4. unfold lambda_fnum, plate. rewrite E1, E2, E3, Ht. cbn [fst snd csum]. unfold phase_focus. f_equal. rewrite !lens_val by lia.
    replace (INR 1 * sin 0) with 0 by (rewrite sin_0; ring). simpl (INR 0). unfold d; cbn [d_plate]. rewrite cos_0.
    match goal with |- context [cis (- (?a * (0 * 1 / ?b)))] => idtac end || idtac.
    repeat match goal with |- context [cis ?a] => lazymatch a with 0 => fail | _ => replace a with 0 by (field; simpl; lra) end end. rewrite cis_0. apply injective_projections; simpl; ring.
  - unfold beamlet_sum, k_perp. cbn [fst snd csum]. rewrite cos_0, sin_0. unfold d; cbn [d_plate]. simpl INR.
    match goal with |- context [cis ?a] => replace a with (PI / 2) by (field; lra) end.
    match goal with |- context [Cmult _ (cis ?a)] => lazymatch a with PI / 2 => fail | _ => replace a with (- (PI / 2)) by (field; lra) end end.
    unfold cis. rewrite cos_neg, sin_neg, cos_PI2, sin_PI2. apply injective_projections; simpl; ring.
Qed.
(** ** C67: times before zero *)
Lemma py_round_Z z : py_round (IZR z) = z.
Proof.
  unfold py_round. rewrite (Int_part_unique (IZR z) z) by lra. replace (IZR z - IZR z) with 0 by ring. rewrite (proj2 (PyBase.Rltb_true 0 (1 / 2))) by lra. reflexivity.
Qed.
(** With smoothing by induced spatial incoherence the field q steps before time zero is the field N - q steps after it. *)
Lemma c67_wrap wl f D n bw amp cyc dist env sp d n0 n1 nt x y t xs ys ts E i j k k' q N :
  speckle_init wl f D n GP_ISI bw amp cyc dist env = Ok sp -> cartesian x y t xs ys ts -> 0 < wl ->
  speckle_evaluate sp d n0 n1 nt x y t = Ok E -> (k < nt)%nat -> (k' < nt)%nat ->
  let dt := 1 / bw / 50 in
  N = length (arange0 (cycles wl (ts (nt - 1)%nat) + dt) dt) -> (1 <= q <= N)%nat ->
  cycles wl (ts k) = - (INR q * dt) -> cycles wl (ts k') = INR (N - q) * dt -> E i j k = E i j k'.
Proof.
  intros H C Hwl HE Hk Hk' dt HN Hq T T'. destruct (speckle_init_inv _ _ _ _ _ _ _ _ _ _ _ H) as (Hb & _ & E1 & E2 & E3 & E4 & Ht & Eb & Edt & Een & _).
  fold dt in Edt. assert (Hdt : 0 < dt) by (unfold dt; repeat apply Rdiv_lt_0_compat; lra).
  assert (EC : forall k, normalised_time sp t k = cycles wl (ts k)) by (intros u; unfold normalised_time, cycles; rewrite (proj2 (proj2 (C 0%nat 0%nat u))), E1; reflexivity).
  destruct (evaluate_inv _ _ _ _ _ _ _ _ _ HE) as (_ & _ & _ & qq & l & Hqq & Hl & ->).
  pose proof (Hl k Hk) as L1. pose proof (Hl k' Hk') as L2. rewrite Ht, EC, Edt in Hqq. unfold init_gaussian_time_series in Hqq. rewrite Ht in Hqq.
  assert (Q : exists a, snd qq = Amplitudes N a) by (rewrite <- HN in Hqq; destruct (arange0 _ _); [discriminate|injection Hqq as <-; eexists; reflexivity]).
  destruct Q as (a & Qa). unfold beamlets_complex_amplitude in L1, L2. rewrite Ht, Qa, EC, Edt in L1, L2. rewrite T in L1. rewrite T' in L2.
  replace (- (INR q * dt) / dt) with (IZR (- Z.of_nat q)) in L1 by (rewrite opp_IZR, <- INR_IZR_INZ; field; lra).
  replace (INR (N - q) * dt / dt) with (IZR (Z.of_nat (N - q))) in L2 by (rewrite <- INR_IZR_INZ; field; lra).
  rewrite py_round_Z in L1, L2. unfold py_index in L1, L2.
  destruct (Z.leb_spec 0 (- Z.of_nat q)); [lia|]. destruct (Z.leb_spec 0 (- Z.of_nat q + Z.of_nat N)); [|lia].
  destruct (Z.leb_spec 0 (Z.of_nat (N - q))); [|lia]. destruct (Z.ltb_spec (Z.of_nat (N - q)) (Z.of_nat N)); [|lia].
  replace (Z.to_nat (- Z.of_nat q + Z.of_nat N)) with (N - q)%nat in L1 by lia. rewrite Nat2Z.id in L2. rewrite L1 in L2. injection L2 as L2. rewrite L2. reflexivity.
Qed.
(** With random phase modulation the field does not change before time -(delays). *)
Lemma c67_frozen wl f D n bw a c s env sp d n0 n1 nt x y t xs ys ts E i j k k' :
  speckle_init wl f D n GP_RPM_SSD bw (Some a) (Some c) (Some s) env = Ok sp -> cartesian x y t xs ys ts -> 0 < wl ->
  speckle_evaluate sp d n0 n1 nt x y t = Ok E -> (0 < fst n)%nat -> (0 < snd n)%nat -> 0 <= fst (sk_delay sp) -> 0 <= snd (sk_delay sp) ->
  (forall u, u = k \/ u = k' -> (u < nt)%nat /\ cycles wl (ts u) + fst (sk_delay sp) <= 0 /\ cycles wl (ts u) + snd (sk_delay sp) <= 0) ->
  f <> 0 -> fst D <> 0 -> snd D <> 0 -> E i j k = E i j k'.
Proof.
  intros H C Hwl HE N0 N1 D0 D1 HT Hf HD0 HD1. destruct (speckle_init_inv _ _ _ _ _ _ _ _ _ _ _ H) as (Hb & _ & E1 & E2 & E3 & E4 & Ht & Eb & Edt & Een & _).
  assert (Hdt : 0 < sk_dt sp) by (rewrite Edt; repeat apply Rdiv_lt_0_compat; lra).
  destruct (evaluate_val sp d n0 n1 nt x y t xs ys ts E HE C) as (B & (q & Hqq & HB) & V); [unfold proper; rewrite E1, E2, E3, E4; repeat split; assumption || lra|].
  pose proof (HB k ltac:(apply HT; auto)) as L1. pose proof (HB k' ltac:(apply HT; auto)) as L2. rewrite !V.
  rewrite Ht in Hqq. unfold init_gaussian_time_series in Hqq. rewrite Ht in Hqq. cbv zeta in Hqq.
  set (series := arange0 (normalised_time sp t (nt - 1) + sk_dt sp) (sk_dt sp)) in *. destruct series as [|z0 zr] eqn:Sr; [discriminate|]. rewrite <- Sr in Hqq. injection Hqq as Hqq.
  unfold beamlets_complex_amplitude in L1, L2. rewrite Ht, <- Hqq in L1, L2. cbn [fst snd] in L1, L2.
  destruct (gen_gaussian_time_series _ _ _ (fst (sk_amp sp)) _) as [p0|] eqn:G0; [|injection L1 as <-; injection L2 as <-; reflexivity].
  destruct (gen_gaussian_time_series _ _ _ (snd (sk_amp sp)) _) as [p1|] eqn:G1; [|injection L1 as <-; injection L2 as <-; reflexivity].
  set (times := rpm_times sp series) in *. set (f0 := real_series _ p0) in *. set (f1 := real_series _ p1) in *.
  assert (X0 : exists r rest, times = 0 :: rest /\ r = 0).
  { exists 0. destruct (np_interp times f0 (cycles (sk_lambda0 sp) (ts k))) eqn:I0; [|discriminate]. unfold np_interp, np_interp_with in I0. destruct times as [|t0 rest] eqn:Tm; [discriminate|]. exists rest. split; [|reflexivity]. f_equal.
    unfold times, rpm_times in Tm. unfold arange0 in Tm. destruct (arange_len _ _) eqn:Al; [destruct (rpm_size _ _); discriminate|]. destruct (rpm_size _ _); [discriminate|]. cbn in Tm. injection Tm as Tm _. rewrite <- Tm. ring. }
  destruct X0 as (_ & rest & X0 & _).
  assert (Fz : forall p u, u <= 0 -> (length times =? length p)%nat = true -> np_interp times p u = np_interp times p 0).
  { intros p u Hu Lp. unfold np_interp. destruct (Rle_lt_or_eq_dec _ _ Hu) as [Hu'| ->]; [|reflexivity]. apply Nat.eqb_eq in Lp.
    rewrite np_interp_low; [|rewrite X0; discriminate|exact Lp|rewrite X0; exact Hu'].
    assert (As : ascending times = true).
    { apply ascending_iff. intros v Hv. unfold times, rpm_times in Hv |- *. rewrite firstn_length in Hv. 
      assert (G : forall w, (w < length times)%nat -> vget times w = INR w * sk_dt sp).
      { intros w Hw. unfold times, rpm_times in Hw |- *. rewrite firstn_length in Hw. unfold vget. 
        match goal with |- nth w (firstn ?m ?li) 0 = _ => transitivity (nth w li 0); [rewrite <- (firstn_skipn m li) at 2; rewrite app_nth1; [reflexivity|rewrite firstn_length; lia]|] end.
        apply arange0_nth. rewrite <- arange0_length. lia. }
      fold times. unfold times, rpm_times in G. rewrite !G by (rewrite firstn_length; lia). rewrite S_INR. nra. }
    pose proof (np_interp_node (fun v => v) (fun v => v) times p 0 Lp As ltac:(rewrite X0; simpl; lia)) as Nd. replace (vget times 0) with 0 in Nd by (rewrite X0; reflexivity). rewrite Nd. reflexivity. }
  assert (Le : forall p u v, np_interp times p u = Ok v -> (length times =? length p)%nat = true).
  { intros p u v. unfold np_interp, np_interp_with. rewrite X0. destruct (_ =? _)%nat; [reflexivity|discriminate]. }
  destruct (np_interp times f0 (cycles (sk_lambda0 sp) (ts k))) eqn:I0; [|discriminate]. destruct (np_interp times f1 (cycles (sk_lambda0 sp) (ts k))) eqn:I1; [|discriminate].
  destruct (np_interp times f0 (cycles (sk_lambda0 sp) (ts k'))) eqn:I0'; [|discriminate]. destruct (np_interp times f1 (cycles (sk_lambda0 sp) (ts k'))) eqn:I1'; [|discriminate].
  cbn [bind] in L1, L2. match type of L1 with Ok ?u = Ok ?v => assert (EB : u = v) by congruence end. match type of L2 with Ok ?u = Ok ?v => assert (EB' : u = v) by congruence end.
  rewrite <- EB, <- EB'. do 2 f_equal. apply beamlet_ext. rewrite E4, E1. intros m l' Hm Hl. split; [|reflexivity].
  assert (Fr : forall v (M : nat) dl, (v < M)%nat -> 0 <= dl -> INR v * dl / INR M <= dl).
  { intros v M dl Hv Hd. pose proof (lt_INR _ _ Hv). pose proof (pos_INR v). apply Rmult_le_reg_r with (INR M); [lra|]. unfold Rdiv. rewrite Rmult_assoc, Rinv_l by lra. nra. }
  pose proof (Fr m (fst n) _ Hm D0). pose proof (Fr l' (snd n) _ Hl D1). destruct (HT k ltac:(auto)) as (_ & K1 & K2). destruct (HT k' ltac:(auto)) as (_ & K1' & K2').
  rewrite (Fz f0 (cycles wl (ts k) + INR m * fst (sk_delay sp) / INR (fst n))) by (try (eapply Le; eassumption); lra).
  rewrite (Fz f0 (cycles wl (ts k') + INR m * fst (sk_delay sp) / INR (fst n))) by (try (eapply Le; eassumption); lra).
  rewrite (Fz f1 (cycles wl (ts k) + INR l' * snd (sk_delay sp) / INR (snd n))) by (try (eapply Le; eassumption); lra).
  rewrite (Fz f1 (cycles wl (ts k') + INR l' * snd (sk_delay sp) / INR (snd n))) by (try (eapply Le; eassumption); lra).
  reflexivity.
Qed.
(** A window ending at time zero raises. *)
Lemma c67_raises : exists sp, speckle_init 1 1 (1, 1) (2, 2)%nat GP_ISI 1 None None None false = Ok sp /\
  forall d, exists ts : nat -> R, ts 0%nat < ts 1%nat /\ speckle_evaluate sp d 2 2 2 (fun i _ _ => INR i) (fun _ j _ => INR j) (fun _ _ k => ts k) = Err IndexError.
Proof.
  assert (Hi : exists sp, speckle_init 1 1 (1, 1) (2, 2)%nat GP_ISI 1 None None None false = Ok sp).
  { unfold speckle_init. destruct (Reqb 1 0) eqn:B; [apply Reqb_true in B; lra|]. cbn [has_SSD supported bind pyassert]. rewrite (proj2 (PyBase.Rltb_true 0 1)) by lra. cbn. eauto. }
  destruct Hi as (sp & Hi). exists sp. split; [exact Hi|]. intros d. destruct (speckle_init_inv _ _ _ _ _ _ _ _ _ _ _ Hi) as (_ & _ & E1 & E2 & E3 & E4 & Ht & _ & Edt & Een & _).
  pose proof c_light_pos as Hc. exists (fun k => if Nat.eqb k 0 then - (3 * (1 / 50) / c_light) else 0). split; [cbn; assert (0 < 3 * (1 / 50) / c_light) by (apply Rdiv_lt_0_compat; lra); lra|].
  unfold speckle_evaluate. cbn [Nat.eqb orb]. cbn zeta. unfold normalised_time. cbn [Nat.sub Nat.eqb]. rewrite E1, Edt, Ht.
  replace (0 * c_light / 1 + 1 / 1 / 50) with (1 / 50) by field. replace (1 / 1 / 50) with (1 / 50) by field.
  assert (L : arange_len (1 / 50) (1 / 50) = 1%nat) by (unfold arange_len; replace (1 / 50 / (1 / 50)) with 1 by field; rewrite (Rceil_unique 1 1) by lra; reflexivity).
  assert (A : arange0 (1 / 50) (1 / 50) = [INR 0 * (1 / 50)]) by (unfold arange0; rewrite L; reflexivity).
  rewrite A. unfold init_gaussian_time_series. rewrite Ht. cbn [bind fst snd length]. cbn [seq map seq_res].
  unfold beamlets_complex_amplitude at 1. rewrite Ht. rewrite Edt. cbn [Nat.eqb].
  replace (- (3 * (1 / 50) / c_light) * c_light / 1 / (1 / 1 / 50)) with (IZR (-3)) by (simpl; field; lra). rewrite py_round_Z. reflexivity.
Qed.

Lemma some_positive_iff q : some_positive q = true <-> 0 < fst q \/ 0 < snd q.
Proof. unfold some_positive. rewrite Bool.orb_true_iff, !PyBase.Rltb_true. reflexivity. Qed.
Lemma speckle_accepts_iff wl f D n ty bw amp cyc dist env :
  (exists sp, speckle_init wl f D n ty bw amp cyc dist env = Ok sp) <->
  0 < bw /\ (ty = RPP \/ ty = CPP \/ ty = FM_SSD \/ ty = GP_RPM_SSD \/ ty = GP_ISI) /\
  (ty = FM_SSD \/ ty = GP_RPM_SSD -> forall q, In q [amp; cyc; dist] -> exists u v, q = Some (u, v) /\ (0 < u \/ 0 < v)).
Proof.
  split.
  - intros (sp & H). unfold speckle_init in H. destruct (Reqb bw 0); [discriminate|].
    destruct ty as [| | | | |hs]; cbn [has_SSD supported bind pyassert] in H.
    1,2,5: destruct (Rltb 0 bw) eqn:B; [|discriminate]; apply PyBase.Rltb_true in B; split; [exact B|]; split; [auto 6|intros [Q|Q]; discriminate].
    1,2: destruct dist as [d|]; [|discriminate]; destruct amp as [a|]; [|discriminate]; destruct cyc as [c|];
         [|destruct (orb _ _); discriminate]; cbn [bind] in H;
         destruct (Rltb 0 bw) eqn:B; [|discriminate]; apply PyBase.Rltb_true in B; cbn [bind pyassert] in H;
         destruct (some_positive c && (some_positive d && some_positive a))%bool eqn:E; [|discriminate];
         apply andb_prop in E; destruct E as (E1 & E2); apply andb_prop in E2; destruct E2 as (E2 & E3);
         rewrite some_positive_iff in E1, E2, E3; split; [exact B|]; split; [auto 6|];
         intros _ q [<-|[<-|[<-|[]]]]; [exists (fst a), (snd a)|exists (fst c), (snd c)|exists (fst d), (snd d)]; rewrite <- surjective_pairing; auto.
    destruct hs; [destruct dist; [|discriminate]; destruct amp; [|discriminate]; destruct cyc; [discriminate|destruct (orb _ _); discriminate]|discriminate].
  - intros (B & T & S). unfold speckle_init. assert (N : Reqb bw 0 = false) by (destruct (Reqb bw 0) eqn:Q; [apply Reqb_true in Q; lra|reflexivity]).
    apply PyBase.Rltb_true in B. rewrite N, B.
    destruct ty as [| | | | |hs]; cbn [has_SSD supported bind pyassert]; eauto.
    1,2: destruct (S ltac:(auto) amp ltac:(cbn; auto)) as (u1 & v1 & -> & Q1); destruct (S ltac:(auto) cyc ltac:(cbn; auto)) as (u2 & v2 & -> & Q2);
         destruct (S ltac:(auto) dist ltac:(cbn; auto)) as (u3 & v3 & -> & Q3); cbn [bind];
         rewrite (proj2 (some_positive_iff (u1, v1)) Q1), (proj2 (some_positive_iff (u2, v2)) Q2), (proj2 (some_positive_iff (u3, v3)) Q3); cbn; eauto.
    destruct T as [T|[T|[T|[T|T]]]]; discriminate T.
Qed.
Lemma speckle_stores wl f D n ty bw amp cyc dist env sp :
  speckle_init wl f D n ty bw amp cyc dist env = Ok sp ->
  sk_lambda0 sp = wl /\ sk_focal sp = f /\ sk_aperture sp = D /\ sk_n sp = n /\ sk_type sp = ty /\ sk_bandwidth sp = bw /\ sk_env sp = env /\
  sk_dt sp = 1 / (50 * bw) /\ (ty = RPP \/ ty = CPP \/ ty = GP_ISI -> sk_amp sp = (0, 0) /\ sk_delay sp = (0, 0)) /\
  (ty = FM_SSD \/ ty = GP_RPM_SSD -> Some (sk_amp sp) = amp).
Proof.
  intros H. unfold speckle_init in H. destruct (Reqb bw 0) eqn:N; [discriminate|].
  assert (Nb : bw <> 0) by (intros ->; rewrite (proj2 (Reqb_true 0 0) eq_refl) in N; discriminate).
  assert (Edt : 1 / bw / 50 = 1 / (50 * bw)) by (field; exact Nb).
  destruct ty as [| | | | |hs]; cbn [has_SSD supported bind pyassert] in H.
  1,2,5: destruct (Rltb 0 bw); [|discriminate]; injection H as <-; cbn; rewrite Edt; repeat split; auto; try (intros [Q|Q]; discriminate); intros [Q|[Q|Q]]; discriminate.
  1,2: destruct dist as [d|]; [|discriminate]; destruct amp as [a|]; [|discriminate]; destruct cyc as [c|];
         [|destruct (orb _ _); discriminate]; cbn [bind] in H;
         destruct (Rltb 0 bw); [|discriminate]; cbn [bind pyassert] in H;
         destruct (some_positive c && (some_positive d && some_positive a))%bool; [|discriminate]; injection H as <-; cbn; rewrite Edt; repeat split; auto;
         match goal with Q : _ \/ _ \/ _ |- _ => destruct Q as [Q|[Q|Q]]; discriminate end.
  destruct hs; [destruct dist; [|discriminate]; destruct amp; [|discriminate]; destruct cyc; [discriminate|destruct (orb _ _); discriminate]|discriminate].
Qed.
