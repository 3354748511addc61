(** Property theorems C42-C45, C57, C58 (analytic profiles). *)
From Verif Require Import PyBase CSum NumPy NpMath GridModel GridSpec LaserSpec LaserModel LaserInitProofs LaserExamples ProfileModel ProfileSpec
  AnalyticModel AnalyticProofs LGProofs TransverseSpec TransverseProofs ParaxialSpec ParaxialProofs ParaxialLG.
From Coquelicot Require Import Coquelicot.
Open Scope R_scope.

(** C42: the constructor never raises on a two-component polarization, whatever z_foc. *)
Theorem C42_constructs :
  forall l px py E w0 tau tp cep zf,
  exists p, gaussian_profile l [px; py] E w0 tau tp cep zf = Ok p.
Proof. exact c42_constructs. Qed.
Print Assumptions C42_constructs.
(** C42: in focus, the documented formula. *)
Theorem C42_in_focus :
  forall l pol E w0 tau tp cep p,
  gaussian_profile l pol E w0 tau tp cep 0 = Ok p -> w0 <> 0 -> tau <> 0 ->
  forall x y t, p_eval p x y t =
    cexp (- (x ^ 2 + y ^ 2) / w0 ^ 2 - (t - tp) ^ 2 / tau ^ 2, cep + 2 * PI * c_light / l * tp).
Proof. exact c42_focus. Qed.
Print Assumptions C42_in_focus.
(** C42: for any focus position, the modulus of a Gaussian beam at distance z_foc from its waist. *)
Theorem C42_modulus :
  forall l pol E w0 tau tp cep zf p,
  gaussian_profile l pol E w0 tau tp cep zf = Ok p -> 0 < l -> 0 < w0 -> tau <> 0 ->
  let zR := PI * w0 ^ 2 / l in let w := w0 * sqrt (1 + (zf / zR) ^ 2) in
  forall x y t, Cmod (p_eval p x y t) = w0 / w * exp (- (x ^ 2 + y ^ 2) / w ^ 2 - (t - tp) ^ 2 / tau ^ 2).
Proof. exact c42_modulus. Qed.
Print Assumptions C42_modulus.
(** C42: passing z_foc and wavelength in swapped positions does not matter. *)
Theorem C42_argument_order :
  forall l pol E w0 tau tp cep zf p tr,
  gaussian_profile l pol E w0 tau tp cep zf = Ok p ->
  gaussian_transverse w0 (Some l) zf = Ok tr -> forall x y t, p_eval p x y t = Cmult (tr x y) (gaussian_long l tau tp cep t).
Proof. exact c42_order. Qed.
Print Assumptions C42_argument_order.
Example C42_nonvacuous : exists p, gaussian_profile 1 [RtoC 1; RtoC 0] (Some 1) 2 3 4 5 6 = Ok p /\ 0 < 1 /\ 0 < 2 /\ 3 <> 0 /\
  gaussian_transverse 2 (Some 1) 6 = Ok (gaussian_trans_at 2 (6 * 1 / (PI * 2 ^ 2))).
Proof.
  destruct (c42_constructs 1 (RtoC 1) (RtoC 0) (Some 1) 2 3 4 5 6) as (p & Hp). exists p. split; [exact Hp|]. split; [lra|]. split; [lra|]. split; [lra|].
  unfold gaussian_transverse. rewrite z_foc_ok. reflexivity.
Qed.
(** C43, Gaussian: modulus at most 1, reached at t_peak only, where the carrier has phase cep. *)
Theorem C43_gaussian_partial :
  forall l tau tp cep,
  0 < tau ->
  (forall t, Cmod (gaussian_long l tau tp cep t) <= 1) /\ (forall t, Cmod (gaussian_long l tau tp cep t) = 1 <-> t = tp) /\
  Cmult (gaussian_long l tau tp cep tp) (cis (- (2 * PI * c_light / l * tp))) = cis cep.
Proof. exact c43_gaussian. Qed.
Print Assumptions C43_gaussian_partial.
(** C43, super-Gaussian. *)
Theorem C43_super_gaussian_partial :
  forall l tau tp n cep,
  0 < tau -> 0 < n ->
  (forall t, Cmod (super_gaussian_long l tau tp n cep t) <= 1) /\ (forall t, Cmod (super_gaussian_long l tau tp n cep t) = 1 <-> t = tp) /\
  Cmult (super_gaussian_long l tau tp n cep tp) (cis (- (2 * PI * c_light / l * tp))) = cis cep.
Proof. exact c43_super_gaussian. Qed.
Print Assumptions C43_super_gaussian_partial.
Theorem C43_order2_partial :
  forall l tau tp cep t,
  tau <> 0 -> super_gaussian_long l tau tp 2 cep t = gaussian_long l tau tp cep t.
Proof. exact c43_order2. Qed.
Print Assumptions C43_order2_partial.
(** C43, cosine: in addition, exactly zero outside (t_peak - tau_fwhm, t_peak + tau_fwhm) and nowhere inside. *)
Theorem C43_cosine_partial :
  forall l T tp cep,
  0 < T ->
  (forall t, Cmod (cosine_long l T tp cep t) <= 1) /\ (forall t, Cmod (cosine_long l T tp cep t) = 1 <-> t = tp) /\
  Cmult (cosine_long l T tp cep tp) (cis (- (2 * PI * c_light / l * tp))) = cis cep /\
  (forall t, cosine_long l T tp cep t = RtoC 0 <-> T <= Rabs (t - tp)).
Proof. exact c43_cosine. Qed.
Print Assumptions C43_cosine_partial.
(** C43: half the peak intensity at F/2 from the peak, with tau computed from F as documented. *)
Theorem C43_fwhm_gaussian_partial :
  forall l tau tp cep F t,
  0 < F -> tau = F / sqrt (2 * ln 2) -> Rabs (t - tp) = F / 2 ->
  Cmod (gaussian_long l tau tp cep t) ^ 2 = / 2.
Proof. exact c43_fwhm_gaussian. Qed.
Print Assumptions C43_fwhm_gaussian_partial.
Theorem C43_fwhm_cosine_partial :
  forall l T tp cep t,
  0 < T -> Rabs (t - tp) = T / 2 -> Cmod (cosine_long l T tp cep t) ^ 2 = / 2.
Proof. exact c43_fwhm_cosine. Qed.
Print Assumptions C43_fwhm_cosine_partial.
(** REFUTED for the super-Gaussian: with the documented tau = F / (sqrt 2 ln(2)^(1/n)) the intensity at F/2 is half the peak only for n = 2. *)
Theorem C43_fwhm_super_gaussian_refuted :
  forall l tau tp n cep F t,
  0 < F -> 0 < n -> tau = F / (sqrt 2 * Rpower (ln 2) (1 / n)) -> Rabs (t - tp) = F / 2 ->
  Cmod (super_gaussian_long l tau tp n cep t) ^ 2 = Rpower 2 (- Rpower 2 (1 - n / 2)) /\
  (Cmod (super_gaussian_long l tau tp n cep t) ^ 2 = / 2 <-> n = 2).
Proof. exact c43_fwhm_super. Qed.
Print Assumptions C43_fwhm_super_gaussian_refuted.
Example C43_nonvacuous : 0 < 1 /\ 0 < 4 /\ (let tau := 1 / (sqrt 2 * Rpower (ln 2) (1 / 4)) in Rabs (3 / 2 - 1) = 1 / 2 /\ 0 < tau) /\ (let tau := 1 / sqrt (2 * ln 2) in 0 < tau).
Proof.
  assert (0 < ln 2) by (rewrite <- ln_1; apply ln_increasing; lra).
  split; [lra|]. split; [lra|]. split; cbn zeta.
  - split; [rewrite Rabs_pos_eq; lra|]. apply Rdiv_lt_0_compat; [lra|]. apply Rmult_lt_0_compat; [apply sqrt_lt_R0; lra|apply exp_pos].
  - apply Rdiv_lt_0_compat; [lra|]. apply sqrt_lt_R0. lra.
Qed.
(** C44: the azimuthal dependence is exp(-i m theta). *)
Theorem C44_azimuthal_partial :
  forall w0 p m wl zf tr,
  lg_transverse w0 p m wl zf = Ok tr ->
  forall r theta, tr (r * cos theta) (r * sin theta) = Cmult (cis (- (IZR m * theta))) (tr r 0).
Proof. exact c44_azimuthal. Qed.
Print Assumptions C44_azimuthal_partial.
(** C44: in focus, the textbook Laguerre-Gauss mode. *)
Theorem C44_in_focus_partial :
  forall w0 p m wl tr,
  lg_transverse w0 p m wl 0 = Ok tr -> w0 <> 0 ->
  forall r theta, tr (r * cos theta) (r * sin theta) =
    Cmult (Cmult (RtoC (r ^ Z.abs_nat m)) (cis (- (IZR m * theta))))
          (RtoC (genlaguerre p (Z.abs_nat m) (2 * r ^ 2 / w0 ^ 2) * exp (- (r ^ 2 / w0 ^ 2)))).
Proof. exact c44_focus. Qed.
Print Assumptions C44_in_focus_partial.
(** C44: a cylindrical Laser holds it in mode m only. *)
Theorem C44_single_mode_partial :
  forall lo hi np n1 nt (M : nat) nte w0 p m wl zf tr l pol E lg pr L,
  lg_transverse w0 p m wl zf = Ok tr -> combined_profile l pol (Some E) lg tr = Ok pr ->
  laser_init Rt lo hi np pr (Z.of_nat M) nte = Ok L -> 0 <= E ->
  nth_error np 0 = Some n1 -> nth_error np 1 = Some nt -> (2 <= n1)%nat -> (2 <= nt)%nat ->
  0 <= nth 0 lo 0 -> nth 0 lo 0 < nth 0 hi 0 -> nth 1 lo 0 < nth 1 hi 0 ->
  (Z.abs m < Z.of_nat M)%Z -> (Z.abs m + Z.of_nat M <= match nte with None => 2 * Z.of_nat M - 1 | Some n => n end)%Z ->
  exists a s, snd (get_temporal_field (l_grid L)) = Ok a /\ shp a = [(2 * M - 1)%nat; n1; nt] /\ 0 <= s /\ (0 < E -> 0 < s) /\
    forall m' j k, (- Z.of_nat M < m' < Z.of_nat M)%Z -> (j < n1)%nat -> (k < nt)%nat ->
      at3 a (mode_slot M m') j k =
        if Z.eqb m' m then Cmult (RtoC s) (Cmult (tr (coord (nth 0 lo 0) (nth 0 hi 0) n1 j) 0) (lg (coord (nth 1 lo 0) (nth 1 hi 0) nt k)))
        else RtoC 0.
Proof. exact c44_modes. Qed.
Print Assumptions C44_single_mode_partial.
(** C44, what holds of the mirror symmetry: up to a constant phase, exactly in focus. *)
Theorem C44_mirror_partial :
  forall w0 p m wl zf tr tr',
  lg_transverse w0 p m wl zf = Ok tr -> lg_transverse w0 p (- m) wl zf = Ok tr' ->
  exists c, Cmod c = 1 /\ (zf = 0 \/ m = 0%Z -> c = RtoC 1) /\ forall x y, tr' x y = Cmult c (tr x (- y)).
Proof. exact c44_mirror. Qed.
Print Assumptions C44_mirror_partial.
(** REFUTED out of focus: one Rayleigh length away, the mode -1 is the mirror image of the mode 1 times -i. *)
Theorem C44_mirror_refuted :
  exists tr tr', lg_transverse 1 0 1 (Some PI) 1 = Ok tr /\ lg_transverse 1 0 (-1) (Some PI) 1 = Ok tr' /\
  tr 1 (- 0) <> RtoC 0 /\ tr' 1 0 = Cmult (Copp Ci) (tr 1 (- 0)) /\ tr' 1 0 <> tr 1 (- 0).
Proof. exact c44_mirror_refuted. Qed.
Print Assumptions C44_mirror_refuted.
Example C44_nonvacuous : exists tr pr L, lg_transverse 1 1 (-1) (Some 1) 2 = Ok tr /\
  combined_profile 1 [RtoC 1; RtoC 0] (Some 3) (gaussian_long 1 1 0 0) tr = Ok pr /\
  laser_init Rt [0;-3] [2;4] [4;5]%nat pr (Z.of_nat 2) None = Ok L.
Proof.
  eexists. eexists.
  assert (X : forall pr, p_energy pr = Some (Some 3) -> exists L, laser_init Rt [0;-3] [2;4] [4;5]%nat pr (Z.of_nat 2) None = Ok L).
  { intros pr HE. apply ex_rt; [rewrite HE; simpl; lra|lia]. }
  unfold lg_transverse. rewrite z_foc_ok. cbn [bind]. unfold combined_profile, profile_init. cbn [bind].
  match goal with |- exists L, _ /\ Ok ?p = _ /\ _ => destruct (X p eq_refl) as (L & HL) end. exists L. split; [reflexivity|]. split; [reflexivity|exact HL].
Qed.
(** C45, for the elementary profiles, over any history: the last offset given applies, x_offset being added to x. *)
Theorem C45_leaf_partial :
  forall ops h f ops' h' h1 r,
  trun [] ops = Ok h -> tstep h (TNew f) = Ok (h1, r) -> trun h1 ops' = Ok h' ->
  forall x y, tevaluate h' r x y = f (x + fst (last_offset ops' r (0, 0))) (y + snd (last_offset ops' r (0, 0))).
Proof. exact c45_leaf. Qed.
Print Assumptions C45_leaf_partial.
(** C45, one step. *)
Theorem C45_set_offset_partial :
  forall h r a b h' o f,
  theap_reachable h -> nth_error h r = Some o -> t_body o = TLeaf f -> tstep h (TOffset r a b) = Ok (h', r) ->
  forall x y, tevaluate h' r x y = tevaluate h r (x + a - t_xoff o) (y + b - t_yoff o) /\
    (t_xoff o = 0 -> t_yoff o = 0 -> tevaluate h' r x y = tevaluate h r (x + a) (y + b)).
Proof. exact c45_set_offset. Qed.
Print Assumptions C45_set_offset_partial.
(** C45: a sum always evaluates to the sum of its parts, as they are now. *)
Theorem C45_sum_partial :
  forall h p q h1 r ops h',
  theap_reachable h -> tstep h (TAdd p (ARef q)) = Ok (h1, r) -> trun h1 ops = Ok h' ->
  forall x y, tevaluate h' r x y = Cplus (tevaluate h' p x y) (tevaluate h' q x y).
Proof. exact c45_sum. Qed.
Print Assumptions C45_sum_partial.
Theorem C45_scale_partial :
  forall h p k h1 r ops h',
  theap_reachable h -> tstep h (TMul p (ANum k)) = Ok (h1, r) -> trun h1 ops = Ok h' ->
  forall x y, tevaluate h' r x y = Cmult (tevaluate h' p x y) k.
Proof. exact c45_scale. Qed.
Print Assumptions C45_scale_partial.
(** C45: a composite profile is shifted by (a,b) if all the elementary profiles in it are. *)
Theorem C45_composite_partial :
  forall h ops h' r a b,
  theap_reachable h -> trun h ops = Ok h' -> (r < length h)%nat ->
  (forall q o, part_of h q r -> nth_error h q = Some o -> is_leaf o ->
     t_xoff o = 0 /\ t_yoff o = 0 /\ last_offset ops q (0, 0) = (a, b)) ->
  forall x y, tevaluate h' r x y = tevaluate h r (x + a) (y + b).
Proof. exact c45_deep. Qed.
Print Assumptions C45_composite_partial.
(** C45: set_offset on a composite profile changes nothing at all. *)
Theorem C45_composite_noop_partial :
  forall h r a b h' o,
  theap_reachable h -> nth_error h r = Some o -> ~ is_leaf o -> tstep h (TOffset r a b) = Ok (h', r) ->
  forall q x y, (q < length h)%nat -> tevaluate h' q x y = tevaluate h q x y.
Proof. exact c45_composite_noop. Qed.
Print Assumptions C45_composite_noop_partial.
(** REFUTED for composite profiles. *)
Theorem C45_refuted :
  exists ops h h' r, trun [] ops = Ok h /\ tstep h (TOffset r 1 0) = Ok (h', r) /\
  (forall o, nth_error h r = Some o -> t_xoff o = 0 /\ t_yoff o = 0) /\
  tevaluate h r 1 0 = RtoC 2 /\ tevaluate h' r 0 0 <> tevaluate h r (0 + 1) (0 + 0).
Proof. exact c45_refuted. Qed.
Print Assumptions C45_refuted.
Example C45_nonvacuous : exists h h', trun [] [TNew (gaussian_trans_at 1 0); TNew (super_gaussian_trans 1 4); TAdd 0 (ARef 1); TMul 2 (ANum Ci)] = Ok h /\
  trun h [TOffset 0 1 2; TOffset 1 1 2] = Ok h' /\
  (forall q o, part_of h q 3 -> nth_error h q = Some o -> is_leaf o -> t_xoff o = 0 /\ t_yoff o = 0 /\ last_offset [TOffset 0 1 2; TOffset 1 1 2] q (0, 0) = (1, 2)).
Proof.
  eexists. eexists. split; [reflexivity|]. split; [reflexivity|]. intros q o Hq Ho (f & Hl).
  destruct q as [|[|[|[|q]]]]; cbn in Ho; try discriminate; try (destruct q; discriminate); injection Ho as <-; cbn in Hl; try discriminate; cbn; auto.
Qed.
(** C57, what holds: a profile is unaffected by any later operation except set_offset on itself or on a profile it was built from. *)
Theorem C57_frame_partial :
  forall h ops h' r,
  theap_reachable h -> trun h ops = Ok h' -> (r < length h)%nat ->
  (forall q a b, In (TOffset q a b) ops -> ~ part_of h q r) ->
  forall x y, tevaluate h' r x y = tevaluate h r x y.
Proof. exact c57_frame. Qed.
Print Assumptions C57_frame_partial.
(** REFUTED in general: set_offset returns the same object, so that p.set_offset(1,0) + p.set_offset(-1,0) is twice the second one. *)
Theorem C57_refuted :
  exists f h, trun [] [TNew f; TOffset 0 1 0; TOffset 0 (-1) 0; TAdd 0 (ARef 0)] = Ok h /\
  (forall x y, tevaluate h 1 x y = Cmult (RtoC 2) (f (x - 1) y)) /\
  exists x y, tevaluate h 1 x y <> Cplus (f (x + 1) y) (f (x - 1) y).
Proof. exact c57_refuted. Qed.
Print Assumptions C57_refuted.
Example C57_nonvacuous : exists h h', trun [] [TNew (gaussian_trans_at 1 0); TNew (super_gaussian_trans 1 4); TMul 0 (ANum Ci)] = Ok h /\
  trun h [TOffset 1 1 2; TAdd 0 (ARef 1); TOffset 3 5 6] = Ok h' /\
  (forall q a b, In (TOffset q a b) [TOffset 1 1 2; TAdd 0 (ARef 1); TOffset 3 5 6] -> ~ part_of h q 2).
Proof.
  eexists. eexists. split; [reflexivity|]. split; [reflexivity|]. intros q a b [E|[E|[E|[]]]] Hp; inversion E; subst; clear E.
  - inversion Hp as [|? ? ? ? ? Ho Hb Hi Hr|? ? ? ? ? Ho Hb Hr]; subst; cbn in Ho; injection Ho as <-; cbn in Hb; try discriminate.
    injection Hb as <- <-. inversion Hr as [|? ? ? ? ? Ho Hb Hi Hr'|? ? ? ? ? Ho Hb Hr']; subst; cbn in Ho; injection Ho as <-; cbn in Hb; discriminate.
  - inversion Hp as [|? ? ? ? ? Ho Hb Hi Hr|? ? ? ? ? Ho Hb Hr]; subst; cbn in Ho; injection Ho as <-; cbn in Hb; try discriminate.
    injection Hb as <- <-. inversion Hr as [|? ? ? ? ? Ho Hb Hi Hr'|? ? ? ? ? Ho Hb Hr']; subst; cbn in Ho; injection Ho as <-; cbn in Hb; discriminate.
Qed.
(** C58: the Gaussian profiles of focus position zf - z form a solution of the paraxial wave equation in (x, y, z). *)
Theorem C58_gaussian_partial :
  forall w0 l zf (u : R -> R -> R -> C),
  0 < w0 -> 0 < l -> (forall z, gaussian_transverse w0 (Some l) (zf - z) = Ok (u z)) ->
  paraxial (2 * PI / l) (fun x y z => u z x y).
Proof. exact c58_gaussian. Qed.
Print Assumptions C58_gaussian_partial.
(** C58, Hermite-Gauss, every order. *)
Theorem C58_hermite_partial :
  forall w0 nx ny l zf (u : R -> R -> R -> C),
  0 < w0 -> 0 < l -> (forall z, hg_transverse w0 nx ny (Some l) (zf - z) = Ok (u z)) ->
  paraxial (2 * PI / l) (fun x y z => u z x y).
Proof. exact c58_hermite. Qed.
Print Assumptions C58_hermite_partial.
(** C58, Laguerre-Gauss with m = 0, every radial order. *)
Theorem C58_laguerre_partial :
  forall w0 p l zf (u : R -> R -> R -> C),
  0 < w0 -> 0 < l -> (forall z, lg_transverse w0 p 0 (Some l) (zf - z) = Ok (u z)) ->
  paraxial (2 * PI / l) (fun x y z => u z x y).
Proof. exact c58_laguerre. Qed.
Print Assumptions C58_laguerre_partial.
(** C58, Laguerre-Gauss with any m: a solution up to a factor depending on z only, of modulus (w(z)/w0)^|m|. *)
Theorem C58_laguerre_upto_partial :
  forall w0 p m l zf (u : R -> R -> R -> C),
  0 < w0 -> 0 < l -> (forall z, lg_transverse w0 p m (Some l) (zf - z) = Ok (u z)) ->
  exists (c : R -> C) v, paraxial (2 * PI / l) v /\ c zf = RtoC 1 /\
    (forall z, Cmod (c z) = sqrt (1 + ((zf - z) * (l / (PI * w0 ^ 2))) ^ 2) ^ Z.abs_nat m) /\
    forall x y z, u z x y = Cmult (c z) (v x y z).
Proof. exact c58_laguerre_upto. Qed.
Print Assumptions C58_laguerre_upto_partial.
(** REFUTED for m > 0: the Laguerre-Gauss profiles with different z_foc are not sections of one beam. *)
Theorem C58_refuted :
  forall w0 m l zf (u : R -> R -> R -> C),
  0 < w0 -> 0 < l -> (0 < m)%Z -> (forall z, lg_transverse w0 0 m (Some l) (zf - z) = Ok (u z)) ->
  ~ paraxial (2 * PI / l) (fun x y z => u z x y).
Proof. exact c58_refuted. Qed.
Print Assumptions C58_refuted.
Example C58_nonvacuous : (exists u, forall z, gaussian_transverse 1 (Some 1) (2 - z) = Ok (u z)) /\ (exists u, forall z, hg_transverse 1 2 3 (Some 1) (2 - z) = Ok (u z)) /\
  (exists u, forall z, lg_transverse 1 2 (-3) (Some 1) (2 - z) = Ok (u z)).
Proof.
  split; [|split].
  - exists (fun z => gaussian_trans_at 1 ((2 - z) * 1 / (PI * 1 ^ 2))). intros z. unfold gaussian_transverse. rewrite z_foc_ok. reflexivity.
  - exists (fun z => hg_trans_at 1 2 3 ((2 - z) * 1 / (PI * 1 ^ 2))). intros z. unfold hg_transverse. rewrite z_foc_ok. reflexivity.
  - exists (fun z => lg_trans_at 1 2 (-3) ((2 - z) * 1 / (PI * 1 ^ 2))). intros z. unfold lg_transverse. rewrite z_foc_ok. reflexivity.
Qed.
