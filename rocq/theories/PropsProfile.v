(** Property theorems C38-C41 (profiles and their arithmetic). *)
From Verif Require Import PyBase CSum NumPy GridModel LaserSpec GridObs LaserModel LaserInv LaserInitProofs LaserExamples FromArrayModel ProfileModel ProfileSpec ProfileProofs.
Open Scope R_scope.

(** C38: any non-zero polarization is rescaled to unit norm (unchanged if it had it already); omega0 = 2 pi c / wavelength. *)
Theorem C38_init :
  forall w pol dt ev p,
  profile_init w pol dt ev = Ok p -> pol <> [RtoC 0; RtoC 0] ->
  unit_pol (p_pol p) /\ p_lambda0 p = w /\ p_omega0 p = 2 * PI * c_light / w /\
  exists px py s, pol = [px; py] /\ 0 < s /\ p_pol p = (Cmult (RtoC s) px, Cmult (RtoC s) py) /\
    (unit_pol (px, py) -> p_pol p = (px, py)).
Proof. exact c38_init. Qed.
Print Assumptions C38_init.
Theorem C38_length :
  forall w pol dt ev,
  length pol <> 2%nat -> profile_init w pol dt ev = Err AssertionError.
Proof. exact c38_length. Qed.
Print Assumptions C38_length.
(** C38: sums and products carry the wavelength and the (unit) polarization of their left-most profile. *)
Theorem C38_expressions :
  forall e v,
  pyeval e = Ok v -> (forall q, In q (leaves e) -> unit_pol (p_pol q)) ->
  match v with
  | VProf p => exists q l, leaves e = q :: l /\ p_lambda0 p = p_lambda0 q /\ p_pol p = p_pol q /\ unit_pol (p_pol p)
  | VOther => True
  | _ => leaves e = []
  end.
Proof. exact c38_expr. Qed.
Print Assumptions C38_expressions.
Example C38_nonvacuous : exists p, profile_init 1 [RtoC 3; RtoC 4] Complex128 (fun _ _ _ => RtoC 1) = Ok p /\ [RtoC 3; RtoC 4] <> [RtoC 0; RtoC 0].
Proof. eexists. split; [reflexivity|]. intros E. injection E as E1 E2. lra. Qed.
(** C39: whatever expression built with + and * evaluates without error has the pointwise meaning of the expression. *)
Theorem C39_pointwise :
  forall e v,
  pyeval e = Ok v -> forall x y t, val_at v x y t = expr_at e x y t.
Proof. exact c39_linear. Qed.
Print Assumptions C39_pointwise.
(** C39: hence expressions equal as functions give profiles equal as functions (associativity, commutativity, distributivity, unit, zero). *)
Theorem C39_laws :
  forall e1 e2 p1 p2,
  (forall x y t, expr_at e1 x y t = expr_at e2 x y t) ->
  pyeval e1 = Ok (VProf p1) -> pyeval e2 = Ok (VProf p2) -> forall x y t, p_eval p1 x y t = p_eval p2 x y t.
Proof. exact c39_laws. Qed.
Print Assumptions C39_laws.
(** C39: profile + non-profile, non-profile + profile, profile * non-real raise. *)
Theorem C39_rejections :
  forall a b va vb,
  pyeval a = Ok va -> pyeval b = Ok vb ->
  (forall p, va = VProf p -> (forall q, vb <> VProf q) -> pyeval (EAdd a b) = Err AssertionError) /\
  (forall q, vb = VProf q -> (forall p, va <> VProf p) -> pyeval (EAdd a b) = Err TypeError) /\
  (forall p, va = VProf p -> (forall k, vb <> VNum k) -> pyeval (EMul a b) = Err AssertionError) /\
  (forall q, vb = VProf q -> (forall k, va <> VNum k) -> pyeval (EMul a b) = Err AssertionError).
Proof. exact c39_reject. Qed.
Print Assumptions C39_rejections.
(** C39: the values of an expression are complex numbers exactly when those of one of its profiles are (numbers that are
    not profiles never change this). *)
Theorem C39_dtype :
  forall e p,
  pyeval e = Ok (VProf p) -> (p_dtype p = Complex128 <-> exists q, In q (leaves e) /\ p_dtype q = Complex128).
Proof. exact c39_dtype. Qed.
Print Assumptions C39_dtype.
(** C39: the plain base profile is the zero of the addition: it evaluates to 0 everywhere, and adding it (when allowed) to any
    expression leaves every value unchanged. *)
Theorem C39_zero :
  forall wl pol z e p s,
  base_profile wl pol = Ok z -> pyeval e = Ok (VProf p) -> pyeval (EAdd e (EVal (VProf z))) = Ok (VProf s) ->
  (forall x y t, p_eval z x y t = RtoC 0) /\ (forall x y t, p_eval s x y t = p_eval p x y t).
Proof. exact c39_zero. Qed.
Print Assumptions C39_zero.
Example C39_nonvacuous : exists p q v, base_profile 1 [RtoC 1; RtoC 0] = Ok p /\ profile_init 1 [RtoC 1; RtoC 0] Complex128 (fun x _ _ => RtoC x) = Ok q /\
  pyeval (EMul (EVal (VNum 2)) (EAdd (EVal (VProf p)) (EMul (EVal (VProf q)) (EVal (VNum 3))))) = Ok v /\ val_at v 1 0 0 = RtoC 6.
Proof.
  eexists. eexists. unfold base_profile, profile_init. 
  assert (X : forall p q, p_lambda0 q = p_lambda0 p -> p_pol q = p_pol p -> unit_pol (p_pol p) -> 
     exists v, pyeval (EMul (EVal (VNum 2)) (EAdd (EVal (VProf p)) (EMul (EVal (VProf q)) (EVal (VNum 3))))) = Ok v).
  { intros p q Hl Hp Hu.
    pose (q3 := mkProfile (2 * PI * c_light / p_lambda0 q) (p_lambda0 q) (norm_pol (fst (p_pol q), snd (p_pol q))) None (p_dtype q)
       (fun x y t => Cmult (p_eval q x y t) (RtoC 3))).
    assert (Hm : py_mul (VProf q) (VNum 3) = Ok (VProf q3)) by reflexivity.
    destruct (proj2 (c40_iff p q3)) as (r & Hr).
    - subst q3. cbn [p_lambda0 p_pol]. rewrite Hl, Hp. destruct (p_pol p) as [u w] eqn:Ep. cbn [fst snd]. rewrite norm_pol_idem by exact Hu.
      cbn [fst snd]. replace (p_lambda0 p - p_lambda0 p) with 0 by ring. rewrite Rabs_R0.
      replace (Cminus u u) with (RtoC 0) by ring. replace (Cminus w w) with (RtoC 0) by ring. rewrite Cmod_0.
      assert (T : forall z, 0 <= z -> 0 <= / 10 ^ 8 + / 10 ^ 5 * z) by (intros z Hz; simpl; lra).
      split; [apply T, Rabs_pos|]. split; apply T, Cmod_ge_0.
    - eexists. cbn [pyeval]. cbn [bind]. rewrite Hm. cbn [bind]. rewrite Hr. cbn [bind]. reflexivity. }
  match goal with |- exists v, Ok ?p = _ /\ Ok ?q = _ /\ _ => destruct (X p q) as (v & Hv) end; [reflexivity|reflexivity| |].
  - cbn [p_pol]. apply norm_pol_spec. intros E. injection E as E. lra.
  - exists v. split; [reflexivity|]. split; [reflexivity|]. split; [exact Hv|].
    rewrite (c39_linear _ _ Hv). cbn [expr_at val_at p_eval]. apply injective_projections; simpl; ring.
Qed.
(** C40, exactly which pairs of profiles can be added. *)
Theorem C40_iff_partial :
  forall p q,
  (exists r, py_add (VProf p) (VProf q) = Ok (VProf r)) <->
  Rabs (p_lambda0 q - p_lambda0 p) <= / 10 ^ 8 + / 10 ^ 5 * Rabs (p_lambda0 p) /\
  Cmod (Cminus (fst (p_pol q)) (fst (p_pol p))) <= / 10 ^ 8 + / 10 ^ 5 * Cmod (fst (p_pol p)) /\
  Cmod (Cminus (snd (p_pol q)) (snd (p_pol p))) <= / 10 ^ 8 + / 10 ^ 5 * Cmod (snd (p_pol p)).
Proof. exact c40_iff. Qed.
Print Assumptions C40_iff_partial.
(** C40, what holds: wavelengths differing by more than 1e-8 (metres) plus 1e-5 relative are refused. *)
Theorem C40_reject_partial :
  forall p q,
  / 10 ^ 8 + / 10 ^ 5 * Rabs (p_lambda0 p) < Rabs (p_lambda0 q - p_lambda0 p) ->
  py_add (VProf p) (VProf q) = Err AssertionError.
Proof. exact c40_reject. Qed.
Print Assumptions C40_reject_partial.
(** REFUTED: optical wavelengths differing by 0.6 % are accepted: 800 nm + 805 nm. *)
Theorem C40_refuted :
  exists p q r,
  base_profile (8 / 10 ^ 7) [RtoC 1; RtoC 0] = Ok p /\ base_profile (805 / 10 ^ 9) [RtoC 1; RtoC 0] = Ok q /\
  p_lambda0 p = 8 / 10 ^ 7 /\ p_lambda0 q = 805 / 10 ^ 9 /\
  / 10 ^ 5 * Rmax (Rabs (p_lambda0 p)) (Rabs (p_lambda0 q)) < Rabs (p_lambda0 q - p_lambda0 p) /\
  py_add (VProf p) (VProf q) = Ok (VProf r).
Proof. exact c40_counterexample. Qed.
Print Assumptions C40_refuted.
Example C40_nonvacuous : / 10 ^ 8 + / 10 ^ 5 * Rabs (8 / 10 ^ 7) < Rabs (1 / 10 ^ 6 - 8 / 10 ^ 7).
Proof. rewrite !Rabs_pos_eq by (simpl; lra). simpl. lra. Qed.
(** C41, xyt: a Laser built from an expression samples the pointwise meaning of the expression, unscaled: the energies of the parts are not applied. *)
Theorem C41_xyt :
  forall lo hi n0 n1 nt nm nte e p L,
  pyeval e = Ok (VProf p) -> (forall q, e <> EVal (VProf q)) ->
  laser_init Xyt lo hi [n0;n1;nt] p nm nte = Ok L ->
  nth 0 lo 0 < nth 0 hi 0 -> nth 1 lo 0 < nth 1 hi 0 -> nth 2 lo 0 < nth 2 hi 0 ->
  exists a, snd (get_temporal_field (l_grid L)) = Ok a /\ shp a = [n0;n1;nt] /\
    forall i j k, (i < n0)%nat -> (j < n1)%nat -> (k < nt)%nat ->
      at3 a i j k = expr_at e (coord (nth 0 lo 0) (nth 0 hi 0) n0 i) (coord (nth 1 lo 0) (nth 1 hi 0) n1 j) (coord (nth 2 lo 0) (nth 2 hi 0) nt k).
Proof. exact c41_xyt. Qed.
Print Assumptions C41_xyt.
Theorem C41_no_energy :
  forall e v p,
  pyeval e = Ok v -> v = VProf p -> (forall q, e <> EVal (VProf q)) -> p_energy p = None.
Proof. exact c41_energy_lost. Qed.
Print Assumptions C41_no_energy.
(** C41, rt: every stored mode is the same linear combination of the modes of the parts (built without energy request). *)
Theorem C41_rt :
  forall lo hi np nm nte p q r (u v : R) L Lp Lq,
  (forall x y t, p_eval r x y t = Cplus (Cmult (RtoC u) (p_eval p x y t)) (Cmult (RtoC v) (p_eval q x y t))) -> p_energy r = None ->
  laser_init Rt lo hi np r nm nte = Ok L -> laser_init Rt lo hi np (no_energy p) nm nte = Ok Lp -> laser_init Rt lo hi np (no_energy q) nm nte = Ok Lq ->
  exists a b c, tread (l_grid L) = Ok c /\ tread (l_grid Lp) = Ok a /\ tread (l_grid Lq) = Ok b /\ shp c = shp a /\ shp b = shp a /\
    forall i j k, at3 c i j k = Cplus (Cmult (RtoC u) (at3 a i j k)) (Cmult (RtoC v) (at3 b i j k)).
Proof. exact c41_rt. Qed.
Print Assumptions C41_rt.
(** A sum of two copies of a non-trivial profile that carries an energy request: both kinds of Laser can be built from it. *)
Example C41_nonvacuous : exists r L Lr Lp, 
  pyeval (EAdd (EVal (VProf (ex_prof (Some (Some 2))))) (EVal (VProf (ex_prof (Some (Some 2)))))) = Ok (VProf r) /\ p_energy r = None /\
  (forall x y t, p_eval r x y t = Cplus (Cmult (RtoC 1) (p_eval (ex_prof None) x y t)) (Cmult (RtoC 1) (p_eval (ex_prof None) x y t))) /\
  laser_init Xyt [-1;-2;-3] [1;2;4] [4;3;5]%nat r 1 None = Ok L /\
  laser_init Rt [0;-3] [2;4] [4;5]%nat r 2 None = Ok Lr /\
  laser_init Rt [0;-3] [2;4] [4;5]%nat (no_energy (ex_prof (Some (Some 2)))) 2 None = Ok Lp.
Proof.
  destruct (proj2 (c40_iff (ex_prof (Some (Some 2))) (ex_prof (Some (Some 2))))) as (r & Hr).
  - cbn [ex_prof p_lambda0 p_pol fst snd]. replace (1 - 1) with 0 by ring. rewrite Rabs_R0.
    replace (Cminus (RtoC 1) (RtoC 1)) with (RtoC 0) by ring. replace (Cminus (RtoC 0) (RtoC 0)) with (RtoC 0) by ring. rewrite Cmod_0.
    assert (T : forall z, 0 <= z -> 0 <= / 10 ^ 8 + / 10 ^ 5 * z) by (intros z Hz; simpl; lra).
    split; [apply T, Rabs_pos|]. split; apply T; first [apply Cmod_ge_0|lra].
  - assert (He : pyeval (EAdd (EVal (VProf (ex_prof (Some (Some 2))))) (EVal (VProf (ex_prof (Some (Some 2)))))) = Ok (VProf r)) by exact Hr.
    assert (HE : p_energy r = None) by (apply (c41_energy_lost _ _ r He eq_refl); intros q; discriminate).
    assert (HD : p_dtype r = Complex128).
    { cbn [py_add] in Hr. unfold vbind in Hr. destruct (summed_profile _) as [r'|] eqn:E; [|discriminate]. cbn [bind] in Hr. injection Hr as ->.
      destruct (summed_inv _ _ E) as (p0 & ps & El & _ & _ & X & _). rewrite X. injection El as <- El. destruct ps; [discriminate|]. reflexivity. }
    destruct (xyt_construct_ok [-1;-2;-3] [1;2;4] 4 3 5 r 1 None) as (L & HL); simpl; try lia; try lra; try reflexivity; [rewrite HE; exact I|exact HD|].
    destruct (ex_rt r None ltac:(rewrite HE; exact I) ltac:(lia)) as (Lr & HLr).
    destruct (ex_rt (no_energy (ex_prof (Some (Some 2)))) None I ltac:(lia)) as (Lp & HLp).
    exists r, L, Lr, Lp. split; [exact He|]. split; [exact HE|]. split; [|auto].
    intros x y t. pose proof (c39_linear _ _ He x y t) as Hv. cbn [val_at expr_at] in Hv. rewrite Hv. rewrite !Cmult_1_l. reflexivity.
Qed.
