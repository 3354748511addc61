(** C38-C41. *)
From Verif Require Import PyBase CSum NpFFT FFTProofs NumPy GridModel GridSpec GridProofs LaserSpec GridObs EnergyModel EnergyProofs LaserModel LaserInv
  LaserInitProofs FromArrayModel ProfileModel ProfileSpec.
Open Scope R_scope.

(** ** Polarization *)
Lemma pol_norm_pos px py : (px, py) <> (RtoC 0, RtoC 0) -> 0 < Cmod px ^ 2 + Cmod py ^ 2.
Proof.
  intros H. rewrite !Cmod_sq. pose proof (Cnorm2_nonneg px). pose proof (Cnorm2_nonneg py).
  destruct (Req_EM_T (Cnorm2 px + Cnorm2 py) 0) as [E|E]; [|lra]. exfalso. apply H.
  f_equal; apply Cnorm2_eq_0; lra.
Qed.
Lemma norm_pol_spec px py : (px, py) <> (RtoC 0, RtoC 0) ->
  unit_pol (norm_pol (px, py)) /\
  exists s, 0 < s /\ fst (norm_pol (px, py)) = Cmult (RtoC s) px /\ snd (norm_pol (px, py)) = Cmult (RtoC s) py.
Proof.
  intros H. pose proof (pol_norm_pos px py H) as HP. unfold norm_pol, unit_pol. cbn [fst snd].
  set (n2 := Cmod px ^ 2 + Cmod py ^ 2) in *. set (n := sqrt n2).
  assert (Hn : 0 < n) by (apply sqrt_lt_R0, HP).
  assert (Hnn : n * n = n2) by (apply sqrt_sqrt; lra).
  assert (HC : RtoC n <> RtoC 0) by (apply RtoC_neq0; lra).
  split.
  - rewrite !Cmod_div, !Cmod_R, !Rabs_pos_eq by (exact HC || lra).
    transitivity (n2 / (n * n)); [unfold n2; field; lra|]. rewrite Hnn. field. lra.
  - exists (/ n). split; [apply Rinv_0_lt_compat, Hn|].
    rewrite RtoC_inv by lra. split; field; exact HC.
Qed.
Lemma norm_pol_idem p : unit_pol p -> norm_pol p = p.
Proof.
  unfold unit_pol, norm_pol. intros H. rewrite H, sqrt_1. destruct p as (a, b). cbn [fst snd].
  assert (E : forall z, Cdiv z (RtoC 1) = z) by (intros z; field; apply RtoC_neq0; lra). rewrite !E. reflexivity.
Qed.
Lemma c38_init w pol dt ev p : profile_init w pol dt ev = Ok p -> pol <> [RtoC 0; RtoC 0] ->
  unit_pol (p_pol p) /\ p_lambda0 p = w /\ p_omega0 p = 2 * PI * c_light / w /\
  exists px py s, pol = [px; py] /\ 0 < s /\ p_pol p = (Cmult (RtoC s) px, Cmult (RtoC s) py) /\
    (unit_pol (px, py) -> p_pol p = (px, py)).
Proof.
  unfold profile_init. destruct pol as [|px [|py [|? ?]]]; try discriminate. intros H Hne. injection H as <-. cbn [p_pol p_lambda0 p_omega0].
  assert (Hz : (px, py) <> (RtoC 0, RtoC 0)) by (intros E; apply Hne; injection E as -> ->; reflexivity).
  destruct (norm_pol_spec px py Hz) as (H1 & s & Hs & E1 & E2). split; [exact H1|]. split; [reflexivity|]. split; [reflexivity|].
  exists px, py, s. split; [reflexivity|]. split; [exact Hs|]. split; [rewrite <- E1, <- E2; destruct (norm_pol (px, py)); reflexivity|].
  intros Hu. apply norm_pol_idem, Hu.
Qed.
Lemma c38_length w pol dt ev : length pol <> 2%nat -> profile_init w pol dt ev = Err AssertionError.
Proof. intros H. destruct pol as [|px [|py [|? ?]]]; try reflexivity. simpl in H. lia. Qed.

(** ** Expressions *)
Lemma sum_eval2 p q x y t : sum_eval [p; q] x y t = Cplus (p_eval p x y t) (p_eval q x y t).
Proof. simpl. ring. Qed.
Lemma profile_init_eval w pol dt ev p : profile_init w pol dt ev = Ok p -> p_eval p = ev /\ p_dtype p = dt /\ p_energy p = None.
Proof. unfold profile_init. destruct pol as [|px [|py [|? ?]]]; try discriminate. intros H. injection H as <-. auto. Qed.
Lemma summed_inv l p : summed_profile l = Ok p -> exists p0 ps, l = map VProf (p0 :: ps) /\ p_eval p = sum_eval (p0 :: ps) /\
  p_energy p = None /\ p_dtype p = sum_dtype (p0 :: ps) /\
  profile_init (p_lambda0 p0) [fst (p_pol p0); snd (p_pol p0)] (sum_dtype (p0 :: ps)) (sum_eval (p0 :: ps)) = Ok p /\
  (forall q, In q ps -> closeR (p_lambda0 q) (p_lambda0 p0) = true /\ close_pol (p_pol q) (p_pol p0) = true).
Proof.
  unfold summed_profile. intros H.
  assert (HA : forall l ps, all_profiles l = Some ps -> l = map VProf ps).
  { intros l0. induction l0 as [|v l0 IH]; intros ps E; [injection E as <-; reflexivity|]. destruct v; try discriminate. cbn [all_profiles] in E.
    destruct (all_profiles l0) eqn:E0; [|discriminate]. injection E as <-. simpl. f_equal. apply IH. reflexivity. }
  destruct (all_profiles l) as [[|p0 ps]|] eqn:E; try discriminate. apply HA in E. exists p0, ps. split; [exact E|].
  destruct (forallb _ (p0 :: ps)) eqn:E1; [|discriminate]. cbn [pyassert bind] in H.
  destruct (forallb (fun q => close_pol _ _) (p0 :: ps)) eqn:E2; [|discriminate]. cbn [pyassert bind] in H.
  destruct (profile_init_eval _ _ _ _ _ H) as (A & B & D). split; [exact A|]. split; [exact D|]. split; [exact B|]. split; [exact H|].
  intros q Hq. rewrite forallb_forall in E1, E2. split; [apply E1|apply E2]; right; exact Hq.
Qed.
Lemma scaled_inv v f p : scaled_profile v f = Ok p -> exists q k, v = VProf q /\ f = VNum k /\
  p_eval p = (fun x y t => Cmult (p_eval q x y t) (RtoC k)) /\ p_energy p = None /\ p_dtype p = p_dtype q /\
  profile_init (p_lambda0 q) [fst (p_pol q); snd (p_pol q)] (p_dtype q) (fun x y t => Cmult (p_eval q x y t) (RtoC k)) = Ok p.
Proof.
  unfold scaled_profile. destruct f as [|k| |]; try discriminate. destruct v as [q| | |]; try discriminate. intros H.
  destruct (profile_init_eval _ _ _ _ _ H) as (A & B & D). exists q, k. auto 10.
Qed.
Lemma c39_linear e v : pyeval e = Ok v -> forall x y t, val_at v x y t = expr_at e x y t.
Proof.
  revert v. induction e as [w|a IHa b IHb|a IHa b IHb]; intros v H x y t; cbn [pyeval] in H.
  - injection H as <-. reflexivity.
  - destruct (pyeval a) as [va|]; cbn [bind] in H; [|discriminate]. destruct (pyeval b) as [vb|]; cbn [bind] in H; [|discriminate].
    cbn [expr_at]. rewrite <- (IHa va eq_refl), <- (IHb vb eq_refl).
    destruct va as [p|k|z|], vb as [q|k'|z'|]; try discriminate; cbn [py_add] in H.
    + unfold vbind in H. destruct (summed_profile _) as [r|] eqn:E; [|discriminate]. cbn [bind] in H. injection H as <-.
      destruct (summed_inv _ _ E) as (p0 & ps & El & Ev & _). destruct ps as [|q' [|? ?]]; try discriminate. injection El as <- <-.
      cbn [val_at]. rewrite Ev, sum_eval2. reflexivity.
    + injection H as <-. cbn [val_at]. apply RtoC_plus.
    + injection H as <-. reflexivity.
    + injection H as <-. reflexivity.
    + injection H as <-. reflexivity.
  - destruct (pyeval a) as [va|]; cbn [bind] in H; [|discriminate]. destruct (pyeval b) as [vb|]; cbn [bind] in H; [|discriminate].
    cbn [expr_at]. rewrite <- (IHa va eq_refl), <- (IHb vb eq_refl).
    destruct va as [p|k|z|], vb as [q|k'|z'|]; try discriminate; cbn [py_mul] in H.
    + unfold vbind in H. destruct (scaled_profile _ _) as [r|] eqn:E; [|discriminate]. cbn [bind] in H. injection H as <-.
      destruct (scaled_inv _ _ _ E) as (p0 & k0 & Ep & Ek & Ev & _). injection Ep as <-. injection Ek as <-.
      cbn [val_at]. rewrite Ev. reflexivity.
    + unfold vbind in H. destruct (scaled_profile _ _) as [r|] eqn:E; [|discriminate]. cbn [bind] in H. injection H as <-.
      destruct (scaled_inv _ _ _ E) as (p0 & k0 & Ep & Ek & Ev & _). injection Ep as <-. injection Ek as <-.
      cbn [val_at]. rewrite Ev. ring.
    + injection H as <-. cbn [val_at]. apply RtoC_mult.
    + injection H as <-. reflexivity.
    + injection H as <-. reflexivity.
    + injection H as <-. reflexivity.
Qed.
(** Any two expressions with the same pointwise meaning evaluate alike: commutativity, associativity, ... *)
Lemma c39_laws e1 e2 p1 p2 : (forall x y t, expr_at e1 x y t = expr_at e2 x y t) ->
  pyeval e1 = Ok (VProf p1) -> pyeval e2 = Ok (VProf p2) -> forall x y t, p_eval p1 x y t = p_eval p2 x y t.
Proof. intros H H1 H2 x y t. pose proof (c39_linear e1 _ H1 x y t) as A. pose proof (c39_linear e2 _ H2 x y t) as B. cbn [val_at] in A, B. congruence. Qed.
Lemma c39_reject a b va vb : pyeval a = Ok va -> pyeval b = Ok vb ->
  (forall p, va = VProf p -> (forall q, vb <> VProf q) -> pyeval (EAdd a b) = Err AssertionError) /\
  (forall q, vb = VProf q -> (forall p, va <> VProf p) -> pyeval (EAdd a b) = Err TypeError) /\
  (forall p, va = VProf p -> (forall k, vb <> VNum k) -> pyeval (EMul a b) = Err AssertionError) /\
  (forall q, vb = VProf q -> (forall k, va <> VNum k) -> pyeval (EMul a b) = Err AssertionError).
Proof.
  intros Ha Hb. cbn [pyeval]. rewrite Ha, Hb. cbn [bind]. split; [|split; [|split]].
  - intros p -> Hn. destruct vb as [q|k|z|]; [exfalso; eapply Hn; reflexivity| | |]; reflexivity.
  - intros q -> Hn. destruct va as [p|k|z|]; [exfalso; eapply Hn; reflexivity| | |]; reflexivity.
  - intros p -> Hn. destruct vb as [q|k|z|]; try reflexivity. exfalso; eapply Hn; reflexivity.
  - intros q -> Hn. destruct va as [p|k|z|]; try reflexivity. exfalso; eapply Hn; reflexivity.
Qed.
(** The result carries the wavelength and polarization of the left-most profile, and no energy. *)
Lemma c38_expr e v : pyeval e = Ok v -> (forall q, In q (leaves e) -> unit_pol (p_pol q)) ->
  match v with
  | VProf p => exists q l, leaves e = q :: l /\ p_lambda0 p = p_lambda0 q /\ p_pol p = p_pol q /\ unit_pol (p_pol p)
  | VOther => True
  | _ => leaves e = []
  end.
Proof.
  revert v. induction e as [w|a IHa b IHb|a IHa b IHb]; intros v H Hu; cbn [pyeval] in H.
  - injection H as <-. destruct w; try reflexivity. exists p, []. cbn [leaves] in *. split; [reflexivity|]. split; [reflexivity|]. split; [reflexivity|]. apply Hu. left; reflexivity.
  - destruct (pyeval a) as [va|]; cbn [bind] in H; [|discriminate]. destruct (pyeval b) as [vb|]; cbn [bind] in H; [|discriminate].
    specialize (IHa va eq_refl ltac:(intros q Hq; apply Hu; cbn [leaves]; apply in_or_app; left; exact Hq)).
    specialize (IHb vb eq_refl ltac:(intros q Hq; apply Hu; cbn [leaves]; apply in_or_app; right; exact Hq)).
    destruct va as [p|k|z|], vb as [q|k'|z'|]; try discriminate; cbn [py_add] in H; cbn [leaves].
    + unfold vbind in H. destruct (summed_profile _) as [r|] eqn:E; [|discriminate]. cbn [bind] in H. injection H as <-.
      destruct (summed_inv _ _ E) as (p0 & ps & El & _ & _ & _ & Hi & _). destruct ps as [|q' [|? ?]]; try discriminate. injection El as <- <-.
      destruct IHa as (q0 & l & Hl & Hw & Hp & Hun). rewrite Hl. exists q0, (l ++ leaves b). split; [reflexivity|].
      unfold profile_init in Hi. injection Hi as <-. cbn [p_lambda0 p_pol]. split; [exact Hw|].
      destruct (p_pol p) as (px, py) eqn:Epol. cbn [fst snd]. rewrite norm_pol_idem by exact Hun. split; assumption.
    + injection H as <-. rewrite IHa, IHb. reflexivity.
    + injection H as <-. rewrite IHa, IHb. reflexivity.
    + injection H as <-. rewrite IHa, IHb. reflexivity.
    + injection H as <-. rewrite IHa, IHb. reflexivity.
  - destruct (pyeval a) as [va|]; cbn [bind] in H; [|discriminate]. destruct (pyeval b) as [vb|]; cbn [bind] in H; [|discriminate].
    specialize (IHa va eq_refl ltac:(intros q Hq; apply Hu; cbn [leaves]; apply in_or_app; left; exact Hq)).
    specialize (IHb vb eq_refl ltac:(intros q Hq; apply Hu; cbn [leaves]; apply in_or_app; right; exact Hq)).
    destruct va as [p|k|z|], vb as [q|k'|z'|]; try discriminate; cbn [py_mul] in H; cbn [leaves].
    + unfold vbind in H. destruct (scaled_profile _ _) as [r|] eqn:E; [|discriminate]. cbn [bind] in H. injection H as <-.
      destruct (scaled_inv _ _ _ E) as (p0 & k0 & Ep & Ek & _ & _ & _ & Hi). injection Ep as <-.
      destruct IHa as (q0 & l & Hl & Hw & Hp & Hun). rewrite Hl. exists q0, (l ++ leaves b). split; [reflexivity|].
      unfold profile_init in Hi. injection Hi as <-. cbn [p_lambda0 p_pol]. split; [exact Hw|].
      destruct (p_pol p) as (px, py) eqn:Epol. cbn [fst snd]. rewrite norm_pol_idem by exact Hun. split; assumption.
    + unfold vbind in H. destruct (scaled_profile _ _) as [r|] eqn:E; [|discriminate]. cbn [bind] in H. injection H as <-.
      destruct (scaled_inv _ _ _ E) as (p0 & k0 & Ep & Ek & _ & _ & _ & Hi). injection Ep as <-.
      destruct IHb as (q0 & l & Hl & Hw & Hp & Hun). rewrite IHa, Hl. exists q0, l. split; [reflexivity|].
      unfold profile_init in Hi. injection Hi as <-. cbn [p_lambda0 p_pol]. split; [exact Hw|].
      destruct (p_pol q) as (px, py) eqn:Epol. cbn [fst snd]. rewrite norm_pol_idem by exact Hun. split; assumption.
    + injection H as <-. rewrite IHa, IHb. reflexivity.
    + injection H as <-. rewrite IHa, IHb. reflexivity.
    + injection H as <-. rewrite IHa, IHb. reflexivity.
    + injection H as <-. rewrite IHa, IHb. reflexivity.
Qed.

(** ** C40 *)
Lemma tol_nonneg a : 0 <= a -> 0 <= / 10 ^ 8 + / 10 ^ 5 * a.
Proof.
  intros H. assert (0 < / 10 ^ 8) by (apply Rinv_0_lt_compat, pow_lt; lra).
  assert (0 < / 10 ^ 5) by (apply Rinv_0_lt_compat, pow_lt; lra).
  assert (0 <= / 10 ^ 5 * a) by (apply Rmult_le_pos; lra). lra.
Qed.
Lemma closeR_refl a : closeR a a = true.
Proof.
  unfold closeR. apply Rleb_true. rewrite Rminus_diag_eq, Rabs_R0 by reflexivity. unfold atol, rtol.
  pose proof (Rabs_pos a). assert (0 < / 10 ^ 8) by (apply Rinv_0_lt_compat, pow_lt; lra).
  assert (0 < / 10 ^ 5) by (apply Rinv_0_lt_compat, pow_lt; lra).
  assert (0 <= / 10 ^ 5 * Rabs a) by (apply Rmult_le_pos; lra). lra.
Qed.
Lemma closeC_refl a : closeC a a = true.
Proof.
  unfold closeC. apply Rleb_true. replace (Cminus a a) with (RtoC 0) by ring. rewrite Cmod_0. unfold atol, rtol.
  pose proof (Cmod_ge_0 a). assert (0 < / 10 ^ 8) by (apply Rinv_0_lt_compat, pow_lt; lra).
  assert (0 < / 10 ^ 5) by (apply Rinv_0_lt_compat, pow_lt; lra).
  assert (0 <= / 10 ^ 5 * Cmod a) by (apply Rmult_le_pos; lra). lra.
Qed.
Lemma c40_iff p q : (exists r, py_add (VProf p) (VProf q) = Ok (VProf r)) <->
  Rabs (p_lambda0 q - p_lambda0 p) <= / 10 ^ 8 + / 10 ^ 5 * Rabs (p_lambda0 p) /\
  Cmod (Cminus (fst (p_pol q)) (fst (p_pol p))) <= / 10 ^ 8 + / 10 ^ 5 * Cmod (fst (p_pol p)) /\
  Cmod (Cminus (snd (p_pol q)) (snd (p_pol p))) <= / 10 ^ 8 + / 10 ^ 5 * Cmod (snd (p_pol p)).
Proof.
  cbn [py_add]. unfold vbind, summed_profile. cbn [all_profiles forallb].
  rewrite closeR_refl. unfold close_pol. rewrite !closeC_refl. cbn [andb].
  fold atol rtol.
  destruct (closeR (p_lambda0 q) (p_lambda0 p)) eqn:E1; cbn [andb pyassert bind].
  - destruct (closeC (fst (p_pol q)) (fst (p_pol p))) eqn:E2; cbn [andb pyassert bind].
    + destruct (closeC (snd (p_pol q)) (snd (p_pol p))) eqn:E3; cbn [andb pyassert bind].
      * apply Rleb_true in E1, E2, E3. split; [intros _; tauto|]. intros _. eexists. reflexivity.
      * apply Rleb_false in E3. split; [intros (r & H); discriminate|tauto].
    + apply Rleb_false in E2. split; [intros (r & H); discriminate|tauto].
  - apply Rleb_false in E1. split; [intros (r & H); discriminate|tauto].
Qed.
Lemma c40_reject p q : / 10 ^ 8 + / 10 ^ 5 * Rabs (p_lambda0 p) < Rabs (p_lambda0 q - p_lambda0 p) ->
  py_add (VProf p) (VProf q) = Err AssertionError.
Proof.
  intros H. cbn [py_add]. unfold vbind, summed_profile. cbn [all_profiles forallb]. rewrite closeR_refl.
  destruct (closeR (p_lambda0 q) (p_lambda0 p)) eqn:E; [apply Rleb_true in E; unfold atol, rtol in E; lra|reflexivity].
Qed.
(** 800 nm and 805 nm can be added. *)
Lemma c40_counterexample : exists p q r,
  base_profile (8 / 10 ^ 7) [RtoC 1; RtoC 0] = Ok p /\ base_profile (805 / 10 ^ 9) [RtoC 1; RtoC 0] = Ok q /\
  p_lambda0 p = 8 / 10 ^ 7 /\ p_lambda0 q = 805 / 10 ^ 9 /\
  / 10 ^ 5 * Rmax (Rabs (p_lambda0 p)) (Rabs (p_lambda0 q)) < Rabs (p_lambda0 q - p_lambda0 p) /\
  py_add (VProf p) (VProf q) = Ok (VProf r).
Proof.
  unfold base_profile, profile_init. do 2 eexists.
  match goal with |- exists r, Ok ?p = _ /\ Ok ?q = _ /\ _ => assert (X : exists r, py_add (VProf p) (VProf q) = Ok (VProf r)) end.
  { apply c40_iff. cbn [p_lambda0 p_pol]. split; [|split].
    - simpl. rewrite !Rabs_pos_eq by lra. lra.
    - replace (Cminus _ _) with (RtoC 0) by ring. rewrite Cmod_0. apply tol_nonneg, Cmod_ge_0.
    - replace (Cminus _ _) with (RtoC 0) by ring. rewrite Cmod_0. apply tol_nonneg, Cmod_ge_0. }
  destruct X as (r & Hr). exists r. split; [reflexivity|]. split; [reflexivity|]. cbn [p_lambda0]. split; [reflexivity|]. split; [reflexivity|].
  split; [|exact Hr]. simpl. rewrite !Rabs_pos_eq by lra. unfold Rmax. destruct (Rle_dec _ _); lra.
Qed.

(** ** C41 *)
Lemma no_energy_id p : p_energy p = None -> no_energy p = p.
Proof. destruct p. cbn. intros ->. reflexivity. Qed.
Lemma c41_energy_lost e v p : pyeval e = Ok v -> v = VProf p -> (forall q, e <> EVal (VProf q)) -> p_energy p = None.
Proof.
  intros H -> Hn. destruct e as [w|a b|a b]; cbn [pyeval] in H.
  - injection H as ->. exfalso. eapply Hn. reflexivity.
  - destruct (pyeval a) as [va|]; cbn [bind] in H; [|discriminate]. destruct (pyeval b) as [vb|]; cbn [bind] in H; [|discriminate].
    destruct va, vb; try discriminate; cbn [py_add] in H. unfold vbind in H. destruct (summed_profile _) eqn:E; [|discriminate].
    injection H as <-. destruct (summed_inv _ _ E) as (? & ? & _ & _ & X & _). exact X.
  - destruct (pyeval a) as [va|]; cbn [bind] in H; [|discriminate]. destruct (pyeval b) as [vb|]; cbn [bind] in H; [|discriminate].
    destruct va, vb; try discriminate; cbn [py_mul] in H; unfold vbind in H; destruct (scaled_profile _ _) eqn:E; try discriminate;
    injection H as <-; destruct (scaled_inv _ _ _ E) as (? & ? & _ & _ & _ & X & _); exact X.
Qed.
(** xyt: the field holds the raw values of the expression. *)
Lemma c41_xyt lo hi n0 n1 nt nm nte e p L : pyeval e = Ok (VProf p) -> (forall q, e <> EVal (VProf q)) ->
  laser_init Xyt lo hi [n0;n1;nt] p nm nte = Ok L ->
  nth 0 lo 0 < nth 0 hi 0 -> nth 1 lo 0 < nth 1 hi 0 -> nth 2 lo 0 < nth 2 hi 0 ->
  exists a, snd (get_temporal_field (l_grid L)) = Ok a /\ shp a = [n0;n1;nt] /\
    forall i j k, (i < n0)%nat -> (j < n1)%nat -> (k < nt)%nat ->
      at3 a i j k = expr_at e (coord (nth 0 lo 0) (nth 0 hi 0) n0 i) (coord (nth 1 lo 0) (nth 1 hi 0) n1 j) (coord (nth 2 lo 0) (nth 2 hi 0) nt k).
Proof.
  intros He Hn HL B0 B1 B2. pose proof (c41_energy_lost e _ p He eq_refl Hn) as HE.
  destruct (xyt_samples lo hi n0 n1 nt p nm nte L HL B0 B1 B2) as (a & s & H1 & H2 & _ & H4 & H5); [rewrite HE; exact I|].
  rewrite HE in H5. cbn in H5. subst s. exists a. split; [exact H1|]. split; [exact H2|].
  intros i j k Hi Hj Hk. rewrite H4 by assumption. rewrite <- (c39_linear e _ He). cbn [val_at]. ring.
Qed.

(** rt: scaling the profile scales every mode, and the modes of a sum are the sums of the modes
    (of the profiles without their energy attribute). *)
Lemma ifft_first_lin a b c (f : C -> C -> C) i j k : dim0 b = dim0 a -> dim0 c = dim0 a ->
  (exists u v, forall z w, f z w = Cplus (Cmult u z) (Cmult v w)) ->
  (forall q, (q < dim0 a)%nat -> at3 c q j k = f (at3 a q j k) (at3 b q j k)) ->
  at3 (np_ifft_first c) i j k = f (at3 (np_ifft_first a) i j k) (at3 (np_ifft_first b) i j k).
Proof.
  intros Hb Hc (u & v & Hf) H. unfold np_ifft_first; cbn [at3]. rewrite Hb, Hc, Hf.
  rewrite <- !ifft1_scal, <- ifft1_plus. apply ifft1_ext. intros q Hq. rewrite H by exact Hq. apply Hf.
Qed.
Lemma take_modes_lin a b c nm (f : C -> C -> C) i j k : shp b = shp a -> shp c = shp a ->
  (forall i, at3 c i j k = f (at3 a i j k) (at3 b i j k)) ->
  at3 (take_modes c nm) i j k = f (at3 (take_modes a nm) i j k) (at3 (take_modes b nm) i j k).
Proof.
  intros Hb Hc H. unfold take_modes; cbn [at3]. unfold dim0. rewrite Hb, Hc. destruct (Nat.ltb _ _); apply H.
Qed.
Lemma c41_rt lo hi np nm nte p q r (u v : R) L Lp Lq :
  (forall x y t, p_eval r x y t = Cplus (Cmult (RtoC u) (p_eval p x y t)) (Cmult (RtoC v) (p_eval q x y t))) -> p_energy r = None ->
  laser_init Rt lo hi np r nm nte = Ok L -> laser_init Rt lo hi np (no_energy p) nm nte = Ok Lp -> laser_init Rt lo hi np (no_energy q) nm nte = Ok Lq ->
  exists a b c, tread (l_grid L) = Ok c /\ tread (l_grid Lp) = Ok a /\ tread (l_grid Lq) = Ok b /\ shp c = shp a /\ shp b = shp a /\
    forall i j k, at3 c i j k = Cplus (Cmult (RtoC u) (at3 a i j k)) (Cmult (RtoC v) (at3 b i j k)).
Proof.
  intros Hr He HL HLp HLq. rewrite <- (no_energy_id r He) in HL.
  destruct (laser_init_rt_raw _ _ _ _ _ _ _ HL) as (g & n1 & nt & N & Hg & _ & HN & _ & _ & _ & _ & T & _).
  destruct (laser_init_rt_raw _ _ _ _ _ _ _ HLp) as (g' & n1' & nt' & N' & Hg' & _ & HN' & _ & _ & _ & _ & T' & _).
  destruct (laser_init_rt_raw _ _ _ _ _ _ _ HLq) as (g'' & n1'' & nt'' & N'' & Hg'' & _ & HN'' & _ & _ & _ & _ & T'' & _).
  rewrite Hg in Hg', Hg''. injection Hg' as <-. injection Hg'' as <-. rewrite <- HN in HN', HN''. subst N' N''.
  eexists. eexists. eexists. split; [exact T|]. split; [exact T'|]. split; [exact T''|]. split; [reflexivity|]. split; [reflexivity|].
  intros i j k. apply (take_modes_lin _ _ _ nm (fun z w => Cplus (Cmult (RtoC u) z) (Cmult (RtoC v) w))); [reflexivity|reflexivity|].
  intros i'. apply (ifft_first_lin _ _ _ (fun z w => Cplus (Cmult (RtoC u) z) (Cmult (RtoC v) w))); [reflexivity|reflexivity|eexists; eexists; reflexivity|].
  intros a _. unfold sample_rt; cbn [at3]. apply Hr.
Qed.

(** ** Element type of an expression *)
Lemma promote_complex a b : promote a b = Complex128 <-> a = Complex128 \/ b = Complex128.
Proof. destruct a, b; cbn; intuition (congruence || auto). Qed.
Lemma expr_dtype e : forall v, pyeval e = Ok v ->
  match v with VProf p => p_dtype p = Complex128 <-> (exists q, In q (leaves e) /\ p_dtype q = Complex128) | _ => leaves e = [] end.
Proof.
  induction e as [w|a IHa b IHb|a IHa b IHb]; intros v H; cbn [pyeval] in H.
  - injection H as <-. destruct w as [p| | |]; cbn [leaves]; try reflexivity. split.
    + intros E. exists p. split; [left; reflexivity|exact E].
    + intros (q & [<-|[]] & E). exact E.
  - destruct (pyeval a) as [va|]; cbn [bind] in H; [|discriminate]. destruct (pyeval b) as [vb|]; cbn [bind] in H; [|discriminate].
    specialize (IHa va eq_refl). specialize (IHb vb eq_refl). cbn [leaves].
    destruct va as [p|k|z|], vb as [q|k'|z'|]; try discriminate; cbn [py_add] in H.
    + unfold vbind in H. destruct (summed_profile _) as [r|] eqn:E; [|discriminate]. cbn [bind] in H. injection H as <-.
      destruct (summed_inv _ _ E) as (p0 & ps & El & _ & _ & Ed & _). destruct ps as [|q' [|? ?]]; try discriminate. injection El as <- <-.
      rewrite Ed. cbn [sum_dtype]. rewrite !promote_complex, IHa, IHb. split.
      * intros [(q0 & A & B)|[(q0 & A & B)|X]]; [| |discriminate]; exists q0; (split; [apply in_or_app; auto|exact B]).
      * intros (q0 & A & B). apply in_app_or in A. destruct A as [A|A]; [left|right; left]; exists q0; auto.
    + injection H as <-. rewrite IHa, IHb. reflexivity.
    + injection H as <-. rewrite IHa, IHb. reflexivity.
    + injection H as <-. rewrite IHa, IHb. reflexivity.
    + injection H as <-. rewrite IHa, IHb. reflexivity.
  - destruct (pyeval a) as [va|]; cbn [bind] in H; [|discriminate]. destruct (pyeval b) as [vb|]; cbn [bind] in H; [|discriminate].
    specialize (IHa va eq_refl). specialize (IHb vb eq_refl). cbn [leaves].
    destruct va as [p|k|z|], vb as [q|k'|z'|]; try discriminate; cbn [py_mul] in H;
      try (injection H as <-; rewrite IHa, IHb; reflexivity);
      (unfold vbind in H; destruct (scaled_profile _ _) as [r|] eqn:E; [|discriminate]; cbn [bind] in H; injection H as <-;
       destruct (scaled_inv _ _ _ E) as (p0 & k0 & Ep & Ek & _ & _ & Ed & _); try discriminate; injection Ep as <-; rewrite Ed).
    rewrite IHb, app_nil_r. exact IHa.
Qed.
Lemma c39_dtype e p : pyeval e = Ok (VProf p) -> (p_dtype p = Complex128 <-> exists q, In q (leaves e) /\ p_dtype q = Complex128).
Proof. intros H. exact (expr_dtype e _ H). Qed.
Lemma c39_zero wl pol z e p s : base_profile wl pol = Ok z -> pyeval e = Ok (VProf p) -> pyeval (EAdd e (EVal (VProf z))) = Ok (VProf s) ->
  (forall x y t, p_eval z x y t = RtoC 0) /\ (forall x y t, p_eval s x y t = p_eval p x y t).
Proof.
  intros Hz He Hs.
  assert (Z : forall x y t, p_eval z x y t = RtoC 0).
  { unfold base_profile, profile_init in Hz. destruct pol as [|px [|py [|? ?]]]; try discriminate. inversion Hz. reflexivity. }
  split; [exact Z|]. apply (c39_laws (EAdd e (EVal (VProf z))) e); [|exact Hs|exact He].
  intros x y t. cbn [expr_at val_at]. rewrite Z. ring.
Qed.
