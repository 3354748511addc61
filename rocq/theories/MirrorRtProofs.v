From Verif Require Import PyBase CSum NpFFT FFTProofs NumPy GridModel GridSpec GridProofs GridObs EnergyModel EnergyProofs LaserSpec LaserModel LaserOps LaserInv LaserStepProofs PropagateProofs HistoryProofs LaserInitProofs OpticsProofs2 LtiSpec LtiProofs LtiStep LtiMain LtiNorm RotProofs MirrorSpec MirrorProofs MirrorWave MirrorRtSpec.
Open Scope R_scope.

Lemma opp_lt n i : (i < n)%nat -> (opposite n i < n)%nat.
Proof. intros H. unfold opposite. destruct (Nat.eqb_spec i 0); lia. Qed.
Lemma opp_opp n i : (i < n)%nat -> opposite n (opposite n i) = i.
Proof. intros H. unfold opposite. destruct (Nat.eqb_spec i 0) as [->|]; [reflexivity|]. destruct (Nat.eqb_spec (n - i) 0); lia. Qed.
Lemma csum_opp n f : csum n (fun u => f (opposite n u)) = csum n f.
Proof. exact (csum_neg true n f). Qed.
Lemma rsum_opp n f : rsum n (fun u => f (opposite n u)) = rsum n f.
Proof.
  destruct n as [|n]; [reflexivity|]. rewrite (rsum_first n (fun u => f (opposite (S n) u))), (rsum_first n f). unfold opposite at 1. cbn [Nat.eqb]. f_equal.
  rewrite <- (rsum_rev n (fun i => f (S i))). apply rsum_ext. intros i Hi. unfold opposite. cbn [Nat.eqb]. f_equal. lia.
Qed.
Lemma flat3_opp n0 n1 n2 (f h : nat -> nat -> nat -> R) :
  (forall i j k, (i < n0)%nat -> (j < n1)%nat -> (k < n2)%nat -> h i j k = f (opposite n0 i) j k) ->
  rmaxl (flat3 n0 n1 n2 h) = rmaxl (flat3 n0 n1 n2 f).
Proof.
  intros H. apply rmaxl_same. intros x. split; intros Hx; apply (proj1 (EnergyProofs.in_flat3 _ _ _ _ _)) in Hx; destruct Hx as (i & j & k & Hi & Hj & Hk & ->); apply (proj2 (EnergyProofs.in_flat3 _ _ _ _ _)).
  - exists (opposite n0 i), j, k. split; [apply opp_lt, Hi|]. split; [exact Hj|]. split; [exact Hk|]. apply H; assumption.
  - exists (opposite n0 i), j, k. split; [apply opp_lt, Hi|]. split; [exact Hj|]. split; [exact Hk|].
    rewrite H by (assumption || apply opp_lt; assumption). rewrite opp_opp by assumption. reflexivity.
Qed.

Definition swapped (n0 n1 nt : nat) (a a' : ndarray) : Prop :=
  forall i j k, (i < n0)%nat -> (j < n1)%nat -> (k < nt)%nat -> at3 a' i j k = at3 a (opposite n0 i) j k.
Lemma swap_energy g a a' n0 n1 nt : shp a = [n0; n1; nt] -> shp a' = [n0; n1; nt] -> swapped n0 n1 nt a a' -> energy_of Rt g a' = energy_of Rt g a.
Proof.
  intros Sa Sa' H. unfold energy_of. unfold dim0, dim1, dim2. rewrite Sa, Sa'. cbn [nth].
  assert (E : rsum3 n0 n1 nt (fun i j k => cell_volume Rt g j * eps0 * Cmod (at3 a' i j k) ^ 2) = rsum3 n0 n1 nt (fun i j k => cell_volume Rt g j * eps0 * Cmod (at3 a i j k) ^ 2)).
  { transitivity (rsum3 n0 n1 nt (fun i j k => cell_volume Rt g j * eps0 * Cmod (at3 a (opposite n0 i) j k) ^ 2)).
    - apply rsum3_ext. intros i j k Hi Hj Hk. rewrite H by assumption. reflexivity.
    - unfold rsum3. apply (rsum_opp n0 (fun i => rsum n1 (fun j => rsum nt (fun k => cell_volume Rt g j * eps0 * Cmod (at3 a i j k) ^ 2)))). }
  rewrite E. reflexivity.
Qed.
Lemma norm_swap v kd g g' a a' n0 n1 nt : CohG g -> CohG g' -> same_meta g g' -> g_shape g = [n0; n1; nt] ->
  tread g = Ok a -> tread g' = Ok a' -> swapped n0 n1 nt a a' ->
  snd (normalize_grid Rt v kd g') = snd (normalize_grid Rt v kd g) /\
  exists b b', tread (fst (normalize_grid Rt v kd g)) = Ok b /\ tread (fst (normalize_grid Rt v kd g')) = Ok b' /\ swapped n0 n1 nt b b'.
Proof.
  intros HG HG' HM Hsh Ha Ha' Hat.
  assert (Hsh' : g_shape g' = g_shape g) by (destruct HM as (_ & _ & _ & _ & _ & _ & _ & Z & _); exact Z).
  destruct (tread_shape _ _ (proj1 HG) Ha) as (Sa & Da). destruct (tread_shape _ _ (proj1 HG') Ha') as (Sa' & Da').
  rewrite Hsh' in Sa'. rewrite Hsh in Sa, Sa'.
  assert (Hsame : forall h h' (r : res unit), tread h = tread g -> tread h' = tread g' ->
     snd (h', r) = snd (h, r) /\ exists b b', tread (fst (h, r)) = Ok b /\ tread (fst (h', r)) = Ok b' /\ swapped n0 n1 nt b b').
  { intros h h' r E E'. split; [reflexivity|]. exists a, a'. cbn [fst]. rewrite E, E'. auto. }
  assert (Hscale : forall s b b', (forall i j k, at3 b i j k = Cmult (RtoC s) (at3 a i j k)) -> (forall i j k, at3 b' i j k = Cmult (RtoC s) (at3 a' i j k)) -> swapped n0 n1 nt b b').
  { intros s b b' E E' i j k Hi Hj Hk. rewrite E, E', Hat by assumption. reflexivity. }
  destruct v as [x|].
  2: { destruct kd; cbn [normalize_grid normalize_energy normalize_peak_field_amplitude normalize_peak_intensity]; apply Hsame; reflexivity. }
  pose proof (tread_get_t g) as HT. rewrite Ha in HT. pose proof (tread_get_t g') as HT'. rewrite Ha' in HT'.
  destruct kd; cbn [normalize_grid].
  - unfold normalize_energy. destruct (compute_energy_eq Rt g a Ha) as (C1 & C2). destruct (compute_energy_eq Rt g' a' Ha') as (C1' & C2'). rewrite C1, C2, C1', C2'.
    rewrite (energy_of_meta Rt _ _ _ HM), (swap_energy g a a' n0 n1 nt Sa Sa' Hat).
    destruct (Reqb (energy_of Rt g a) 0) eqn:E0; [apply Hsame; apply tread_get_t|].
    destruct (rescale (fst (get_temporal_field g)) a (sqrt (x / energy_of Rt g a)) (get_t_Wf _ (proj1 HG)) HT) as (R1 & _ & _ & R4).
    destruct (rescale (fst (get_temporal_field g')) a' (sqrt (x / energy_of Rt g a)) (get_t_Wf _ (proj1 HG')) HT') as (R1' & _ & _ & R4').
    unfold tread in HT, HT'. rewrite HT, HT'. split; [congruence|]. eexists; eexists. split; [exact R4|]. split; [exact R4'|].
    apply (Hscale (sqrt (x / energy_of Rt g a))); intros; reflexivity.
  - unfold normalize_peak_field_amplitude. change (snd (get_temporal_field g)) with (tread g). change (snd (get_temporal_field g')) with (tread g'). rewrite Ha, Ha'. cbn zeta.
    assert (EM : abs_max a' = abs_max a).
    { unfold abs_max, dim0, dim1, dim2. rewrite Sa, Sa'. cbn [nth]. apply flat3_opp. intros i j k Hi Hj Hk. rewrite Hat by assumption. reflexivity. }
    rewrite EM.
    destruct (Reqb (abs_max a) 0) eqn:E0; [apply Hsame; apply tread_get_t|].
    destruct (rescale g a (x / abs_max a) (proj1 HG) Ha) as (R1 & _ & _ & R4).
    destruct (rescale g' a' (x / abs_max a) (proj1 HG') Ha') as (R1' & _ & _ & R4').
    split; [congruence|]. eexists; eexists. split; [exact R4|]. split; [exact R4'|].
    apply (Hscale (x / abs_max a)); intros; reflexivity.
  - unfold normalize_peak_intensity. change (snd (get_temporal_field g)) with (tread g). change (snd (get_temporal_field g')) with (tread g'). rewrite Ha, Ha'. cbn zeta.
    assert (EM : rmaxl (flat3 (dim0 a') (dim1 a') (dim2 a') (fun i j k => Cmod (Cmult (RtoC (eps0 / 2 * c_light)) (Cmult (at3 a' i j k) (at3 a' i j k))))) =
       rmaxl (flat3 (dim0 a) (dim1 a) (dim2 a) (fun i j k => Cmod (Cmult (RtoC (eps0 / 2 * c_light)) (Cmult (at3 a i j k) (at3 a i j k)))))).
    { unfold dim0, dim1, dim2. rewrite Sa, Sa'. cbn [nth]. apply flat3_opp. intros i j k Hi Hj Hk. rewrite Hat by assumption. reflexivity. }
    rewrite EM. destruct (Reqb _ 0); [apply Hsame; apply tread_get_t|].
    assert (Hst : forall g a, CohG g -> g_shape g = [n0; n1; nt] -> tread g = Ok a -> forall z, set_temporal_field (fst (get_temporal_field g)) (np_float_scalar z) = (fst (get_temporal_field g), Err AssertionError)).
    { clear. intros g a HG Hsh Ha z. unfold set_temporal_field.
      assert (HT : tread (fst (get_temporal_field g)) = Ok a) by (rewrite tread_get_t; exact Ha).
      assert (Hs2 : shp (g_tf (fst (get_temporal_field g))) = [n0; n1; nt]).
      { pose proof (proj1 (get_t_Coh _ HG)) as HW. rewrite <- Hsh. destruct (get_t_meta g) as (_ & _ & _ & _ & _ & _ & _ & Z & _).
        rewrite <- Z. apply HW. }
      rewrite Hs2. reflexivity. }
    rewrite (Hst g a HG Hsh Ha), (Hst g' a' HG' ltac:(congruence) Ha'). apply Hsame; apply tread_get_t.
  - apply Hsame; reflexivity.
Qed.

(** ** The relation between the two lasers *)
Definition srel (L L' : laser) (n0 n1 nt : nat) : Prop :=
  forall s s', sread (l_grid L) = Ok s -> sread (l_grid L') = Ok s' -> swapped n0 n1 nt s s'.
Lemma srel_t L L' n0 n1 nt a a' : Inv L n0 n1 nt -> Inv L' n0 n1 nt -> srel L L' n0 n1 nt ->
  tread (l_grid L) = Ok a -> tread (l_grid L') = Ok a' -> swapped n0 n1 nt a a'.
Proof.
  intros HI HI' HR Ha Ha' i j k Hi Hj Hk.
  destruct (Inv_reads _ _ _ _ HI) as (_ & s & _ & _ & Hs & _). destruct (Inv_reads _ _ _ _ HI') as (_ & s' & _ & _ & Hs' & _).
  destruct (spectral_zero_like _ _ _ _ _ _ (opposite n0 i) j k HI Ha Hs (opp_lt _ _ Hi) Hj Hk) as (-> & _).
  destruct (spectral_zero_like _ _ _ _ _ _ i j k HI' Ha' Hs' Hi Hj Hk) as (-> & _).
  apply fft1_ext. intros q Hq. apply (HR s s' Hs Hs'); assumption.
Qed.
Lemma srel_of_t L L' n0 n1 nt a a' : Inv L n0 n1 nt -> Inv L' n0 n1 nt ->
  tread (l_grid L) = Ok a -> tread (l_grid L') = Ok a' -> swapped n0 n1 nt a a' -> srel L L' n0 n1 nt.
Proof.
  intros HI HI' Ha Ha' HR s s' Hs Hs' i j k Hi Hj Hk.
  destruct (spectral_zero_like _ _ _ _ _ _ (opposite n0 i) j k HI Ha Hs (opp_lt _ _ Hi) Hj Hk) as (_ & ->).
  destruct (spectral_zero_like _ _ _ _ _ _ i j k HI' Ha' Hs' Hi Hj Hk) as (_ & ->).
  apply ifft1_ext. intros q Hq. apply HR; assumption.
Qed.
Lemma swap_step S L L' n0 n1 nt o : mirror_rt_solver S -> l_dim L = Rt -> no_resample o -> Par 0 L L' n0 n1 nt -> srel L L' n0 n1 nt ->
  Par 0 (fst (lstep S L o)) (fst (lstep S L' o)) n0 n1 nt /\
  srel (fst (lstep S L o)) (fst (lstep S L' o)) n0 n1 nt /\
  (~ is_write o -> snd (lstep S L' o) = snd (lstep S L o)).
Proof.
  intros HS Hd Ho HP HR. pose proof HP as [P1 P2 P3 P4 P5 P6 P7]. assert (Hd' : l_dim L' = Rt) by congruence.
  destruct o as [dist nr ng b|e|v kd|w]; cbn [mirror_op].
  - destruct (absorb_par _ L L' n0 n1 nt nr HP) as (Q1 & Q2). rewrite Hd in Q1, Q2. rewrite Hd' in Q2.
    destruct (absorb_code Rt nr n0 n1) as [[]|e] eqn:Ecode.
    + assert (Hform : forall K, l_dim K = Rt -> Inv K n0 n1 nt -> exists g1 s1, lstep S K (OpPropagate dist nr ng b) =
          (set_grid (set_prop K (Some (used_prop K b))) (shift_domain g1 dist), Ok tt) /\
          sread g1 = Ok (apply_phase (l_omega K) (p_omega0 (l_prof K)) dist (stepped S (used_prop K b) s1 dist)) /\
          forall s, sread (l_grid K) = Ok s -> forall i j k, (i < n0)%nat -> (j < n1)%nat -> (k < nt)%nat ->
            at3 s1 i j k = Cmult (absorb_fac Rt nr n0 n1 i j) (at3 s i j k)).
      { intros K HK K2. pose proof (i_coh _ _ _ _ K2) as HG.
        destruct (proj1 (tread_sread_iff _ (proj1 HG)) (i_read _ _ _ _ K2)) as (s & Hs).
        destruct (absorb_form Rt nr _ n0 n1 nt s HG (gs_shape _ _ _ _ _ (i_shape _ _ _ _ K2)) Hs) as (C1 & C2).
        rewrite Ecode in C1, C2. destruct (C2 eq_refl) as (s1 & Hs1 & Hat).
        destruct (propagate_plain S K n0 n1 nt dist nr ng b s1 K2) as (g1 & E1 & _ & _ & E4 & _).
        - right. cbn in Ho. destruct ng; [contradiction|reflexivity].
        - rewrite HK; exact C1.
        - rewrite HK; exact Hs1.
        - exists g1, s1. split; [exact E1|]. split; [exact E4|]. intros s0 Hs0. rewrite Hs in Hs0. injection Hs0 as <-. exact Hat. }
      destruct (Hform L Hd P1) as (gL & sL & EL & Hsp & Hat). destruct (Hform L' Hd' P2) as (gL' & sL' & EL' & Hsp' & Hat').
      assert (Hout : snd (lstep S L' (OpPropagate dist nr ng b)) = snd (lstep S L (OpPropagate dist nr ng b))) by (rewrite EL, EL'; reflexivity).
      split; [|split; [|intros _; exact Hout]].
      * apply Par_plain; try assumption; [right; exact Ho | intros _; exact Hout|]. rewrite EL, EL'. cbn [fst l_prop set_grid set_prop].
        rewrite (Par_used _ _ _ _ _ _ b HP). reflexivity.
      * intros s s' Hs Hs' i j k Hi Hj Hk. rewrite EL in Hs. rewrite EL' in Hs'. cbn [fst l_grid set_grid] in Hs, Hs'.
        rewrite sread_shift, Hsp in Hs. rewrite sread_shift, Hsp' in Hs'. injection Hs as <-. injection Hs' as <-. cbn [apply_phase at3].
        rewrite P4, P5. f_equal. rewrite (Par_used _ _ _ _ _ _ b HP).
        destruct (used_is_fresh L n0 n1 nt b P1) as (b' & Hb'). rewrite Hb'. unfold stepped, fresh_prop. rewrite Hd. cbn [at3].
        pose proof (i_shape _ _ _ _ P1) as GS. destruct (gs_rt _ _ _ _ _ GS Hd) as (M & M1 & Mn & Mm & _ & _ & Ml). rewrite Mm.
        assert (Hmode : forall q, (q < n0)%nat -> nth_error (build_rt (nth 0 (g_axes (l_grid L)) []) (l_omega L) None (azimuthal_modes (Z.of_nat M)) b') q =
          Some (mkRtProp (nth 0 (g_axes (l_grid L)) []) (map (fun w => w / c_light) (l_omega L)) None (slot_mode M q) b')).
        { intros q Hq. unfold build_rt. destruct (slot_mode_ok M q ltac:(lia)) as (Hm1 & Hm2).
          rewrite <- Hm2 at 1. rewrite nth_error_map, (proj1 (azimuthal_modes_slot M _ M1 Hm1)). reflexivity. }
        unfold step_mode. rewrite (Hmode i Hi), (Hmode (opposite n0 i) (opp_lt _ _ Hi)).
        assert (Em : slot_mode M i = (- slot_mode M (opposite n0 i))%Z).
        { unfold slot_mode, opposite. subst n0. destruct (Nat.eqb_spec i 0) as [->|Hi0]; [destruct (Nat.ltb_spec 0 M); lia|].
          destruct (Nat.ltb_spec i M), (Nat.ltb_spec (2 * M - 1 - i) M); lia. }
        rewrite Em. set (pp := mkRtProp _ _ None (slot_mode M (opposite n0 i)) b').
        change (mkRtProp _ _ None (- slot_mode M (opposite n0 i)) b') with (opposite_prop pp).
        apply HS; [reflexivity| |cbn; rewrite map_length, (i_omega _ _ _ _ P1); exact Hk|cbn; rewrite Ml; exact Hj].
        intros kk jj Hkk Hjj. cbn in Hkk, Hjj. rewrite map_length, (i_omega _ _ _ _ P1) in Hkk. rewrite Ml in Hjj.
        destruct (Inv_reads _ _ _ _ P1) as (_ & s0 & _ & _ & Hs0 & _). destruct (Inv_reads _ _ _ _ P2) as (_ & s0' & _ & _ & Hs0' & _).
        rewrite (Hat s0 Hs0) by (assumption || apply opp_lt; assumption). rewrite (Hat' s0' Hs0') by assumption.
        rewrite (HR s0 s0' Hs0 Hs0') by assumption. reflexivity.
    + rewrite <- Hd in Q1. rewrite <- Hd' in Q2.
      destruct (propagate_absorb_fail S L dist nr ng b e (i_coh _ _ _ _ P1) Q1) as (g & Eg & _ & _ & _ & Hsg).
      destruct (propagate_absorb_fail S L' dist nr ng b e (i_coh _ _ _ _ P2) Q2) as (g' & Eg' & _ & _ & _ & Hsg').
      assert (Hout : snd (lstep S L' (OpPropagate dist nr ng b)) = snd (lstep S L (OpPropagate dist nr ng b))) by (cbn [lstep]; rewrite Eg, Eg'; reflexivity).
      split; [|split; [|intros _; exact Hout]].
      * apply Par_plain; try assumption; [right; exact Ho | intros _; exact Hout|]. cbn [lstep]. rewrite Eg, Eg'. cbn [fst l_prop set_grid]. exact P6.
      * intros s s' Hs Hs'. cbn [lstep] in Hs, Hs'. rewrite Eg in Hs. rewrite Eg' in Hs'. cbn [fst l_grid set_grid] in Hs, Hs'.
        rewrite Hsg in Hs. rewrite Hsg' in Hs'. apply HR; assumption.
  - pose proof (i_coh _ _ _ _ P1) as HG. destruct (i_read _ _ _ _ P1) as (a & Ha). destruct (tread_sread_ok _ _ (proj1 HG) Ha) as (s & Hs).
    pose proof (i_coh _ _ _ _ P2) as HG'. destruct (i_read _ _ _ _ P2) as (a' & Ha'). destruct (tread_sread_ok _ _ (proj1 HG') Ha') as (s' & Hs').
    destruct (apply_optics_spec L e a s HG Ha Hs) as (g1 & s1 & E1 & E2 & E3 & E4 & E5 & _ & _ & E8).
    destruct (apply_optics_spec L' e a' s' HG' Ha' Hs') as (g1' & s1' & E1' & E2' & E3' & E4' & E5' & _ & _ & E8').
    cbn [lstep]. rewrite E1, E1'. cbn [fst snd]. split; [|split; [|reflexivity]].
    + apply Par_set; eauto.
    + intros t t' Ht Ht' i j k Hi Hj Hk. cbn [l_grid set_grid] in Ht, Ht'. rewrite E4 in Ht. rewrite E4' in Ht'. injection Ht as <-. injection Ht' as <-.
      rewrite E8, E8', (HR s s' Hs Hs') by assumption. f_equal. unfold optic_factor. rewrite Hd, Hd', P4, P5. unfold axis_at.
      rewrite (Par_axis _ L L' n0 n1 nt 0 HP) by (rewrite Hd; simpl; lia). reflexivity.
  - cbn [lstep]. unfold normalize. rewrite Hd, Hd'.
    destruct (Inv_reads _ _ _ _ P1) as (a & _ & Ha & _). destruct (Inv_reads _ _ _ _ P2) as (a' & _ & Ha' & _).
    pose proof P7 as P7'. rewrite (shift_0 _ _ _ _ _ (i_shape _ _ _ _ P1)) in P7'.
    destruct (norm_swap v kd (l_grid L) (l_grid L') a a' n0 n1 nt (i_coh _ _ _ _ P1) (i_coh _ _ _ _ P2) P7'
      (gs_shape _ _ _ _ _ (i_shape _ _ _ _ P1)) Ha Ha' (srel_t L L' n0 n1 nt a a' P1 P2 HR Ha Ha')) as (E & c & c' & B1 & B2 & B3).
    destruct (normalize_grid_steps Rt v kd (l_grid L) (i_coh _ _ _ _ P1)) as (N1 & N2 & _).
    destruct (normalize_grid_steps Rt v kd (l_grid L') (i_coh _ _ _ _ P2)) as (N1' & N2' & _).
    cbn [fst snd].
    assert (X : Par 0 (set_grid L (fst (normalize_grid Rt v kd (l_grid L)))) (set_grid L' (fst (normalize_grid Rt v kd (l_grid L')))) n0 n1 nt) by (apply Par_set; eauto).
    split; [exact X|]. split; [|intros _; exact E].
    apply (srel_of_t _ _ n0 n1 nt c c'); [apply (pa_inv _ _ _ _ _ _ X) | apply (pa_inv' _ _ _ _ _ _ X) | exact B1 | exact B2 | exact B3].
  - destruct (step_write S L n0 n1 nt w P1 0 L' HP) as (W1 & W2 & _). split; [exact W1|]. split; [|exact W2].
    assert (Hform : forall K, sread (l_grid (fst (lstep S K (OpWrite w)))) = sread (l_grid K)).
    { intros K. cbn [lstep]. unfold write_to_file. rewrite get_t_eq; cbn [fst snd].
      destruct (tread (l_grid K)) as [a|e]; [destruct (w _ _ _) as [u|e]|]; cbn [fst snd l_prop l_grid set_grid]; apply sread_get_t. }
    intros s s' Hs Hs'. rewrite Hform in Hs, Hs'. apply HR; assumption.
Qed.

Lemma swap_run S h : mirror_rt_solver S -> Forall no_resample h -> forall L L' n0 n1 nt, l_dim L = Rt -> Par 0 L L' n0 n1 nt -> srel L L' n0 n1 nt ->
  Par 0 (lrun S L h) (lrun S L' h) n0 n1 nt /\ srel (lrun S L h) (lrun S L' h) n0 n1 nt /\ outcomes S L' h = outcomes S L h.
Proof.
  intros HS Hh. induction Hh as [|o h Ho Hh IH]; intros L L' n0 n1 nt Hd HP HR; [cbn; auto|].
  destruct (swap_step S L L' n0 n1 nt o HS Hd Ho HP HR) as (Z1 & Z2 & Z3).
  destruct (step_plain S L n0 n1 nt o (pa_inv _ _ _ _ _ _ HP) (or_intror Ho)) as (_ & _ & Hd1 & _).
  cbn [lrun outcomes]. destruct (IH (fst (lstep S L o)) (fst (lstep S L' o)) n0 n1 nt) as (Y1 & Y2 & Y3); try assumption; [congruence|].
  split; [exact Y1|]. split; [exact Y2|]. rewrite Y3. destruct o; try reflexivity; rewrite Z3 by (intros X; exact X); reflexivity.
Qed.

(** ** From construction *)
Lemma ifft_opp N x q : (q < N)%nat -> ifft1 N (fun a => x (opposite N a)) q = ifft1 N x (opposite N q).
Proof.
  intros Hq. assert (HN : INR N <> 0) by (apply not_0_INR; lia). unfold ifft1. f_equal.
  rewrite <- (csum_opp N (fun k => Cmult (x k) (cis (2 * PI * (INR (opposite N q) * INR k) / INR N)))).
  apply csum_ext. intros a Ha. f_equal.
  destruct (neg_Z N q Hq) as (z & Hz). destruct (neg_Z N a Ha) as (z' & Hz').
  change (neg true N q) with (opposite N q) in Hz. change (neg true N a) with (opposite N a) in Hz'. rewrite Hz, Hz'.
  apply (cis_eq _ _ (z * Z.of_nat a + z' * Z.of_nat q - z * z' * Z.of_nat N)%Z).
  rewrite minus_IZR, plus_IZR, !mult_IZR, <- !INR_IZR_INZ. field. exact HN.
Qed.
Lemma init_opp g p p' (M : nat) nte n0 n1 nt : (forall x y t, p_eval p' x y t = p_eval p x (- y) t) ->
  (2 * Z.of_nat M - 1 <= match nte with None => 2 * Z.of_nat M - 1 | Some n => n end)%Z -> (1 <= M)%nat -> n0 = (2 * M - 1)%nat ->
  swapped n0 n1 nt (init_arr Rt g p (Z.of_nat M) nte) (init_arr Rt g p' (Z.of_nat M) nte).
Proof.
  intros Hp Hn HM -> i j k Hi Hj Hk. unfold init_arr. set (N := Z.to_nat _). assert (HN : (2 * M - 1 <= N)%nat) by (unfold N; lia).
  destruct (slot_mode_ok M i Hi) as (Hm & Hs). destruct (slot_mode_ok M (opposite (2 * M - 1) i) (opp_lt _ _ Hi)) as (Hm' & Hs').
  rewrite <- Hs at 1. rewrite <- Hs' at 1. rewrite !take_modes_slot by (assumption || exact HN).
  change (dim0 (np_ifft_first (sample_rt g p' N))) with N. change (dim0 (np_ifft_first (sample_rt g p N))) with N.
  assert (Em : slot_mode M i = (- slot_mode M (opposite (2 * M - 1) i))%Z).
  { unfold slot_mode, opposite. destruct (Nat.eqb_spec i 0) as [->|Hi0]; [destruct (Nat.ltb_spec 0 M); lia|].
    destruct (Nat.ltb_spec i M), (Nat.ltb_spec (2 * M - 1 - i) M); lia. }
  set (m := slot_mode M (opposite (2 * M - 1) i)) in *. rewrite Em. set (q := if Z.leb 0 (- m) then _ else _).
  assert (Hq : (q < N)%nat) by (unfold q; destruct (Z.leb_spec 0 (- m)); lia).
  replace (if Z.leb 0 m then Z.to_nat m else Z.to_nat (m + Z.of_nat N)) with (opposite N q).
  2: { unfold q, opposite. destruct (Z.leb_spec 0 (- m)), (Z.leb_spec 0 m); match goal with |- context [Nat.eqb ?a 0] => destruct (Nat.eqb_spec a 0) end; lia. }
  unfold np_ifft_first. cbn [at3]. change (dim0 (sample_rt g p' N)) with N. change (dim0 (sample_rt g p N)) with N.
  rewrite <- ifft_opp by exact Hq. apply ifft1_ext. intros a Ha. unfold sample_rt. cbn [at3]. rewrite Hp.
  assert (HN0 : INR N <> 0) by (apply not_0_INR; lia).
  destruct (neg_Z N a Ha) as (z & Hz). change (neg true N a) with (opposite N a) in Hz.
  assert (E : cis (2 * PI / INR N * INR (opposite N a)) = cis (- (2 * PI / INR N * INR a))).
  { rewrite Hz. apply (cis_eq _ _ z). field. exact HN0. }
  unfold cis in E. injection E as E1 E2. rewrite E1, E2, cos_neg, sin_neg. f_equal. ring.
Qed.

Theorem c105 S lo hi np p p' nm nte L L' h : mirror_rt_solver S ->
  p_omega0 p' = p_omega0 p -> p_energy p' = p_energy p ->
  (forall x y t, p_eval p' x y t = p_eval p x (- y) t) ->
  laser_init Rt lo hi np p nm nte = Ok L -> laser_init Rt lo hi np p' nm nte = Ok L' -> Forall no_resample h ->
  let K := lrun S L h in let K' := lrun S L' h in
  outcomes S L' h = outcomes S L h /\ g_axes (l_grid K') = g_axes (l_grid K) /\
  snd (compute_laser_energy Rt (l_grid K')) = snd (compute_laser_energy Rt (l_grid K)) /\
  exists (M : nat) n1 nt f f', nm = Z.of_nat M /\ snd (get_temporal_field (l_grid K)) = Ok f /\ shp f = [(2 * M - 1)%nat; n1; nt] /\
    snd (get_temporal_field (l_grid K')) = Ok f' /\ shp f' = [(2 * M - 1)%nat; n1; nt] /\
    forall j k, (j < n1)%nat -> (k < nt)%nat ->
      (forall m, (- Z.of_nat M < m < Z.of_nat M)%Z -> comp M f' j k m = comp M f j k (- m)) /\
      forall theta, recon M (comp M f' j k) theta = recon M (comp M f j k) (- theta).
Proof.
  intros HS Hw HE Hev H H' Hh K K'.
  destruct (laser_init_Inv _ _ _ _ _ _ _ _ H) as (g & n0 & n1 & nt & Hg & A2 & A3 & _ & _ & _ & _ & _ & A9 & HI).
  destruct (grid_init_GShape_rt _ _ _ _ _ _ Hg) as (n1'' & nt'' & _ & _ & HM & GS').
  assert (Q : [(2 * Z.to_nat nm - 1)%nat; n1''; nt''] = [n0; n1; nt]) by (rewrite <- (gs_shape _ _ _ _ _ GS'), <- (gs_shape _ _ _ _ _ A9); reflexivity).
  assert (Q0 : n0 = (2 * Z.to_nat nm - 1)%nat) by congruence. clear Q GS' n1'' nt''.
  set (M := Z.to_nat nm) in *. assert (Enm : nm = Z.of_nat M) by lia. clearbody M. subst nm.
  assert (Hn : (2 * Z.of_nat M - 1 <= match nte with None => 2 * Z.of_nat M - 1 | Some n => n end)%Z).
  { pose proof H as H0. unfold laser_init in H0. rewrite Hg in H0. cbn [bind] in H0.
    destruct (Z.ltb_spec (match nte with None => 2 * Z.of_nat M - 1 | Some n => n end) (2 * Z.of_nat M - 1)); [discriminate|lia]. }
  assert (Hdim : length lo = ndims_of Rt /\ length hi = ndims_of Rt).
  { assert (Hex : exists g, grid_init Rt lo hi np (Some (Z.of_nat M)) true = Ok g) by eauto. apply grid_init_ok_iff in Hex. tauto. }
  assert (HP : Par 0 L L' n0 n1 nt).
  { destruct lo as [|l0 lo]; [destruct Hdim; discriminate|]. destruct hi as [|h0 hi]; [destruct Hdim; discriminate|].
    pose proof H' as H2. rewrite <- (later_0 (l0 :: lo)), <- (later_0 (h0 :: hi)) in H2 by discriminate.
    pose proof (init_par _ _ _ _ _ _ _ _ _ _ _ _ _ _ H H2 Hw HI) as HP. rewrite Rmult_0_l in HP. exact HP. }
  assert (HR : srel L L' n0 n1 nt).
  { destruct (init_field_full _ _ _ _ _ _ _ _ H) as (g1 & b & G1 & G2 & G3 & G4). rewrite Hg in G1. injection G1 as <-.
    destruct (init_field_full _ _ _ _ _ _ _ _ H') as (g2 & b' & G1' & G2' & G3' & G4'). rewrite Hg in G1'. injection G1' as <-.
    pose proof (init_opp g p p' M nte n0 n1 nt Hev Hn ltac:(lia) Q0) as Hat.
    apply (srel_of_t _ _ n0 n1 nt b b' HI (pa_inv' _ _ _ _ _ _ HP) G2 G2').
    intros i j k Hi Hj Hk. rewrite G4, G4', Hat, HE by assumption. pose proof (gs_shape _ _ _ _ _ A9) as Hsh.
    rewrite (swap_energy g (init_arr Rt g p (Z.of_nat M) nte) (init_arr Rt g p' (Z.of_nat M) nte) n0 n1 nt ltac:(congruence) ltac:(congruence) Hat). reflexivity. }
  destruct (swap_run S h HS Hh L L' n0 n1 nt A3 HP HR) as (R1 & R2 & R3). fold K K' in R1, R2.
  split; [exact R3|]. split; [exact (Par0_axes _ _ _ _ _ R1)|].
  destruct (Inv_reads _ _ _ _ (pa_inv _ _ _ _ _ _ R1)) as (f & s & F1 & F2 & _).
  destruct (Inv_reads _ _ _ _ (pa_inv' _ _ _ _ _ _ R1)) as (f' & s' & F1' & F2' & _).
  pose proof (srel_t _ _ n0 n1 nt f f' (pa_inv _ _ _ _ _ _ R1) (pa_inv' _ _ _ _ _ _ R1) R2 F1 F1') as Hf.
  split.
  - destruct (compute_energy_eq Rt _ f F1) as (-> & _). destruct (compute_energy_eq Rt _ f' F1') as (-> & _). f_equal.
    pose proof (pa_meta _ _ _ _ _ _ R1) as HM'. rewrite (shift_0 _ _ _ _ _ (i_shape _ _ _ _ (pa_inv _ _ _ _ _ _ R1))) in HM'.
    rewrite (energy_of_meta Rt _ _ _ HM'). apply (swap_energy _ f f' n0 n1 nt F2 F2' Hf).
  - subst n0. exists M, n1, nt, f, f'. split; [reflexivity|]. split; [exact F1|]. split; [exact F2|]. split; [exact F1'|]. split; [exact F2'|].
    intros j k Hj Hk.
    assert (Hc : forall m, (- Z.of_nat M < m < Z.of_nat M)%Z -> comp M f' j k m = comp M f j k (- m)).
    { intros m Hm. unfold comp. rewrite Hf by (assumption || (unfold mode_slot; destruct (Z.leb_spec 0 m); lia)). f_equal.
      unfold opposite, mode_slot. destruct (Z.leb_spec 0 m), (Z.leb_spec 0 (- m)); match goal with |- context [Nat.eqb ?a 0] => destruct (Nat.eqb_spec a 0) end; lia. }
    split; [exact Hc|]. intros theta. unfold recon.
    match goal with |- _ = csum _ ?F => rewrite <- (csum_rev (2 * M - 1) F) end.
    apply csum_ext. intros q Hq. cbv zeta. rewrite Hc by lia.
    replace (Z.of_nat (2 * M - 1 - 1 - q) - (Z.of_nat M - 1))%Z with (- (Z.of_nat q - (Z.of_nat M - 1)))%Z by lia. rewrite opp_IZR. f_equal. f_equal. ring.
Qed.
