(** Concrete lasers used to show that the hypotheses of the property theorems can be met. *)
From Verif Require Import PyBase CSum NpFFT FFTProofs NumPy GridModel GridSpec GridProofs LaserSpec GridObs
  EnergyModel EnergyProofs AngularProofs LaserModel OpticsModel LaserOps LaserInv LaserInitProofs LaserStepProofs
  PropagateProofs HistoryProofs OpticsProofs OpticsProofs2.
Open Scope R_scope.

Lemma rt_construct_ok lo hi np n1 nt p (M : nat) nte :
  length lo = 2%nat -> length hi = 2%nat -> nth_error np 0 = Some n1 -> nth_error np 1 = Some nt ->
  (2 <= n1)%nat -> (2 <= nt)%nat -> (1 <= M)%nat ->
  0 <= nth 0 lo 0 -> nth 0 lo 0 < nth 0 hi 0 -> nth 1 lo 0 < nth 1 hi 0 ->
  energy_request_ok (p_energy p) ->
  (2 * Z.of_nat M - 1 <= match nte with None => 2 * Z.of_nat M - 1 | Some n => n end)%Z ->
  exists L, laser_init Rt lo hi np p (Z.of_nat M) nte = Ok L.
Proof.
  intros Hlo Hhi N1 N2 G1 G2 HM B0 B1 B2 HE Hnte.
  assert (Hex : exists g, grid_init Rt lo hi np (Some (Z.of_nat M)) true = Ok g).
  { apply grid_init_ok_iff. conj; try assumption; try discriminate.
    - intros q Hq. destruct q as [|[|q]]; simpl in Hq; try lia; eauto.
    - intros _. exists (Z.of_nat M). split; [reflexivity|lia]. }
  destruct Hex as (g & Hg).
  rewrite laser_init_split.
  destruct (grid_init_GShape_rt _ _ _ _ _ _ Hg) as (n1' & nt' & N1' & N2' & _ & GS).
  rewrite N1 in N1'; injection N1' as <-. rewrite N2 in N2'; injection N2' as <-. rewrite Nat2Z.id in GS.
  pose proof (grid_init_CohG _ _ _ _ _ _ Hg) as HG.
  assert (Hok : exists L0, laser_init Rt lo hi np (no_energy p) (Z.of_nat M) nte = Ok L0).
  { unfold laser_init. rewrite Hg. cbn [bind]. rewrite samples_no_energy_rt.
    set (n := match nte with None => _ | Some n => n end) in *.
    destruct (Z.ltb_spec n (2 * Z.of_nat M - 1)); [lia|].
    destruct (set_t_ok g (take_modes (np_ifft_first (sample_rt g p (Z.to_nat n))) (Z.of_nat M)) (proj1 HG)) as (Hr & _).
    - rewrite take_modes_shape; [|lia|unfold dim0; cbn [shp np_ifft_first sample_rt nth]; lia].
      destruct GS as [Gs _ _ _ Ga _ Gt Gr _]. rewrite Gs.
      destruct (Gr eq_refl) as (M' & HM' & _ & _ & _ & _ & La).
      unfold dim1, dim2; cbn [shp np_ifft_first sample_rt nth].
      rewrite La. unfold time_axis in Gt. rewrite last_nth, Ga in Gt. change (ndims_of Rt - 1)%nat with 1%nat in Gt.
      rewrite Gt. f_equal. lia.
    - reflexivity.
    - rewrite Hr. eexists; reflexivity. }
  destruct Hok as (L0 & E0). rewrite E0; cbn [bind].
  destruct (laser_init_rt_raw _ _ _ _ _ _ _ E0) as
    (g1 & n1' & nt' & N & Hg' & _ & _ & _ & GS' & HG0 & HMt & Ht & D1 & _).
  rewrite Hg in Hg'; injection Hg' as <-.
  set (L1 := mkLaser (l_dim L0) (l_grid L0) p (l_iter L0) (l_omega L0) (l_prop L0)) in *.
  destruct (init_normalize_spec L1 _ HG0 Ht) as (g' & s & b & Hi & _).
  { unfold L1 at 1; cbn [l_prof]. destruct (p_energy p) as [[E|]|]; try exact I.
    unfold L1; cbn [l_dim l_grid]. rewrite D1.
    assert (Hs : shp (take_modes (np_ifft_first (sample_rt g p N)) (Z.of_nat M)) = [(2 * M - 1)%nat; n1; nt]).
    { pose proof (proj1 (tread_shape _ _ (proj1 HG0) Ht)) as Hsh. rewrite Hsh.
      destruct HMt as (_ & _ & _ & _ & _ & _ & _ & Hshp & _). rewrite Hshp. apply (gs_shape _ _ _ _ _ GS). }
    rewrite (energy_of_rt _ _ _ _ _ _ _ _ _ _ Hg N1 N2 HMt Hs).
    destruct (E_rt_nonneg lo hi (2 * M - 1) n1 nt
       (at3 (take_modes (np_ifft_first (sample_rt g p N)) (Z.of_nat M))) G1 G2 B0 B1 B2) as [Hn|Hn];
      [right; split; [exact Hn|exact HE]|left; auto]. }
  rewrite Hi. eauto.
Qed.

(** A transversally structured, chirped pulse; complex, never zero; requested energy 3 J. *)
Definition ex_prof (req : option (option R)) : profile :=
  mkProfile (2 * PI * c_light) 1 (RtoC 1, RtoC 0) req Complex128
    (fun x y t => Cmult (RtoC (exp (- (x ^ 2 + 2 * y ^ 2 + t ^ 2)))) (cis (x + t ^ 2))).
(** A pure m = 1 vortex r exp(-i theta), no requested energy. *)
Definition ex_vortex : profile :=
  mkProfile (2 * PI * c_light) 1 (RtoC 1, RtoC 0) None Complex128 (fun x y t => (x, - y)).

Lemma ex_xyt req : energy_request_ok req ->
  exists L, laser_init Xyt [-1;-2;-3] [1;2;4] [4;3;5]%nat (ex_prof req) 1 None = Ok L.
Proof. intros H. apply xyt_construct_ok; simpl; try lia; try lra; try reflexivity; assumption. Qed.
Lemma ex_rt p nte : energy_request_ok (p_energy p) ->
  (3 <= match nte with None => 3 | Some n => n end)%Z ->
  exists L, laser_init Rt [0;-3] [2;4] [4;5]%nat p 2 nte = Ok L.
Proof.
  intros H Hn. apply (rt_construct_ok _ _ _ 4 5 p 2); simpl; try lia; try lra; try reflexivity; try assumption.
Qed.

Lemma vortex_content r t theta :
  p_eval ex_vortex (r * cos theta) (r * sin theta) t =
  recon 2 (fun m => if Z.eqb m 1 then RtoC r else RtoC 0) theta.
Proof.
  unfold ex_vortex, recon; cbn [p_eval]. cbn [csum Nat.mul Nat.sub Nat.add]. cbn.
  unfold cis, Cplus, Cmult, RtoC; cbn [fst snd]. f_equal.
  - replace (1 * theta) with theta by ring. rewrite (cos_neg theta). ring.
  - replace (1 * theta) with theta by ring. rewrite (sin_neg theta). ring.
Qed.

Lemma reachable_init S d lo hi np p nm nte L0 h :
  laser_init d lo hi np p nm nte = Ok L0 -> Forall user_op h -> Forall no_resample h ->
  reachable S (lrun S L0 h).
Proof.
  intros Hi Hu Hn. exists d, lo, hi, np, p, nm, nte, L0, h. conj; try assumption; [|reflexivity].
  clear Hi Hu. revert L0; induction Hn as [|o h Ho Hn IH]; intros L0; simpl; auto.
Qed.

Lemma ex_prof_neq0 req x y t : p_eval (ex_prof req) x y t <> RtoC 0.
Proof.
  intros H. apply (f_equal Cmod) in H. cbn [ex_prof p_eval] in H. rewrite Cmod_mult, Cmod_cis, Cmod_0, Cmod_R in H.
  pose proof (exp_pos (- (x ^ 2 + 2 * y ^ 2 + t ^ 2))). rewrite Rabs_pos_eq in H; lra.
Qed.

Lemma ex_xyt_energy : exists L e a, laser_init Xyt [-1;-2;-3] [1;2;4] [4;3;5]%nat (ex_prof None) 1 None = Ok L /\
  snd (compute_laser_energy (l_dim L) (l_grid L)) = Ok e /\ 0 < e /\
  snd (get_temporal_field (l_grid L)) = Ok a /\ some_nonzero a.
Proof.
  destruct (ex_xyt None I) as (L & HL). exists L.
  destruct (xyt_samples _ _ _ _ _ _ _ _ _ HL) as (a & s & H1 & H2 & H3 & H4 & H5); simpl nth; try lra; [exact I|].
  simpl in H5. subst s.
  destruct (c13_xyt id_solvers _ _ _ _ _ _ _ _ L [] a HL H1) as (E & _). cbn [lrun] in E.
  destruct (laser_init_Inv _ _ _ _ _ _ _ _ HL) as (_ & _ & _ & _ & _ & _ & D1 & _).
  assert (N0 : at3 a 0 0 0 <> RtoC 0).
  { rewrite H4 by lia. rewrite Cmult_1_l. apply ex_prof_neq0. }
  eexists. exists a. split; [exact HL|]. rewrite D1. split; [exact E|].
  conj; [|exact H1|exists 0%nat, 0%nat, 0%nat; split; [unfold inb, dim0, dim1, dim2; rewrite H2; simpl; lia|exact N0]].
  match goal with |- 0 < ?e => assert (Hn : 0 <= e) end.
  { apply E_xyt_nonneg; simpl; lia || lra. }
  destruct Hn as [Hn|Hn]; [exact Hn|]. exfalso. symmetry in Hn. 
  rewrite E_xyt_zero in Hn; simpl; try lia; try lra. apply N0. apply Hn; lia.
Qed.

Lemma run_volumes_nonneg S d lo hi np p nm nte L0 h :
  laser_init d lo hi np p nm nte = Ok L0 -> (d = Xyt \/ Forall no_resample h) ->
  (forall q, (q < ndims_of d)%nat -> nth q lo 0 < nth q hi 0) -> (d = Rt -> 0 <= nth 0 lo 0) ->
  forall j, 0 <= cell_volume (l_dim (lrun S L0 h)) (l_grid (lrun S L0 h)) j.
Proof.
  intros Hi Hh Hw Hr j.
  destruct (laser_init_Inv _ _ _ _ _ _ _ _ Hi) as (g & n0 & n1 & nt & Hg & Hm & D1 & D2 & D3 & D4 & D5 & Hn' & GS & HI).
  assert (Hh' : l_dim L0 = Xyt \/ Forall no_resample h) by (rewrite D1; exact Hh).
  destruct (history_plain S L0 n0 n1 nt h HI Hh') as (HR & HM & R1 & _).
  rewrite R1, D1. assert (Hd : d = Rt \/ d = Xyt) by (rewrite <- D1; apply (i_dim _ _ _ _ HI)).
  destruct (window_plain S d lo hi np p nm nte L0 h Hi Hh) as (nt' & N' & La & _ & _ & _ & _ & Hdt & Hax).
  assert (Hex : exists g, grid_init d lo hi np (Some nm) true = Ok g) by eauto.
  apply grid_init_ok_iff in Hex. destruct Hex as (_ & _ & _ & Hnn & _).
  pose proof c_light_pos as Pc. pose proof PI_RGT_0 as Pp.
  pose proof (gs_dx _ _ _ _ _ (i_shape _ _ _ _ HR)) as Ldx. rewrite R1, D1 in Ldx.
  assert (Pt : 0 < lastR (g_dx (l_grid (lrun S L0 h)))).
  { unfold lastR. rewrite last_nth, Ldx, Hdt. destruct (Hnn (ndims_of d - 1)%nat) as (n & Q & G); [destruct Hd as [-> | ->]; simpl; lia|].
    rewrite N' in Q; injection Q as <-. apply spacing_pos; [exact G|apply Hw; destruct Hd as [-> | ->]; simpl; lia]. }
  assert (Px : forall a, (a < ndims_of d - 1)%nat -> 0 < nth a (g_dx (l_grid (lrun S L0 h))) 0).
  { intros a Ha. destruct (Hax a Ha) as (n & Q & _ & _ & E & _). rewrite E.
    destruct (Hnn a) as (n' & Q' & G); [lia|]. rewrite Q in Q'; injection Q' as <-. apply spacing_pos; [exact G|apply Hw; lia]. }
  unfold cell_volume. destruct Hd as [-> | ->]; simpl ndims_of in *.
  - rewrite cell_volume_rt_eq. pose proof (Px 0%nat ltac:(lia)) as P0. unfold vget.
    assert (Pr : 0 <= nth j (nth 0 (g_axes (l_grid (lrun S L0 h))) []) 0).
    { destruct (Hax 0%nat) as (n & Q & _ & _ & _ & Ln & E); [lia|].
      destruct (Nat.lt_ge_cases j n) as [Hj|Hj].
      - specialize (E j Hj). unfold axis_at, vget in E. rewrite E.
        destruct (Hnn 0%nat) as (n' & Q' & G); [lia|]. rewrite Q in Q'; injection Q' as <-.
        apply coord_nonneg; [exact G|apply Hr; reflexivity|]. apply Rlt_le, Hw. lia.
      - rewrite nth_overflow by lia. lra. }
    generalize dependent (nth j (nth 0 (g_axes (l_grid (lrun S L0 h))) []) 0). intros r Pr.
    generalize dependent (nth 0 (g_dx (l_grid (lrun S L0 h))) 0). intros dr P0.
    generalize dependent (lastR (g_dx (l_grid (lrun S L0 h)))). intros dt Pt.
    clear - Pc Pp Pr P0 Pt. generalize dependent PI. intros pi Pp.
    repeat apply Rmult_le_pos; lra.
  - unfold cell_volume_xyt, vget. pose proof (Px 0%nat ltac:(lia)) as P0. pose proof (Px 1%nat ltac:(lia)) as P1.
    generalize dependent (nth 0 (g_dx (l_grid (lrun S L0 h))) 0). intros dx P0.
    generalize dependent (nth 1 (g_dx (l_grid (lrun S L0 h))) 0). intros dy P1.
    generalize dependent (lastR (g_dx (l_grid (lrun S L0 h)))). intros dt Pt.
    repeat apply Rmult_le_pos; lra.
Qed.

Lemma element_phases x y w w0 :
  (forall f, parabolic_mirror f x y w w0 = cexp (0, - (w * (x ^ 2 + y ^ 2) / (2 * c_light * f)))) /\
  (forall ga, axicon ga x y w w0 = cexp (0, - (2 * w / c_light * sqrt (x ^ 2 + y ^ 2) * tan (ga / 2)))) /\
  (forall gdd tod fod, polynomial_spectral_phase gdd tod fod x y w w0 =
     cexp (0, gdd / 2 * (w - w0) ^ 2 + tod / 6 * (w - w0) ^ 3 + fod / 24 * (w - w0) ^ 4)) /\
  (forall f0 de Rad, 0 <= Rad -> sqrt (x ^ 2 + y ^ 2) <= Rad -> axiparabola f0 de Rad x y w w0 =
     let r := sqrt (x ^ 2 + y ^ 2) in
     cexp (0, - (2 * w / c_light * (r ^ 2 / (4 * f0) - de / (8 * f0 ^ 2 * Rad ^ 2) * r ^ 4
        + de * (Rad ^ 2 + 8 * f0 * de) / (96 * f0 ^ 4 * Rad ^ 4) * r ^ 6)))).
Proof.
  assert (HP : 0 <= x ^ 2 + y ^ 2) by nra.
  conj; intros.
  - rewrite cexp_imag. reflexivity.
  - rewrite cexp_imag. unfold axicon. f_equal. replace (/ 2 * ga) with (ga / 2) by field. unfold Rdiv. ring.
  - rewrite cexp_imag. reflexivity.
  - cbn zeta. rewrite cexp_imag. unfold axiparabola.
    assert (Hq : sqrt (x ^ 2 + y ^ 2) ^ 2 = x ^ 2 + y ^ 2).
    { change (sqrt (x ^ 2 + y ^ 2) ^ 2) with (sqrt (x ^ 2 + y ^ 2) * (sqrt (x ^ 2 + y ^ 2) * 1)).
      rewrite Rmult_1_r. apply sqrt_sqrt, HP. }
    assert (x ^ 2 + y ^ 2 <= Rad ^ 2) by (rewrite <- Hq; pose proof (sqrt_pos (x ^ 2 + y ^ 2)); nra).
    destruct (Rltb (Rad ^ 2) (x ^ 2 + y ^ 2)) eqn:E; [apply Rltb_true in E; lra|].
    f_equal. unfold axiparabola_sag.
    replace (sqrt (x ^ 2 + y ^ 2) ^ 4) with ((sqrt (x ^ 2 + y ^ 2) ^ 2) ^ 2) by ring.
    replace (sqrt (x ^ 2 + y ^ 2) ^ 6) with ((sqrt (x ^ 2 + y ^ 2) ^ 2) ^ 3) by ring.
    rewrite Hq. unfold Rdiv. ring.
Qed.

Lemma ex_travelled L : laser_init Rt [0;-3] [2;4] [4;5]%nat ex_vortex 2 None = Ok L ->
  travelled id_solvers L [OpPropagate 7 None None 0%nat; OpNormalize (Some 1) KOther; OpPropagate 2 None None 0%nat] = 9.
Proof.
  intros HL. destruct (laser_init_Inv _ _ _ _ _ _ _ _ HL) as (g & n0 & n1 & nt & _ & _ & D1 & _ & _ & _ & _ & _ & _ & HI).
  assert (Hp : forall L d, Inv L n0 n1 nt -> snd (propagate id_solvers L d None None 0%nat) = Ok tt).
  { intros L' d HI'. destruct (i_read _ _ _ _ HI') as (a & Ha).
    destruct (tread_sread_ok _ _ (proj1 (i_coh _ _ _ _ HI')) Ha) as (s & Hs).
    destruct (propagate_plain id_solvers L' n0 n1 nt d None None 0%nat s HI' (or_intror eq_refl) eq_refl Hs) as (g1 & E & _).
    rewrite E. reflexivity. }
  cbn [travelled lstep]. rewrite (Hp L 7 HI). cbn [normalize normalize_grid fst snd].
  destruct (step_plain id_solvers L n0 n1 nt (OpPropagate 7 None None 0%nat) HI) as (HI1 & _); [right; exact I|].
  cbn [lstep] in HI1.
  destruct (step_plain id_solvers _ n0 n1 nt (OpNormalize (Some 1) KOther) HI1) as (HI2 & _); [right; exact I|].
  cbn [lstep normalize normalize_grid fst] in HI2. rewrite (Hp _ 2 HI2). lra.
Qed.
