(** Lasers do not interfere (C84). *)
From Verif Require Import PyBase NpFFT NumPy GridModel GridSpec GridProofs GridObs EnergyModel LaserModel LaserOps WorldModel WorldSpec.
Open Scope R_scope.

Lemma upd_same {A} (f : nat -> A) a v : upd f a v a = v.
Proof. unfold upd. rewrite Nat.eqb_refl. reflexivity. Qed.
Lemma upd_other {A} (f : nat -> A) a v b : b <> a -> upd f a v b = f b.
Proof. intros H. unfold upd. destruct (Nat.eqb_spec b a); [tauto|reflexivity]. Qed.
Lemma put_last_same {A} (l : list A) d : put_last l (last l d) = l.
Proof. destruct l as [|x l]; [reflexivity|]. unfold put_last. symmetry. apply app_removelast_last. discriminate. Qed.
Lemma grid_eta v ax : ax = g_axes v -> with_domain v (g_lo v) (g_hi v) ax = v.
Proof. intros ->. destruct v. reflexivity. Qed.
Lemma at_store w g v : grid_at (store_grid w g v) g = v.
Proof. unfold grid_at, store_grid; cbn [w_gr w_ax w_ta]. rewrite !upd_same. apply grid_eta. apply put_last_same. Qed.
Lemma at_store_other w g v g' : g' <> g -> w_ta w g' <> w_ta w g -> grid_at (store_grid w g v) g' = grid_at w g'.
Proof. intros H1 H2. unfold grid_at, store_grid; cbn [w_gr w_ax w_ta]. rewrite !upd_other by assumption. reflexivity. Qed.

(** Distinct lasers have distinct grids and distinct time-axis arrays. *)
Record WInv (w : world) : Prop := {
  wi_lg : forall l, (l < w_nl w)%nat -> (w_lg w l < w_ng w)%nat;
  wi_ta : forall g, (g < w_ng w)%nat -> (w_ta w g < w_na w)%nat;
  wi_sep : forall l l', (l < w_nl w)%nat -> (l' < w_nl w)%nat -> l <> l' ->
     w_lg w l <> w_lg w l' /\ w_ta w (w_lg w l) <> w_ta w (w_lg w l') }.
Lemma WInv_empty : WInv empty_world.
Proof. constructor; cbn; intros; lia. Qed.
Lemma WInv_same w w' : w_lg w' = w_lg w -> w_ta w' = w_ta w -> w_na w' = w_na w -> w_ng w' = w_ng w -> w_nl w' = w_nl w -> WInv w -> WInv w'.
Proof. intros H1 H2 H3 H4 H5 [A B C]. constructor; rewrite H1 || rewrite H2; rewrite ?H1, ?H2, ?H3, ?H4, ?H5; assumption. Qed.
Lemma WInv_store_grid w g v : WInv w -> WInv (store_grid w g v).
Proof. apply WInv_same; reflexivity. Qed.
Lemma WInv_store_fields w g v : WInv w -> WInv (store_fields w g v).
Proof. apply WInv_same; reflexivity. Qed.
Lemma WInv_add_grid w v : WInv w -> WInv (add_grid w v).
Proof.
  intros [A B C]. constructor; cbn [add_grid w_lg w_ta w_na w_ng w_nl].
  - intros l H. specialize (A l H). lia.
  - intros g H. unfold upd. destruct (Nat.eqb_spec g (w_ng w)); [lia|]. specialize (B g ltac:(lia)). lia.
  - intros l l' H H' N. destruct (C l l' H H' N) as (C1 & C2). split; [exact C1|].
    pose proof (A l H). pose proof (A l' H'). rewrite !upd_other by lia. exact C2.
Qed.
Lemma WInv_add_laser w L : WInv w -> WInv (add_laser w L).
Proof.
  intros HI. pose proof (WInv_add_grid w (l_grid L) HI) as [A B C]. destruct HI as [A0 B0 C0].
  constructor; cbn [add_laser w_lg w_ta w_na w_ng w_nl] in *.
  - intros l H. unfold upd. destruct (Nat.eqb_spec l (w_nl w)); [cbn; lia|]. specialize (A l ltac:(cbn; lia)). exact A.
  - exact B.
  - assert (X : forall l, (l < w_nl w)%nat -> w_lg w l <> w_ng w /\ w_ta w (w_lg w l) <> w_na w).
    { intros l H. pose proof (A0 l H) as H1. pose proof (B0 _ H1). lia. }
    cbn [add_grid w_lg w_ta]. intros l l' H H' N.
    destruct (Nat.eq_dec l (w_nl w)) as [->|E]; destruct (Nat.eq_dec l' (w_nl w)) as [->|E']; [lia| | |].
    + destruct (X l' ltac:(lia)) as (X1 & X2). rewrite upd_same, (upd_other _ _ _ l') by lia. rewrite upd_same, upd_other by assumption. split; apply not_eq_sym; assumption.
    + destruct (X l ltac:(lia)) as (X1 & X2). rewrite upd_same, (upd_other _ _ _ l) by lia. rewrite upd_same, upd_other by assumption. split; assumption.
    + rewrite (upd_other _ _ _ l), (upd_other _ _ _ l') by lia. destruct (X l ltac:(lia)) as (X1 & X2). destruct (X l' ltac:(lia)) as (X1' & X2').
      rewrite !upd_other by assumption. apply C0; lia.
Qed.
Lemma WInv_call S w l o : WInv w -> WInv (fst (call_laser S w l o)).
Proof.
  intros HI. unfold call_laser; cbn [fst]. apply (WInv_same w); try reflexivity; [|exact HI].
  unfold store_laser; cbn [w_lg store_grid].
  assert (E : forall b, upd (w_lg w) l (w_lg w l) b = w_lg w b) by (intros b; unfold upd; destruct (Nat.eqb_spec b l); congruence).
  apply FunctionalExtensionality.functional_extensionality. exact E.
Qed.
Lemma WInv_move w l g : WInv w -> (l < w_nl w)%nat -> (g < w_ng w)%nat -> (forall l', (l' < w_nl w)%nat -> l' <> l -> w_lg w l' <> g) ->
  forall w', w_lg w' = upd (w_lg w) l g -> w_ta w' = upd (w_ta w) g (w_ta w (w_lg w l)) ->
  w_na w' = w_na w -> w_ng w' = w_ng w -> w_nl w' = w_nl w -> WInv w'.
Proof.
  intros [A B C] Hl Hg Hfree w' E1 E2 E3 E4 E5. constructor; rewrite ?E1, ?E2, ?E3, ?E4, ?E5.
  - intros k Hk. unfold upd. destruct (Nat.eqb_spec k l); [exact Hg|apply A, Hk].
  - intros k Hk. unfold upd. destruct (Nat.eqb_spec k g); [apply B, A, Hl|apply B, Hk].
  - assert (X : forall k, (k < w_nl w)%nat -> k <> l -> w_lg w k <> g /\ w_ta w (w_lg w k) <> w_ta w (w_lg w l)).
    { intros k Hk N. split; [apply Hfree; assumption|]. apply C; assumption. }
    intros k k' Hk Hk' N. destruct (Nat.eq_dec k l) as [->|E]; destruct (Nat.eq_dec k' l) as [->|E']; [lia| | |].
    + destruct (X k' Hk' E') as (X1 & X2). rewrite upd_same, (upd_other _ _ _ k') by assumption. rewrite upd_same, upd_other by assumption. split; apply not_eq_sym; assumption.
    + destruct (X k Hk E) as (X1 & X2). rewrite upd_same, (upd_other _ _ _ k) by assumption. rewrite upd_same, upd_other by assumption. split; assumption.
    + destruct (X k Hk E) as (X1 & X2). destruct (X k' Hk' E') as (X1' & X2').
      rewrite (upd_other _ _ _ k), (upd_other _ _ _ k') by assumption. rewrite !upd_other by assumption. apply C; assumption.
Qed.
(** Own grid or free grid: what a resampling may be given without touching other lasers. *)
Lemma WInv_resample S w l d nr g b : WInv w -> (l < w_nl w)%nat -> (g < w_ng w)%nat -> (forall l', (l' < w_nl w)%nat -> l' <> l -> w_lg w l' <> g) ->
  WInv (fst (call_resample S w l d nr g b)).
Proof.
  intros HI Hl Hg Hfree. unfold call_resample. destruct (negb _); [exact HI|]. cbn zeta.
  destruct (snd (absorb_boundary _ _ _)) as [u|e]; [|cbn [fst]; apply WInv_store_fields, HI].
  destruct (snd (get_spectral_field _)) as [u'|e]; [|cbn [fst]; apply WInv_store_fields, WInv_store_fields, HI].
  cbn [fst]. refine (WInv_move w l g HI Hl Hg Hfree _ _ _ _ _ _); reflexivity.
Qed.
Lemma WInv_step S w o : WInv w -> free_target w o -> WInv (fst (wstep S w o)).
Proof.
  intros HI Hf. destruct o; cbn [wstep].
  - destruct (laser_init _ _ _ _ _ _ _); cbn [fst]; [apply WInv_add_laser, HI|exact HI].
  - destruct (grid_init _ _ _ _ _ _); cbn [fst]; [apply WInv_add_grid, HI|exact HI].
  - destruct (Nat.ltb _ _); cbn [fst]; [apply WInv_store_fields, HI|exact HI].
  - destruct (Nat.ltb_spec l (w_nl w)) as [Hl|]; cbn [negb]; [|exact HI].
    destruct g as [g|]; [destruct (l_dim (w_la w l))|]; try (apply WInv_call, HI).
    destruct (Nat.ltb_spec g (w_ng w)) as [Hg|]; [|exact HI]. apply WInv_resample; try assumption.
    intros l' Hl' _ E. apply (Hf l'). split; assumption.
  - destruct (Nat.ltb _ _); [apply WInv_call, HI|exact HI].
  - destruct (Nat.ltb _ _); [apply WInv_call, HI|exact HI].
  - destruct (Nat.ltb _ _); [apply WInv_call, HI|exact HI].
Qed.
Lemma WInv_run S h : forall w, WInv w -> free_targets S w h -> WInv (wrun S w h).
Proof.
  induction h as [|o h IH]; intros w HI Hf; [exact HI|]. cbn [wrun]. destruct Hf as (H1 & H2). apply IH; [|exact H2]. apply WInv_step; assumption.
Qed.

(** ** Frame *)
Lemma laser_at_ext w w' l : w_la w' l = w_la w l -> w_lg w' l = w_lg w l -> grid_at w' (w_lg w l) = grid_at w (w_lg w l) -> laser_at w' l = laser_at w l.
Proof. intros H1 H2 H3. unfold laser_at. rewrite H1, H2, H3. reflexivity. Qed.
Lemma frame_store w g v l : w_lg w l <> g -> w_ta w (w_lg w l) <> w_ta w g -> laser_at (store_grid w g v) l = laser_at w l.
Proof. intros H1 H2. apply laser_at_ext; [reflexivity|reflexivity|]. apply at_store_other; assumption. Qed.
Lemma frame_call S w l o l' : WInv w -> (l < w_nl w)%nat -> (l' < w_nl w)%nat -> l' <> l -> laser_at (fst (call_laser S w l o)) l' = laser_at w l'.
Proof.
  intros HI Hl Hl' N. destruct (wi_sep w HI l' l Hl' Hl N) as (S1 & S2). unfold call_laser; cbn [fst].
  transitivity (laser_at (store_grid w (w_lg w l) (l_grid (fst (lstep S (laser_at w l) o)))) l').
  - apply laser_at_ext; cbn [store_laser w_la w_lg]; [apply upd_other, N|apply upd_other, N|reflexivity].
  - apply frame_store; assumption.
Qed.
Lemma frame_fields w g v l : w_lg w l <> g -> laser_at (store_fields w g v) l = laser_at w l.
Proof. intros H. apply laser_at_ext; [reflexivity|reflexivity|]. unfold grid_at; cbn [store_fields w_gr w_ax w_ta]. rewrite upd_other by exact H. reflexivity. Qed.
Lemma frame_resample S w l d nr g b l' : WInv w -> (l < w_nl w)%nat -> (l' < w_nl w)%nat -> l' <> l -> w_lg w l' <> g ->
  laser_at (fst (call_resample S w l d nr g b)) l' = laser_at w l'.
Proof.
  intros HI Hl Hl' N Hg. destruct (wi_sep w HI l' l Hl' Hl N) as (S1 & S2). unfold call_resample. destruct (negb _); [reflexivity|]. cbn zeta.
  set (v1 := fst (absorb_boundary Rt nr (l_grid (laser_at w l)))).
  assert (F1 : laser_at (store_fields w (w_lg w l) v1) l' = laser_at w l') by (apply frame_fields; assumption).
  destruct (snd (absorb_boundary _ _ _)) as [u|e]; [|exact F1].
  set (v2 := fst (get_spectral_field v1)).
  assert (F2 : laser_at (store_fields (store_fields w (w_lg w l) v1) (w_lg w l) v2) l' = laser_at w l').
  { rewrite <- F1. apply frame_fields; assumption. }
  destruct (snd (get_spectral_field _)) as [u'|e]; [|exact F2]. cbn [fst]. rewrite <- F2.
  set (w2 := store_fields _ _ v2). set (q := propagate _ _ _ _ _ _).
  apply laser_at_ext; cbn [store_laser w_la w_lg]; [apply upd_other, N|apply upd_other, N|].
  unfold grid_at; cbn [store_laser w_gr w_ax w_ta]. cbn [store_grid share_axis w_gr w_ax w_ta].
  change (w_lg w2 l') with (w_lg w l') in *. change (w_ta w2) with (w_ta w). rewrite !upd_other; [reflexivity|exact Hg| |exact Hg].
  rewrite upd_same, upd_other by exact Hg. exact S2.
Qed.
Lemma c84_isolated S w o l : WInv w -> free_target w o -> (l < w_nl w)%nat -> ~ acts_on w o l ->
  laser_at (fst (wstep S w o)) l = laser_at w l.
Proof.
  intros HI Hf Hl Hn. destruct o; cbn [wstep acts_on free_target] in *.
  - destruct (laser_init _ _ _ _ _ _ _) as [L|]; [|reflexivity]. cbn [fst].
    pose proof (wi_lg w HI l Hl). pose proof (wi_ta w HI _ H).
    apply laser_at_ext; cbn [add_laser w_la w_lg add_grid]; [apply upd_other; lia|apply upd_other; lia|].
    unfold grid_at; cbn [add_laser add_grid w_gr w_ax w_ta]. rewrite !(upd_other _ (w_ng w)) by lia. rewrite upd_other by lia. reflexivity.
  - destruct (grid_init _ _ _ _ _ _) as [L|]; [|reflexivity]. cbn [fst].
    pose proof (wi_lg w HI l Hl). pose proof (wi_ta w HI _ H).
    apply laser_at_ext; cbn [w_la w_lg add_grid]; [reflexivity|reflexivity|].
    unfold grid_at; cbn [add_grid w_gr w_ax w_ta]. rewrite !(upd_other _ (w_ng w)) by lia. rewrite upd_other by lia. reflexivity.
  - destruct (Nat.ltb _ _); [|reflexivity]. cbn [fst]. apply laser_at_ext; [reflexivity|reflexivity|].
    unfold grid_at; cbn [store_fields w_gr w_ax w_ta]. rewrite upd_other by exact Hn. reflexivity.
  - destruct (Nat.ltb_spec l0 (w_nl w)) as [H0|]; cbn [negb]; [|reflexivity].
    destruct g as [g|]; [destruct (l_dim (w_la w l0))|]; try (apply frame_call; try assumption; apply not_eq_sym; assumption).
    destruct (Nat.ltb_spec g (w_ng w)) as [Hg|]; [|reflexivity]. apply frame_resample; try assumption; [apply not_eq_sym; assumption|].
    intros E. apply (Hf l). split; assumption.
  - destruct (Nat.ltb_spec l0 (w_nl w)) as [H0|]; [apply frame_call; try assumption; apply not_eq_sym; assumption|reflexivity].
  - destruct (Nat.ltb_spec l0 (w_nl w)) as [H0|]; [apply frame_call; try assumption; apply not_eq_sym; assumption|reflexivity].
  - destruct (Nat.ltb_spec l0 (w_nl w)) as [H0|]; [apply frame_call; try assumption; apply not_eq_sym; assumption|reflexivity].
Qed.

(** ** A call acts on its own laser as in the by-value model *)
Lemma laser_at_stored l L g w' : w_la w' l = L -> w_lg w' l = g -> grid_at w' g = l_grid L -> laser_at w' l = L.
Proof. intros H1 H2 H3. unfold laser_at. rewrite H1, H2, H3. destruct L. reflexivity. Qed.
Lemma call_value S w l o : laser_at (fst (call_laser S w l o)) l = fst (lstep S (laser_at w l) o) /\ snd (call_laser S w l o) = snd (lstep S (laser_at w l) o).
Proof.
  split; [|reflexivity]. unfold call_laser; cbn [fst]. eapply laser_at_stored; cbn [store_laser w_la w_lg]; [apply upd_same|apply upd_same|].
  change (grid_at (store_laser ?w ?l ?L ?g) ?g') with (grid_at w g'). apply at_store.
Qed.
Lemma get_s_again g s : snd (get_spectral_field g) = Ok s -> get_spectral_field (fst (get_spectral_field g)) = (fst (get_spectral_field g), Ok s).
Proof.
  unfold get_spectral_field. destruct (negb (g_isenv g)) eqn:E; [discriminate|]. destruct (g_sv g) eqn:Sv.
  - cbn [snd fst]. intros H. rewrite E, Sv. congruence.
  - destruct (g_tv g) eqn:Tv; [|discriminate]. cbn [snd fst]. unfold temporal2spectral_fft, with_s; cbn [g_isenv g_sv g_sf]. rewrite E. intros H. congruence.
Qed.
Lemma get_s_env g : g_isenv (fst (get_spectral_field g)) = g_isenv g.
Proof. unfold get_spectral_field. destruct (negb _); [reflexivity|]. destruct (g_sv g); [reflexivity|]. destruct (g_tv g); reflexivity. Qed.
Lemma absorb_env d nr g : g_isenv (fst (absorb_boundary d nr g)) = g_isenv g.
Proof.
  unfold absorb_boundary. destruct nr as [[z|]|]; try reflexivity. destruct (Z.leb z 0); [reflexivity|].
  assert (E : g_isenv (fst (get_temporal_field g)) = g_isenv g) by (unfold get_temporal_field; destruct (g_tv g); [reflexivity|]; destruct (g_sv g); reflexivity).
  destruct (snd (get_temporal_field g)) as [f|e]; [|exact E]. destruct (absorb_field _ _ _) as [f'|e]; [|exact E].
  rewrite <- E. unfold set_temporal_field. destruct (negb _); [reflexivity|]. destruct (negb _); reflexivity.
Qed.
(** propagate with a boundary and a new grid: its first two steps, then the rest. *)
Lemma propagate_split S L d nr gn b s : l_dim L = Rt -> g_isenv (l_grid L) = true ->
  snd (absorb_boundary Rt nr (l_grid L)) = Ok tt -> snd (get_spectral_field (fst (absorb_boundary Rt nr (l_grid L)))) = Ok s ->
  propagate S (set_grid L (fst (get_spectral_field (fst (absorb_boundary Rt nr (l_grid L)))))) d None (Some gn) b = propagate S L d nr (Some gn) b.
Proof.
  intros HD He Ha Hs. set (v1 := fst (absorb_boundary Rt nr (l_grid L))) in *. set (v2 := fst (get_spectral_field v1)) in *.
  assert (E2 : g_isenv v2 = true) by (unfold v2, v1; rewrite get_s_env, absorb_env; exact He).
  unfold propagate. cbn [l_grid set_grid l_dim l_omega l_prop]. rewrite HD, He, E2. cbn [negb absorb_boundary snd fst]. rewrite Ha.
  fold v1. assert (G : get_spectral_field v2 = (v2, Ok s)) by exact (get_s_again v1 s Hs). rewrite Hs, G. cbn [snd fst]. fold v2. reflexivity.
Qed.
Lemma put_last_idem {A} (l : list A) v : put_last (put_last l v) v = put_last l v.
Proof.
  destruct l as [|x l]; [reflexivity|]. cbn [put_last]. destruct (removelast (x :: l) ++ [v]) eqn:E; [reflexivity|]. rewrite <- E.
  unfold put_last. rewrite E, <- E. rewrite removelast_last. reflexivity.
Qed.
Lemma at_fields w g v : g_axes v = g_axes (grid_at w g) -> grid_at (store_fields w g v) g = v.
Proof.
  intros H. unfold grid_at at 1; cbn [store_fields w_gr w_ax w_ta]. rewrite upd_same. apply grid_eta. rewrite H. apply put_last_idem.
Qed.
Lemma absorb_axes d nr g : g_axes (fst (absorb_boundary d nr g)) = g_axes g.
Proof.
  unfold absorb_boundary. destruct nr as [[z|]|]; try reflexivity. destruct (Z.leb z 0); [reflexivity|].
  assert (E : g_axes (fst (get_temporal_field g)) = g_axes g) by (unfold get_temporal_field; destruct (g_tv g); [reflexivity|]; destruct (g_sv g); reflexivity).
  destruct (snd (get_temporal_field g)) as [f|e]; [|exact E]. destruct (absorb_field _ _ _) as [f'|e]; [|exact E].
  rewrite <- E. unfold set_temporal_field. destruct (negb _); [reflexivity|]. destruct (negb _); reflexivity.
Qed.
Lemma get_s_axes g : g_axes (fst (get_spectral_field g)) = g_axes g.
Proof. unfold get_spectral_field. destruct (negb _); [reflexivity|]. destruct (g_sv g); [reflexivity|]. destruct (g_tv g); reflexivity. Qed.
Lemma fields_laser w l v : laser_at (store_fields w (w_lg w l) v) l = set_grid (w_la w l) (grid_at (store_fields w (w_lg w l) v) (w_lg w l)).
Proof. reflexivity. Qed.
Lemma resample_value S w l d nr g b : l_dim (w_la w l) = Rt -> g <> w_lg w l ->
  let p := propagate S (laser_at w l) d nr (Some (grid_at w g)) b in
  laser_at (fst (call_resample S w l d nr g b)) l = fst p /\ snd (call_resample S w l d nr g b) = snd p.
Proof.
  intros HD Hg p. unfold call_resample. cbn zeta. set (L := laser_at w l) in *.
  assert (HDL : l_dim L = Rt) by exact HD.
  destruct (negb (g_isenv (l_grid L))) eqn:He.
  { subst p. unfold propagate. rewrite He. split; reflexivity. }
  set (v1 := fst (absorb_boundary Rt nr (l_grid L))).
  assert (A1 : g_axes v1 = g_axes (grid_at w (w_lg w l))) by (unfold v1; rewrite absorb_axes; reflexivity).
  assert (F1 : grid_at (store_fields w (w_lg w l) v1) (w_lg w l) = v1) by (apply at_fields; exact A1).
  destruct (snd (absorb_boundary _ _ _)) as [[]|e] eqn:Ha.
  2:{ subst p. unfold propagate. rewrite He, HDL, Ha. cbn [fst snd]. split; [|reflexivity]. fold v1. rewrite fields_laser, F1. reflexivity. }
  set (w1 := store_fields w (w_lg w l) v1) in *.
  set (v2 := fst (get_spectral_field v1)).
  assert (F2 : grid_at (store_fields w1 (w_lg w l) v2) (w_lg w l) = v2) by (apply at_fields; rewrite F1; apply get_s_axes).
  destruct (snd (get_spectral_field v1)) as [s|e] eqn:Hs.
  2:{ subst p. unfold propagate. rewrite He, HDL, Ha. fold v1. rewrite Hs. cbn [fst snd]. split; [|reflexivity]. fold v2.
      change (w_lg w l) with (w_lg w1 l) at 1. rewrite fields_laser. change (w_lg w1 l) with (w_lg w l). rewrite F2. reflexivity. }
  set (w2 := store_fields w1 (w_lg w l) v2) in *.
  assert (E1 : laser_at w2 l = set_grid L v2).
  { unfold laser_at. change (w_lg w2 l) with (w_lg w l). rewrite F2. reflexivity. }
  assert (E2 : grid_at w2 g = grid_at w g).
  { unfold grid_at, w2, w1; cbn [store_fields w_gr w_ax w_ta]. rewrite !upd_other by exact Hg. reflexivity. }
  assert (E3 : propagate S (laser_at w2 l) d None (Some (grid_at w2 g)) b = p).
  { rewrite E1, E2. unfold p. apply negb_false_iff in He. apply (propagate_split S L d nr (grid_at w g) b s HDL He Ha Hs). }
  rewrite E3. cbn [fst snd]. split; [|reflexivity].
  eapply laser_at_stored; cbn [store_laser w_la w_lg]; [apply upd_same|apply upd_same|].
  change (grid_at (store_laser ?w ?l ?L ?g) ?g') with (grid_at w g'). apply at_store.
Qed.

(** ** Programs *)
Lemma lstep_nonrt S L d nr g b : l_dim L <> Rt -> lstep S L (OpPropagate d nr (Some g) b) = lstep S L (OpPropagate d nr None b).
Proof. intros H. cbn [lstep]. unfold propagate. destruct (l_dim L); [tauto|reflexivity|reflexivity]. Qed.
Lemma step_value S w o l : WInv w -> free_target w o -> (l < w_nl w)%nat ->
  (match o with CallGrid g _ => w_lg w l <> g | _ => True end) ->
  laser_at (fst (wstep S w o)) l = lrun S (laser_at w l) (call_on w o l).
Proof.
  intros HI Hf Hl Hc.
  assert (Iso : ~ acts_on w o l -> laser_at (fst (wstep S w o)) l = laser_at w l) by (intros H; apply c84_isolated; assumption).
  destruct o; cbn [call_on acts_on] in *; try (rewrite Iso by tauto; reflexivity).
  - destruct (Nat.eqb_spec l0 l) as [->|N]; [|rewrite Iso by assumption; reflexivity].
    cbn [wstep]. destruct (Nat.ltb_spec l (w_nl w)) as [_|]; [|lia]. cbn [negb]. destruct g as [g|].
    + destruct (l_dim (w_la w l)) eqn:HD.
      * destruct (Nat.ltb_spec g (w_ng w)) as [Hg|]; [|reflexivity].
        cbn [lrun lstep]. apply resample_value; [exact HD|]. intros E. apply (Hf l). split; [exact Hl|congruence].
      * destruct (Nat.ltb_spec g (w_ng w)) as [Hg|]; cbn [lrun]; rewrite ?lstep_nonrt by (change (l_dim (laser_at w l)) with (l_dim (w_la w l)); congruence); apply call_value.
      * destruct (Nat.ltb_spec g (w_ng w)) as [Hg|]; cbn [lrun]; rewrite ?lstep_nonrt by (change (l_dim (laser_at w l)) with (l_dim (w_la w l)); congruence); apply call_value.
    + cbn [lrun]. apply call_value.
  - destruct (Nat.eqb_spec l0 l) as [->|N]; [|rewrite Iso by assumption; reflexivity].
    cbn [wstep]. destruct (Nat.ltb_spec l (w_nl w)) as [_|]; [|lia]. cbn [lrun]. apply call_value.
  - destruct (Nat.eqb_spec l0 l) as [->|N]; [|rewrite Iso by assumption; reflexivity].
    cbn [wstep]. destruct (Nat.ltb_spec l (w_nl w)) as [_|]; [|lia]. cbn [lrun]. apply call_value.
  - destruct (Nat.eqb_spec l0 l) as [->|N]; [|rewrite Iso by assumption; reflexivity].
    cbn [wstep]. destruct (Nat.ltb_spec l (w_nl w)) as [_|]; [|lia]. cbn [lrun]. apply call_value.
Qed.
Lemma nl_mono S w o : (w_nl w <= w_nl (fst (wstep S w o)))%nat.
Proof.
  destruct o; cbn [wstep].
  - destruct (laser_init _ _ _ _ _ _ _); cbn; lia.
  - destruct (grid_init _ _ _ _ _ _); cbn; lia.
  - destruct (Nat.ltb _ _); cbn; lia.
  - destruct (negb _); [cbn; lia|]. destruct g as [g|]; [destruct (l_dim _)|]; try (cbn; lia). destruct (Nat.ltb _ _); [|cbn; lia].
    unfold call_resample. destruct (negb _); [cbn; lia|]. cbn zeta. destruct (snd (absorb_boundary _ _ _)); [|cbn; lia].
    destruct (snd (get_spectral_field _)); cbn; lia.
  - destruct (Nat.ltb _ _); cbn; lia.
  - destruct (Nat.ltb _ _); cbn; lia.
  - destruct (Nat.ltb _ _); cbn; lia.
Qed.
Lemma lrun_app S h1 : forall L h2, lrun S L (h1 ++ h2) = lrun S (lrun S L h1) h2.
Proof. induction h1 as [|o h1 IH]; intros L h2; [reflexivity|]. cbn [app lrun]. apply IH. Qed.
Lemma run_value S l h : forall w, WInv w -> free_targets S w h -> (l < w_nl w)%nat -> no_grid_calls S w h l ->
  laser_at (wrun S w h) l = lrun S (laser_at w l) (calls_on S w h l).
Proof.
  induction h as [|o h IH]; intros w HI Hf Hl Hn; [reflexivity|]. cbn [wrun calls_on]. destruct Hf as (F1 & F2). destruct Hn as (N1 & N2).
  rewrite lrun_app, <- (step_value S w o l HI F1 Hl N1). apply IH; try assumption; [apply WInv_step; assumption|].
  pose proof (nl_mono S w o). lia.
Qed.
Lemma new_value S w d lo hi np p nm nte L : laser_init d lo hi np p nm nte = Ok L ->
  w_nl (fst (wstep S w (NewLaser d lo hi np p nm nte))) = Datatypes.S (w_nl w) /\
  laser_at (fst (wstep S w (NewLaser d lo hi np p nm nte))) (w_nl w) = L.
Proof.
  intros H. cbn [wstep]. rewrite H. cbn [fst]. split; [reflexivity|].
  eapply laser_at_stored; cbn [add_laser w_la w_lg]; [apply upd_same|apply upd_same|].
  unfold grid_at; cbn [add_laser add_grid w_gr w_ax w_ta]. rewrite !upd_same. apply grid_eta. apply put_last_same.
Qed.
Lemma c84_programs S h1 h2 l : free_targets S empty_world (h1 ++ h2) ->
  let w := wrun S empty_world h1 in
  (l < w_nl w)%nat -> no_grid_calls S w h2 l ->
  laser_at (wrun S empty_world (h1 ++ h2)) l = lrun S (laser_at w l) (calls_on S w h2 l).
Proof.
  intros Hf w Hl Hn.
  assert (A : forall h w0, wrun S w0 (h ++ h2) = wrun S (wrun S w0 h) h2) by (induction h as [|o h IH]; intros w0; [reflexivity|]; cbn [app wrun]; apply IH).
  assert (B : forall h w0, free_targets S w0 (h ++ h2) -> free_targets S w0 h /\ free_targets S (wrun S w0 h) h2).
  { induction h as [|o h IH]; intros w0 H; [split; [exact I|exact H]|]. cbn [app free_targets wrun] in *. destruct H as (H1 & H2). destruct (IH _ H2). tauto. }
  destruct (B h1 empty_world Hf) as (F1 & F2). rewrite A. fold w in F2 |- *. apply run_value; try assumption. apply WInv_run; [apply WInv_empty|exact F1].
Qed.

(** ** What goes wrong *)
Lemma last_set_last {A} (l : list A) v d : last (set_last l v) d = v.
Proof. unfold set_last. apply last_last. Qed.
Lemma set_s_axes g a : g_axes (fst (set_spectral_field g a)) = g_axes g.
Proof. unfold set_spectral_field. destruct (negb _); [reflexivity|]. destruct (negb _); reflexivity. Qed.
Lemma finish_axis L d s L' : finish L d s = (L', Ok tt) -> time_axis (l_grid L') = map (fun t => t + d / c_light) (time_axis (l_grid L)).
Proof.
  unfold finish. set (q := set_spectral_field _ _). destruct (snd q); [|discriminate]. intros H. apply (f_equal fst) in H. cbn [fst] in H. subst L'.
  cbn [l_grid set_grid]. unfold shift_domain, time_axis; cbn [with_domain g_axes]. rewrite last_set_last. unfold q. rewrite set_s_axes. reflexivity.
Qed.
Lemma resample_axis S L d gn b L' : l_dim L = Rt -> propagate S L d None (Some gn) b = (L', Ok tt) ->
  time_axis (l_grid L') = map (fun t => t + d / c_light) (time_axis (l_grid L)).
Proof.
  intros HD. unfold propagate. destruct (negb _); [discriminate|]. cbn [absorb_boundary snd fst]. pose proof (get_s_axes (l_grid L)) as E.
  destruct (snd (get_spectral_field (l_grid L))) as [s|]; [|discriminate]. rewrite HD. cbn [l_grid set_grid set_prop].
  destruct (g_modes _); [|discriminate]. destruct (negb _); [discriminate|]. destruct (Nat.ltb _ _); [discriminate|].
  intros H. apply finish_axis in H. rewrite H. f_equal. cbn [l_grid set_grid set_prop]. unfold overwrite_time, time_axis; cbn [with_domain g_axes].
  rewrite last_set_last, E. reflexivity.
Qed.
(** The Grid a laser leaves behind: its time axis moved although its lo, hi did not. *)
Lemma c84_released S w l d nr g b : l_dim (w_la w l) = Rt -> (l < w_nl w)%nat -> (g < w_ng w)%nat -> g <> w_lg w l ->
  g_axes (grid_at w (w_lg w l)) <> [] ->
  snd (wstep S w (CallPropagate l d nr (Some g) b)) = Ok tt ->
  let w' := fst (wstep S w (CallPropagate l d nr (Some g) b)) in
  let g0 := grid_at w (w_lg w l) in let g1 := grid_at w' (w_lg w l) in
  g_lo g1 = g_lo g0 /\ g_hi g1 = g_hi g0 /\ time_axis g1 = map (fun t => t + d / c_light) (time_axis g0).
Proof.
  intros HD Hl Hg N Hne H w' g0 g1. revert H. subst w' g1. cbn [wstep].
  destruct (Nat.ltb_spec l (w_nl w)); [|lia]. cbn [negb]. rewrite HD. destruct (Nat.ltb_spec g (w_ng w)); [|lia].
  unfold call_resample. cbn zeta. set (L := laser_at w l). destruct (negb _); [discriminate|].
  set (v1 := fst (absorb_boundary Rt nr (l_grid L))). destruct (snd (absorb_boundary Rt nr (l_grid L))) as [[]|e] eqn:Ha; [|discriminate].
  set (w1 := store_fields w (w_lg w l) v1). set (v2 := fst (get_spectral_field v1)).
  destruct (snd (get_spectral_field v1)) as [s|e] eqn:Hs; [|discriminate]. set (w2 := store_fields w1 (w_lg w l) v2).
  set (q := propagate S (laser_at w2 l) d None (Some (grid_at w2 g)) b). cbn [fst snd]. intros Hq.
  assert (A1 : g_axes v1 = g_axes g0) by (unfold v1; rewrite absorb_axes; reflexivity).
  assert (A2 : g_axes v2 = g_axes g0) by (unfold v2; rewrite get_s_axes; exact A1).
  assert (F1 : grid_at w1 (w_lg w l) = v1) by (apply at_fields; exact A1).
  assert (F2 : grid_at w2 (w_lg w l) = v2) by (apply at_fields; rewrite F1, A2, A1; reflexivity).
  assert (HT : time_axis (l_grid (fst q)) = map (fun t => t + d / c_light) (time_axis g0)).
  { rewrite (resample_axis S (laser_at w2 l) d (grid_at w2 g) b (fst q)).
    - unfold laser_at. change (w_lg w2 l) with (w_lg w l). rewrite F2. cbn [l_grid set_grid]. unfold time_axis. rewrite A2. reflexivity.
    - exact HD.
    - fold q. rewrite <- Hq. destruct q; reflexivity. }
  unfold grid_at at 1 2 3; cbn [store_laser store_grid share_axis w_gr w_ax w_ta]. rewrite (upd_other (w_gr w2) g (l_grid (fst q)) (w_lg w l)), (upd_other (w_ta w2) g (w_ta w2 (w_lg w l)) (w_lg w l)) by (apply not_eq_sym, N).
  rewrite upd_same. change (w_ta w2 (w_lg w l)) with (w_ta w (w_lg w l)). rewrite upd_same.
  assert (E : w_gr w2 (w_lg w l) = v2) by (unfold w2; cbn [store_fields w_gr]; apply upd_same). rewrite E. cbn [with_domain g_lo g_hi].
  assert (M : g_lo v2 = g_lo g0 /\ g_hi v2 = g_hi g0).
  { unfold v2, v1. pose proof (get_s_meta (fst (absorb_boundary Rt nr (l_grid L)))) as (X1 & X2 & _). rewrite X1, X2.
    assert (Y : g_lo (fst (absorb_boundary Rt nr (l_grid L))) = g_lo (l_grid L) /\ g_hi (fst (absorb_boundary Rt nr (l_grid L))) = g_hi (l_grid L)); [|exact Y].
    unfold absorb_boundary. destruct nr as [[z|]|]; try (split; reflexivity). destruct (Z.leb z 0); [split; reflexivity|].
    assert (EE : g_lo (fst (get_temporal_field (l_grid L))) = g_lo (l_grid L) /\ g_hi (fst (get_temporal_field (l_grid L))) = g_hi (l_grid L)).
    { unfold get_temporal_field; destruct (g_tv _); [split; reflexivity|]; destruct (g_sv _); split; reflexivity. }
    destruct (snd (get_temporal_field (l_grid L))) as [f|e]; [|exact EE]. destruct (absorb_field _ _ _) as [f'|e]; [|exact EE].
    rewrite <- (proj1 EE), <- (proj2 EE). unfold set_temporal_field. destruct (negb _); [split; reflexivity|]. destruct (negb _); split; reflexivity. }
  destruct M as (M1 & M2). split; [exact M1|]. split; [exact M2|].
  unfold time_axis at 1; cbn [with_domain g_axes]. rewrite A2. destruct (g_axes g0) as [|x t] eqn:Eg; [tauto|]. cbn [put_last]. rewrite last_last. exact HT.
Qed.
Lemma resample_refs S w l d nr g b : l_dim (w_la w l) = Rt -> (l < w_nl w)%nat -> (g < w_ng w)%nat ->
  snd (wstep S w (CallPropagate l d nr (Some g) b)) = Ok tt ->
  let w' := fst (wstep S w (CallPropagate l d nr (Some g) b)) in
  w_lg w' = upd (w_lg w) l g /\ w_ng w' = w_ng w /\ w_nl w' = w_nl w /\ (forall k, k <> l -> w_la w' k = w_la w k).
Proof.
  intros HD Hl Hg H w'. revert H. subst w'. cbn [wstep]. destruct (Nat.ltb_spec l (w_nl w)); [|lia]. cbn [negb]. rewrite HD.
  destruct (Nat.ltb_spec g (w_ng w)); [|lia]. unfold call_resample. destruct (negb _); [discriminate|]. cbn zeta.
  destruct (snd (absorb_boundary _ _ _)) as [[]|e]; [|discriminate]. destruct (snd (get_spectral_field _)) as [s|e]; [|discriminate].
  cbn [fst snd]. intros _. repeat split. intros k Hk. cbn [store_laser w_la]. apply upd_other, Hk.
Qed.
(** Two lasers sent onto the same Grid object share it from then on. *)
Lemma c84_shared S w l1 l2 d1 d2 nr1 nr2 g b1 b2 : l_dim (w_la w l1) = Rt -> l_dim (w_la w l2) = Rt -> l1 <> l2 ->
  (l1 < w_nl w)%nat -> (l2 < w_nl w)%nat -> (g < w_ng w)%nat ->
  snd (wstep S w (CallPropagate l1 d1 nr1 (Some g) b1)) = Ok tt ->
  let w1 := fst (wstep S w (CallPropagate l1 d1 nr1 (Some g) b1)) in
  snd (wstep S w1 (CallPropagate l2 d2 nr2 (Some g) b2)) = Ok tt ->
  let w2 := fst (wstep S w1 (CallPropagate l2 d2 nr2 (Some g) b2)) in
  l_grid (laser_at w2 l1) = l_grid (laser_at w2 l2).
Proof.
  intros D1 D2 N H1 H2 Hg O1 w1 O2 w2.
  destruct (resample_refs S w l1 d1 nr1 g b1 D1 H1 Hg O1) as (A1 & A2 & A3 & A4). fold w1 in A1, A2, A3, A4.
  destruct (resample_refs S w1 l2 d2 nr2 g b2) as (B1 & B2 & B3 & B4); [rewrite A4 by (apply not_eq_sym, N); exact D2|rewrite A3; exact H2|rewrite A2; exact Hg|exact O2|].
  fold w2 in B1, B2, B3, B4.
  unfold laser_at. cbn [l_grid set_grid]. rewrite B1, A1, upd_same, (upd_other _ l2) by exact N. rewrite upd_same. reflexivity.
Qed.
Lemma run_app S h2 : forall h w0, wrun S w0 (h ++ h2) = wrun S (wrun S w0 h) h2.
Proof. induction h as [|o h IH]; intros w0; [reflexivity|]; cbn [app wrun]; apply IH. Qed.
Lemma free_app S h2 : forall h w0, free_targets S w0 (h ++ h2) -> free_targets S w0 h /\ free_targets S (wrun S w0 h) h2.
Proof. induction h as [|o h IH]; intros w0 H; [split; [exact I|exact H]|]. cbn [app free_targets wrun] in *. destruct H as (H1 & H2). destruct (IH _ H2). tauto. Qed.
Lemma c84_isolated_run S h o l : free_targets S empty_world (h ++ [o]) ->
  let w := wrun S empty_world h in
  (l < w_nl w)%nat -> ~ acts_on w o l -> laser_at (fst (wstep S w o)) l = laser_at w l.
Proof.
  intros H w Hl Hn. destruct (free_app S [o] h empty_world H) as (F1 & F2). fold w in F2. destruct F2 as (F2 & _).
  apply c84_isolated; try assumption. apply WInv_run; [apply WInv_empty|exact F1].
Qed.
