(** C107: local frequency and vector potential of a displaced pulse. *)
From Verif Require Import PyBase CSum NumPy NpMath GridModel GridSpec GridProofs GridObs EnergyModel EnergyProofs LaserSpec LaserModel LaserOps LaserInv LtiSpec LtiProofs LtiMain AnalysisModel MirrorSpec MirrorProofs MoveSpec MoveProofs MoveMain.
Open Scope R_scope.

Lemma unwrap_upto p p' k : (forall q, (q <= k)%nat -> p' q = p q) -> unwrap p' k = unwrap p k.
Proof.
  intros H. unfold unwrap. rewrite H by lia. f_equal. apply rsum_ext. intros q Hq. rewrite !H by lia. reflexivity.
Qed.
Lemma gradient2_shift {A} (lin : R -> R -> R -> A -> A -> A -> A) n f f' x x' z k : (3 <= n)%nat -> (k < n)%nat ->
  (forall q, (q < n)%nat -> f' q = f q) -> (forall q, (q < n)%nat -> x' q = x q + z) -> gradient2 lin n f' x' k = gradient2 lin n f x k.
Proof.
  intros Hn Hk Hf Hx. assert (D : forall p q, (p < n)%nat -> (q < n)%nat -> x' p - x' q = x p - x q) by (intros p q Hp Hq; rewrite !Hx by assumption; ring).
  unfold gradient2. destruct (Nat.eqb_spec k 0); [rewrite !D, !Hf by lia; reflexivity|].
  destruct (Nat.eqb_spec k (n - 1)); rewrite !D, !Hf by lia; reflexivity.
Qed.
Lemma average3_ext n0 n1 n2 v w v' w' : (forall i j k, (i < n0)%nat -> (j < n1)%nat -> (k < n2)%nat -> v' i j k = v i j k /\ w' i j k = w i j k) ->
  average3 n0 n1 n2 v' w' = average3 n0 n1 n2 v w.
Proof.
  intros H. unfold average3. assert (Ew : rsum3 n0 n1 n2 w' = rsum3 n0 n1 n2 w).
  { unfold rsum3. apply rsum_ext. intros i Hi. apply rsum_ext. intros j Hj. apply rsum_ext. intros k Hk. apply H; assumption. }
  rewrite Ew. destruct (Reqb _ 0); [reflexivity|]. f_equal. f_equal. unfold rsum3.
  apply rsum_ext. intros i Hi. apply rsum_ext. intros j Hj. apply rsum_ext. intros k Hk. destruct (H i j k Hi Hj Hk) as (-> & ->). reflexivity.
Qed.

Lemma get_t_again g : fst (get_temporal_field (fst (get_temporal_field g))) = fst (get_temporal_field g).
Proof. unfold get_temporal_field. destruct (g_tv g) eqn:E1, (g_sv g) eqn:E2; simpl; rewrite ?E1, ?E2; reflexivity. Qed.

Section Freq.
Variables a b c : R.
Notation mg := (move_grid a b c).
Variables (L K : laser) (n0 n1 nt : nat).
Hypothesis Hd : l_dim L = Xyt.
Hypothesis HP : Par 0 L K n0 n1 nt.
Hypothesis HR : mrel false false L K n0 n1 nt.
Let gL := fst (get_temporal_field (l_grid L)).
Let gK := fst (get_temporal_field (l_grid K)).
Lemma move_local f f' w0 i j k : shp f = [n0; n1; nt] -> shp f' = [n0; n1; nt] ->
  (forall i j k, (i < n0)%nat -> (j < n1)%nat -> (k < nt)%nat -> at3 f' i j k = at3 f i j k) ->
  (3 <= nt)%nat -> (i < n0)%nat -> (j < n1)%nat -> (k < nt)%nat -> local_omega (mg gK) f' w0 i j k = local_omega gL f w0 i j k.
Proof.
  intros S S' Hf Hn Hi Hj Hk. unfold local_omega, dim2. rewrite S, S'. cbn [nth]. f_equal.
  apply (gradient2_shift lin3R nt _ _ _ _ c k Hn Hk).
  - intros q Hq. f_equal. apply unwrap_upto. intros r Hr. rewrite Hf by (assumption || lia). reflexivity.
  - intros q Hq. apply (two_time a b c L K n0 n1 nt Hd HP q Hq).
Qed.
Lemma move_frequency_env f f' w0 lb ub : shp f = [n0; n1; nt] -> shp f' = [n0; n1; nt] ->
  (forall i j k, (i < n0)%nat -> (j < n1)%nat -> (k < nt)%nat -> at3 f' i j k = at3 f i j k) ->
  match frequency_env gL f w0 lb ub, frequency_env (mg gK) f' w0 lb ub with
  | Ok (om, m), Ok (om', m') => m' = m /\ shp om = [n0; n1; nt] /\ shp om' = [n0; n1; nt] /\ (3 <= nt)%nat /\
      forall i j k, (i < n0)%nat -> (j < n1)%nat -> (k < nt)%nat -> at3 om' i j k = at3 om i j k
  | Err x, Err x' => x' = x
  | _, _ => False
  end.
Proof.
  intros S S' Hf. unfold frequency_env. destruct w0 as [w0|]; [|reflexivity]. unfold dim0, dim1, dim2. rewrite S, S'. cbn [nth].
  destruct (Nat.ltb_spec nt 3) as [Hn|Hn]; [reflexivity|].
  rewrite (average3_ext n0 n1 nt (local_omega gL f w0) (fun i j k => Cmod (at3 f i j k)) (local_omega (mg gK) f' w0) (fun i j k => Cmod (at3 f' i j k))).
  2: { intros i j k Hi Hj Hk. rewrite (move_local f f') by assumption. rewrite Hf by assumption. split; reflexivity. }
  destruct (average3 _ _ _ _ _) as [m|e]; [|reflexivity]. cbn [bind real_arr shp at3]. split; [reflexivity|]. split; [reflexivity|]. split; [reflexivity|]. split; [exact Hn|].
  intros i j k Hi Hj Hk. rewrite (move_local f f') by assumption. reflexivity.
Qed.
(** Equal results, up to entries out of range. *)
Definition same_image (r r' : res ndarray) : Prop :=
  match r, r' with
  | Ok om, Ok om' => shp om = [n0; n1; nt] /\ shp om' = [n0; n1; nt] /\
      forall i j k, (i < n0)%nat -> (j < n1)%nat -> (k < nt)%nat -> at3 om' i j k = at3 om i j k
  | Err x, Err x' => x' = x
  | _, _ => False
  end.
Lemma two_isenv : g_isenv gK = g_isenv gL /\ g_isenv gL = g_isenv (l_grid L) /\ g_isenv (l_grid K) = g_isenv (l_grid L).
Proof.
  destruct (two_meta L K n0 n1 nt Hd HP) as (M & _). pose proof (get_t_meta (l_grid L)) as X. pose proof (get_t_meta (l_grid K)) as Y. unfold gL, gK.
  repeat match goal with H : same_meta _ _ |- _ => unfold same_meta in H end. intuition congruence.
Qed.
Lemma two_frequency w0 lb ub d : g_isenv (l_grid L) = true ->
  match snd (get_frequency (l_grid L) d false w0 lb ub), snd (get_frequency (mg (l_grid K)) d false w0 lb ub) with
  | Ok (om, m), Ok (om', m') => m' = m /\ same_image (Ok om) (Ok om')
  | Err x, Err x' => x' = x
  | _, _ => False
  end.
Proof.
  intros He. destruct two_isenv as (E1 & E2 & _). unfold get_frequency, with_field. rewrite get_t_mg. unfold mp. cbn [fst snd].
  destruct (two_reads L K n0 n1 nt HP HR) as (f & f' & F1 & F2 & F1' & F2' & Hf). unfold tread in F1, F1'. rewrite F1, F1'. fold gL gK.
  change (g_isenv (mg gK)) with (g_isenv gK). rewrite E1, E2, He.
  pose proof (move_frequency_env f f' w0 lb ub F2 F2' Hf) as X. destruct (frequency_env gL f w0 lb ub) as [[om m]|x]; destruct (frequency_env (mg gK) f' w0 lb ub) as [[om' m']|x']; try exact X.
  destruct X as (X1 & X2 & X3 & _ & X4). cbn [same_image]. auto.
Qed.
Lemma two_vecpot w0 : same_image (snd (field_to_vector_potential (l_grid L) w0)) (snd (field_to_vector_potential (mg (l_grid K)) w0)).
Proof.
  destruct two_isenv as (E1 & E2 & E3). unfold field_to_vector_potential. change (g_isenv (mg (l_grid K))) with (g_isenv (l_grid K)). rewrite E3.
  destruct (g_isenv (l_grid L)) eqn:He; [|reflexivity]. cbn [negb].
  unfold get_frequency, with_field. rewrite get_t_mg. unfold mp. cbn [fst snd].
  destruct (two_reads L K n0 n1 nt HP HR) as (f & f' & F1 & F2 & F1' & F2' & Hf). pose proof F1 as T1. pose proof F1' as T1'. unfold tread in F1, F1'. rewrite F1, F1'. fold gL gK.
  change (g_isenv (mg gK)) with (g_isenv gK). rewrite E1, E2.
  pose proof (move_frequency_env f f' (Some w0) lb_default ub_default F2 F2' Hf) as X. destruct (frequency_env gL f (Some w0) lb_default ub_default) as [[om m]|x]; destruct (frequency_env (mg gK) f' (Some w0) lb_default ub_default) as [[om' m']|x']; try exact X; try contradiction.
  destruct X as (_ & _ & _ & _ & X4). cbn [snd fst].
  assert (R1 : snd (get_temporal_field gL) = Ok f) by (change (tread gL = Ok f); unfold gL; rewrite tread_get_t; exact T1).
  assert (R2 : snd (get_temporal_field (mg gK)) = Ok f') by (change (tread (mg gK) = Ok f'); rewrite tread_mg; unfold gK; rewrite tread_get_t; exact T1').
  rewrite R1, R2. cbn [same_image vecpot_of shp at3]. conj; try assumption. intros i j k Hi Hj Hk. rewrite X4, Hf by assumption. reflexivity.
Qed.
Lemma two_from_vecpot w0 direct : same_image (snd (vector_potential_to_field (l_grid L) w0 direct)) (snd (vector_potential_to_field (mg (l_grid K)) w0 direct)).
Proof.
  destruct two_isenv as (E1 & E2 & E3). unfold vector_potential_to_field. change (g_isenv (mg (l_grid K))) with (g_isenv (l_grid K)). rewrite E3.
  destruct (g_isenv (l_grid L)) eqn:He; [|reflexivity]. cbn [negb].
  rewrite get_t_mg. unfold mp. cbn [fst snd].
  destruct (two_reads L K n0 n1 nt HP HR) as (f & f' & F1 & F2 & F1' & F2' & Hf). pose proof F1 as T1. pose proof F1' as T1'. unfold tread in F1, F1'. rewrite F1, F1'. fold gL gK.
  destruct direct.
  - unfold dim2. rewrite F2, F2'. cbn [nth]. destruct (Nat.ltb_spec nt 3) as [Hn|Hn]; [reflexivity|]. cbn [snd same_image shp at3]. conj; try reflexivity; try assumption.
    intros i j k Hi Hj Hk. rewrite Hf by assumption.
    rewrite (gradient2_shift lin3C nt (fun q => at3 f i j q) (fun q => at3 f' i j q) (fun q => vget (time_axis (l_grid L)) q) (fun q => vget (time_axis (mg (l_grid K))) q) c k Hn Hk); [reflexivity| |].
    + intros q Hq. apply Hf; assumption.
    + intros q Hq. pose proof (two_time a b c L K n0 n1 nt Hd HP q Hq) as T. pose proof (get_t_meta (l_grid L)) as X. pose proof (get_t_meta (mg (l_grid K))) as Y. rewrite get_t_mg in Y. unfold mp in Y. cbn [fst] in Y.
      assert (X4 : time_axis (fst (get_temporal_field (l_grid L))) = time_axis (l_grid L)) by (destruct X as (_ & _ & _ & X4 & _); unfold time_axis; rewrite X4; reflexivity).
      assert (Y4 : time_axis (mg (fst (get_temporal_field (l_grid K)))) = time_axis (mg (l_grid K))) by (destruct Y as (_ & _ & _ & Y4 & _); unfold time_axis; rewrite Y4; reflexivity).
      rewrite X4, Y4 in T. exact T.
  - unfold get_frequency, with_field.
    assert (R1 : snd (get_temporal_field gL) = Ok f) by (change (tread gL = Ok f); unfold gL; rewrite tread_get_t; exact T1).
    assert (R2 : snd (get_temporal_field (mg gK)) = Ok f') by (change (tread (mg gK) = Ok f'); rewrite tread_mg; unfold gK; rewrite tread_get_t; exact T1').
    assert (I1 : fst (get_temporal_field gL) = gL) by (unfold gL; apply get_t_again).
    assert (I2 : fst (get_temporal_field (mg gK)) = mg gK) by (rewrite get_t_mg; unfold mp, gK; cbn [fst]; rewrite get_t_again; reflexivity).
    rewrite R1, R2, I1, I2. change (g_isenv (mg gK)) with (g_isenv gK). rewrite E1, E2. cbn [fst snd].
    pose proof (move_frequency_env f f' (Some w0) lb_default ub_default F2 F2' Hf) as X. destruct (frequency_env gL f (Some w0) lb_default ub_default) as [[om m]|x]; destruct (frequency_env (mg gK) f' (Some w0) lb_default ub_default) as [[om' m']|x']; try exact X; try contradiction.
    destruct X as (_ & _ & _ & _ & X4). cbn [snd same_image shp at3]. conj; try reflexivity; try assumption. intros i j k Hi Hj Hk. rewrite X4, Hf by assumption. reflexivity.
Qed.
End Freq.
