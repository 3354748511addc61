(** Concrete grids meeting the hypotheses of the theorems on chirped and real fields (C35). *)
From Verif Require Import PyBase CSum NpFFT NumPy NpMath NpMathProofs GridModel GridObs LaserSpec EnergyModel EnergyProofs LaserModel AnalysisModel AnalysisSpec FrequencyProofs FrequencyMean CreateGridProofs.
Open Scope R_scope.

Lemma chirp_example : exists g f, tread g = Ok f /\ g_isenv g = true /\ (3 <= dim2 f)%nat /\
  (forall q, (S q < dim2 f)%nat -> vget (time_axis g) q < vget (time_axis g) (S q)) /\
  chirped f (vget (time_axis g)) (fun _ _ k => 1 + INR k) (fun _ _ => 1) (fun _ _ => / 2) (fun _ _ => / 2) /\ some_nonzero f.
Proof.
  set (psi := fun t => 1 + / 2 * t + / 2 * (t * t) / 2).
  destruct (c37_create_xyt (mkArr [2;2;3]%nat Complex128 (fun i j k => Cmult (RtoC (1 + INR k)) (cis (- psi (vget [0;1;2] k))))) [0;1] [0;1] [0;1;2] true uni2 uni2 uni3 eq_refl eq_refl)
    as (g & b & _ & Ha & He & _ & _ & _ & _ & Hb & (B1 & _ & B3)); [discriminate|].
  exists g, b. assert (Ht : time_axis g = [0;1;2]) by (unfold time_axis; rewrite Ha; reflexivity). rewrite Ht.
  assert (D0 : dim0 b = 2%nat) by (unfold dim0; rewrite <- B1; reflexivity).
  assert (D1 : dim1 b = 2%nat) by (unfold dim1; rewrite <- B1; reflexivity).
  assert (D2 : dim2 b = 3%nat) by (unfold dim2; rewrite <- B1; reflexivity).
  assert (Hv : forall i j k, (i < 2)%nat -> (j < 2)%nat -> (k < 3)%nat -> at3 b i j k = Cmult (RtoC (1 + INR k)) (cis (- psi (vget [0;1;2] k)))).
  { intros i j k Hi Hj Hk. rewrite <- B3; [reflexivity|]. unfold inb. repeat split; assumption. }
  split; [exact Hb|]. split; [exact He|]. split; [lia|]. split; [intros q Hq; rewrite !times3 by lia; apply lt_INR; lia|]. split.
  - intros i j Hi Hj. rewrite D0 in Hi. rewrite D1 in Hj. rewrite D2. split; [|split].
    + intros q Hq. pose proof PI2_1. destruct q as [|[|q]]; [| |lia]; unfold vget; cbn [nth]; rewrite Rabs_pos_eq; lra.
    + intros q Hq. rewrite Hv by lia. reflexivity.
    + right. intros q _. pose proof (pos_INR q). lra.
  - exists 0%nat, 0%nat, 0%nat. split; [unfold inb; lia|]. rewrite Hv by lia. apply Cmult_neq_0; [apply RtoC_neq0; simpl; lra|apply cis_neq0].
Qed.

Lemma real_rt_example : exists g f om, tread g = Ok f /\ g_isenv g = false /\ shp f = [1;2;3]%nat /\
  snd (get_frequency g Rt true None (-2) 4) = Ok (om, PI / 2) /\
  (forall i j k, inb f i j k -> exists w, squeezed_entry f om i j k = RtoC w /\ -2 * (PI / 2) < w < 4 * (PI / 2)).
Proof.
  set (s := fun k => match k with 2%nat => 1 | _ => -1 end).
  destruct (create_rt3 (mkArr [1;2;3]%nat Float64 (fun i j k => RtoC ((1 + INR j) * s k))) [0;1] [0;1;2] false uni2 uni3 eq_refl eq_refl)
    as (g & b & _ & Ha & He & Hb & (B1 & _ & B3)); [reflexivity|].
  assert (Ht : time_axis g = [0;1;2]) by (unfold time_axis; rewrite Ha; reflexivity).
  assert (D0 : dim0 b = 1%nat) by (unfold dim0; rewrite <- B1; reflexivity).
  assert (D1 : dim1 b = 2%nat) by (unfold dim1; rewrite <- B1; reflexivity).
  assert (D2 : dim2 b = 3%nat) by (unfold dim2; rewrite <- B1; reflexivity).
  assert (Hv : forall i j k, (i < 1)%nat -> (j < 2)%nat -> (k < 3)%nat -> at3 b i j k = RtoC ((1 + INR j) * s k)).
  { intros i j k Hi Hj Hk. rewrite <- B3; [reflexivity|]. unfold inb. repeat split; assumption. }
  assert (An : forall j, angle (RtoC ((1 + INR j) * -1)) = PI).
  { intros j. pose proof (pos_INR j). pose proof PI_RGT_0. replace (RtoC ((1 + INR j) * -1)) with (Cmult (RtoC (1 + INR j)) (cis PI)) by (rewrite cis_PI, <- RtoC_mult; reflexivity).
    apply angle_unique; lra. }
  assert (Ap : forall j, angle (RtoC ((1 + INR j) * 1)) = 0).
  { intros j. pose proof (pos_INR j). pose proof PI_RGT_0. replace (RtoC ((1 + INR j) * 1)) with (Cmult (RtoC (1 + INR j)) (cis 0)) by (rewrite cis_0, <- RtoC_mult; f_equal; ring).
    apply angle_unique; lra. }
  assert (HU : forall i j k, (i < 1)%nat -> (j < 2)%nat -> (k < 3)%nat -> unwrap (fun q => angle (at3 b i j q)) k = match k with 2%nat => 0 | _ => PI end).
  { intros i j k Hi Hj Hk. rewrite (unwrap_real (fun q => at3 b i j q) 3); [|intros q Hq; rewrite Hv by assumption; reflexivity|exact Hk].
    rewrite Hv by assumption. unfold s. destruct k as [|[|[|k]]]; try lia; [apply An|apply An|apply Ap]. }
  assert (HL : forall g', time_axis g' = time_axis g -> forall i j k, (i < 1)%nat -> (j < 2)%nat -> (k < 3)%nat -> local_omega g' b 0 i j k = match k with 0%nat => - (PI / 2) | 1%nat => PI / 2 | _ => 3 * PI / 2 end).
  { intros g' Hg' i j k Hi Hj Hk. unfold local_omega. rewrite Hg', D2, Ht. unfold gradient2, lin3R.
    destruct k as [|[|[|k]]]; try lia; cbn [Nat.eqb Nat.sub]; rewrite !HU by lia; unfold vget; cbn [nth]; field; lra. }
  assert (Hc : forall j k, (j < 2)%nat -> (k < 3)%nat -> Cmod (at3 b 0 j k) = 1 + INR j).
  { intros j k Hj Hk. rewrite Hv, Cmod_R by lia. pose proof (pos_INR j). unfold s. destruct k as [|[|[|k]]]; try lia;
    [rewrite Rabs_left1 by lra| rewrite Rabs_left1 by lra|rewrite Rabs_pos_eq by lra]; ring. }
  assert (Hf : snd (get_frequency g Rt true None (-2) 4) = Ok (squeeze (real_arr (shp b) (fun i j k => clip_freq (-2) 4 (PI / 2) (local_omega g b 0 i j k))), PI / 2)).
  { rewrite (frequency_field_eq g b Rt true None _ _ Hb He). unfold frequency_field. cbn [negb]. destruct (Nat.ltb_spec (dim2 b) 3); [lia|].
    assert (X : average3 (dim0 b) (dim1 b) (dim2 b) (local_omega g b 0) (fun i j k => vget (nth 0 (g_axes g) []) j * Cmod (at3 b i j k)) = Ok (PI / 2)).
    { unfold average3. rewrite D0, D1, D2, Ha. unfold rsum3, rsum. cbn [nth vget].
      rewrite !HL, !Hc by (reflexivity || lia). unfold vget; cbn [nth]. destruct (Reqb _ 0) eqn:E; [apply Reqb_true in E; simpl in E; lra|]. f_equal. simpl. field. }
    rewrite X. reflexivity. }
  exists g, b, (squeeze (real_arr (shp b) (fun i j k => clip_freq (-2) 4 (PI / 2) (local_omega g b 0 i j k)))).
  split; [exact Hb|]. split; [exact He|]. split; [rewrite <- B1; reflexivity|]. split; [exact Hf|].
  intros i j k (Hi & Hj & Hk). rewrite squeeze_at by assumption. eexists. split; [reflexivity|].
  rewrite D0 in Hi. rewrite D1 in Hj. rewrite D2 in Hk. rewrite (HL g eq_refl) by assumption. pose proof PI_RGT_0.
  rewrite clip_id; destruct k as [|[|k]]; lra.
Qed.
