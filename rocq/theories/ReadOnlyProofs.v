(** The analysis functions only read: they may fill the grid's cached other representation, nothing else. *)
From Verif Require Import PyBase NpFFT NumPy NpMath GridModel GridObs EnergyModel LaserModel AnalysisModel AnalysisSpec.
Open Scope R_scope.

Lemma same_refl g : same_contents g g.
Proof. split; [apply same_meta_refl|auto]. Qed.
Lemma same_trans a b c : same_contents a b -> same_contents b c -> same_contents a c.
Proof. intros (A & B & D) (E & F & G). split; [eapply same_meta_trans; eassumption|]. split; congruence. Qed.
Lemma same_get_t g : same_contents g (fst (get_temporal_field g)).
Proof. split; [apply get_t_meta|]. split; [apply tread_get_t|apply sread_get_t]. Qed.
Lemma same_with_field {A} g (k : grid -> ndarray -> res A) : same_contents g (fst (with_field g k)).
Proof. unfold with_field. cbn [fst]. apply same_get_t. Qed.
Lemma c56_grid g :
  (forall d, same_contents g (fst (compute_laser_energy d g))) /\
  (forall d w, same_contents g (fst (get_spectrum_sum d g w))) /\
  (forall d h w lb ub, same_contents g (fst (get_frequency g d h w lb ub))) /\
  (forall d, same_contents g (fst (get_duration d g))) /\
  (forall w, same_contents g (fst (field_to_vector_potential g w))) /\
  (forall w b, same_contents g (fst (vector_potential_to_field g w b))).
Proof.
  split; [|split; [|split; [|split; [|split]]]].
  - intros d. unfold compute_laser_energy. 
    pose proof (same_get_t g) as H. destruct (get_temporal_field g) as (g1, [a|e]); exact H.
  - intros. apply same_with_field.
  - intros. apply same_with_field.
  - intros. apply same_with_field.
  - intros w. unfold field_to_vector_potential. destruct (negb (g_isenv g)); [apply same_refl|].
    pose proof (same_with_field g (fun g f => if g_isenv g then frequency_env g f (Some w) lb_default ub_default
      else frequency_field OtherDim g f false lb_default ub_default)) as H.
    change (with_field g _) with (get_frequency g OtherDim false (Some w) lb_default ub_default) in H.
    destruct (snd (get_frequency g OtherDim false (Some w) lb_default ub_default)) as [(om, c)|e]; [|exact H].
    eapply same_trans; [exact H|apply same_with_field].
  - intros w b. unfold vector_potential_to_field. destruct (negb (g_isenv g)); [apply same_refl|].
    destruct (snd (get_temporal_field g)) as [f|e]; [|apply same_get_t].
    destruct b.
    + destruct (Nat.ltb (dim2 f) 3); apply same_get_t.
    + destruct (snd (get_frequency _ _ _ _ _ _)) as [(om, c)|e]; (eapply same_trans; [apply same_get_t|apply same_with_field]).
Qed.
Lemma c56_laser L :
  (forall theta s sa, let L' := fst (get_full_field L theta s sa) in
     l_prof L' = l_prof L /\ l_dim L' = l_dim L /\ same_contents (l_grid L) (l_grid L')) /\
  (let L' := fst (show_image L) in l_prof L' = l_prof L /\ l_dim L' = l_dim L /\ same_contents (l_grid L) (l_grid L')).
Proof.
  split; [intros theta s sa|]; cbn zeta; unfold get_full_field, show_image; cbn [fst]; unfold set_grid; cbn [l_prof l_dim l_grid];
    (split; [reflexivity|]); (split; [reflexivity|]); apply same_with_field.
Qed.
