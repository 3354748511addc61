(** Isolation: the heap model refines the by-value model. *)
From Verif Require Import PyBase NumPy NpFFT GridModel GridHeap.
Open Scope R_scope.

(** Separation invariant. *)
Definition Sep (h : hstate) : Prop :=
  (h_t h < h_next h)%nat /\ (h_s h < h_next h)%nat /\ h_t h <> h_s h /\
  Forall (fun p => (p < h_next h)%nat /\ p <> h_t h /\ p <> h_s h) (h_held h) /\
  NoDup (h_held h).

Definition Rel (h : hstate) (v : vstate) : Prop :=
  Sep h /\ deref h = v_grid v /\ h_view h = v_arrs v.

Lemma upd_same m a v : upd_mem m a v a = v.
Proof. unfold upd_mem; rewrite Nat.eqb_refl; reflexivity. Qed.
Lemma upd_other m a v b : b <> a -> upd_mem m a v b = m b.
Proof. intros H; unfold upd_mem; destruct (Nat.eqb_spec b a); congruence. Qed.
Lemma map_upd m a v l : Forall (fun p => p <> a) l -> map (upd_mem m a v) l = map m l.
Proof.
  intros H; induction H as [|x l Hx _ IH]; simpl; [reflexivity|].
  rewrite IH, upd_other by exact Hx; reflexivity.
Qed.
Lemma Forall_impl2 {A} (P Q : A -> Prop) l : (forall a, P a -> Q a) -> Forall P l -> Forall Q l.
Proof. intros H; apply Forall_impl; exact H. Qed.

Lemma map_upd_nth m l i p v : NoDup l -> nth_error l i = Some p ->
  map (upd_mem m p v) l = set_nth (map m l) i v.
Proof.
  intros Hn; revert i; induction Hn as [|x l Hx Hl IH]; intros [|i]; simpl; try discriminate.
  - intros [= ->]. rewrite upd_same, map_upd; [reflexivity|].
    apply Forall_forall; intros y Hy ->; contradiction.
  - intros Hi. rewrite (IH _ Hi), upd_other; [reflexivity|].
    intros ->. apply Hx. apply (nth_error_In _ _ Hi).
Qed.

Lemma NoDup_snoc {A} (l : list A) x : NoDup l -> ~ In x l -> NoDup (l ++ [x]).
Proof.
  intros Hl Hx. induction Hl as [|y l Hy Hl IH]; simpl.
  - constructor; [intros []|constructor].
  - constructor.
    + rewrite in_app_iff. simpl. intros [H|[H|[]]]; [contradiction|].
      apply Hx; left; symmetry; exact H.
    + apply IH. intros H; apply Hx; right; exact H.
Qed.

Lemma Sep_alloc_held h v g :
  Sep h ->
  Sep (mkH (upd_mem (h_mem h) (h_next h) v) (S (h_next h)) (h_held h ++ [h_next h]) g (h_t h) (h_s h)).
Proof.
  intros (Ht & Hs & Hts & Hh & Hn). unfold Sep; simpl. repeat split; try lia; try assumption.
  - apply Forall_app; split.
    + revert Hh; apply Forall_impl; intros a (?&?&?); repeat split; try lia; assumption.
    + constructor; [|constructor]. repeat split; lia.
  - apply NoDup_snoc; [exact Hn|]. intros Hin.
    rewrite Forall_forall in Hh. destruct (Hh _ Hin); lia.
Qed.

Lemma held_lt h : Sep h -> Forall (fun p => p <> h_next h) (h_held h).
Proof.
  intros (_ & _ & _ & Hh & _). revert Hh; apply Forall_impl; intros a (?&_); lia.
Qed.
Lemma held_t h : Sep h -> Forall (fun p => p <> h_t h) (h_held h).
Proof. intros (_ & _ & _ & Hh & _). revert Hh; apply Forall_impl; intros a (_&?&_); assumption. Qed.
Lemma held_s h : Sep h -> Forall (fun p => p <> h_s h) (h_held h).
Proof. intros (_ & _ & _ & Hh & _). revert Hh; apply Forall_impl; intros a (_&_&?); assumption. Qed.

Lemma Rel_return_copy h v p : Rel h v -> (p < h_next h)%nat ->
  Rel (fst (h_return_copy h p)) (mkV (v_grid v) (v_arrs v ++ [h_mem h p])).
Proof.
  intros (HS & Hd & Hv) Hp. unfold h_return_copy; simpl. split; [|split].
  - apply Sep_alloc_held; exact HS.
  - destruct HS as (Ht & Hs & _). rewrite <- Hd; unfold deref; simpl.
    rewrite !upd_other by lia. reflexivity.
  - unfold h_view; simpl. rewrite map_app; simpl. rewrite upd_same, map_upd by (apply held_lt; exact HS).
    f_equal; exact Hv.
Qed.

Lemma Rel_s2t h v : Rel h v -> Rel (h_spectral2temporal h) (mkV (spectral2temporal_fft (v_grid v)) (v_arrs v)).
Proof.
  intros (HS & Hd & Hv). pose proof (held_lt h HS) as Hlt.
  destruct HS as (Ht & Hs & Hts & Hh & Hn). split; [|split].
  - unfold Sep; simpl. repeat split; try lia; try assumption.
    revert Hh; apply Forall_impl; intros a (?&?&?); repeat split; try lia; assumption.
  - simpl. rewrite <- Hd. unfold deref; simpl. rewrite upd_same, upd_other by lia. reflexivity.
  - unfold h_view; simpl. rewrite map_upd by exact Hlt. exact Hv.
Qed.
Lemma Rel_t2s h v : Rel h v -> Rel (h_temporal2spectral h) (mkV (temporal2spectral_fft (v_grid v)) (v_arrs v)).
Proof.
  intros (HS & Hd & Hv). pose proof (held_lt h HS) as Hlt.
  destruct HS as (Ht & Hs & Hts & Hh & Hn). split; [|split].
  - unfold Sep; simpl. repeat split; try lia; try assumption.
    revert Hh; apply Forall_impl; intros a (?&?&?); repeat split; try lia; assumption.
  - simpl. rewrite <- Hd. unfold deref; simpl. rewrite upd_same, upd_other by lia. reflexivity.
  - unfold h_view; simpl. rewrite map_upd by exact Hlt. exact Hv.
Qed.

Lemma nth_view h v i : h_view h = v_arrs v ->
  nth_error (v_arrs v) i = option_map (h_mem h) (nth_error (h_held h) i).
Proof. intros <-. unfold h_view. apply nth_error_map. Qed.

Lemma Rel_grid_eqs h v : Rel h v ->
  g_tv (h_meta h) = g_tv (v_grid v) /\ g_sv (h_meta h) = g_sv (v_grid v) /\
  g_isenv (h_meta h) = g_isenv (v_grid v) /\ g_dtype (h_meta h) = g_dtype (v_grid v) /\
  h_mem h (h_t h) = g_tf (v_grid v) /\ h_mem h (h_s h) = g_sf (v_grid v).
Proof. intros (_ & <- & _); repeat split. Qed.

Lemma Rel_step h v o : Rel h v ->
  Rel (fst (hstep h o)) (fst (vstep v o)) /\ snd (hstep h o) = snd (vstep v o).
Proof.
  intros HR. pose proof (Rel_grid_eqs _ _ HR) as (Etv & Esv & Een & Edt & Etf & Esf).
  pose proof HR as (HS & Hd & Hv).
  destruct o as [a|i f|i|i| | |b]; cbn [hstep vstep].
  - (* CNew *) split; [|reflexivity]. simpl. split; [apply Sep_alloc_held; exact HS|split].
    + destruct HS as (Ht & Hs & _). rewrite <- Hd; unfold deref; simpl.
      rewrite !upd_other by lia; reflexivity.
    + unfold h_view; simpl. rewrite map_app; simpl.
      rewrite upd_same, map_upd by (apply held_lt; exact HS). f_equal; exact Hv.
  - (* CWrite *) rewrite (nth_view h v i Hv).
    destruct (nth_error (h_held h) i) as [p|] eqn:Ei; simpl; [|split; [exact HR|reflexivity]].
    split; [|reflexivity].
    assert (Hp : p <> h_t h /\ p <> h_s h).
    { destruct HS as (_ & _ & _ & Hh & _). rewrite Forall_forall in Hh.
      destruct (Hh p (nth_error_In _ _ Ei)) as (_ & ? & ?); auto. }
    split; [exact HS|split].
    + rewrite <- Hd; unfold deref; simpl. rewrite !upd_other by intuition congruence. reflexivity.
    + unfold h_view; simpl. rewrite (map_upd_nth _ _ i) by (try apply HS; exact Ei).
      f_equal; exact Hv.
  - (* CSetT *) rewrite (nth_view h v i Hv).
    destruct (nth_error (h_held h) i) as [p|] eqn:Ei; simpl; [|split; [exact HR|reflexivity]].
    unfold h_set_temporal, set_temporal_field. rewrite <- Etf, <- Edt.
    destruct (negb (shape_eqb _ _)); [split; [destruct v; exact HR|reflexivity]|].
    destruct (negb (dtype_eqb _ _)); [split; [destruct v; exact HR|reflexivity]|].
    split; [|reflexivity]. simpl. split; [exact HS|split].
    + rewrite <- Hd; unfold deref; simpl. rewrite upd_same, upd_other; [reflexivity|].
      destruct HS as (_ & _ & Hts & _). congruence.
    + unfold h_view; simpl. rewrite map_upd by (apply held_t; exact HS). exact Hv.
  - (* CSetS *) rewrite (nth_view h v i Hv).
    destruct (nth_error (h_held h) i) as [p|] eqn:Ei; simpl; [|split; [exact HR|reflexivity]].
    unfold h_set_spectral, set_spectral_field. rewrite <- Esf.
    destruct (negb (shape_eqb _ _)); [split; [destruct v; exact HR|reflexivity]|].
    destruct (negb (dtype_eqb _ _)); [split; [destruct v; exact HR|reflexivity]|].
    split; [|reflexivity]. simpl. split; [exact HS|split].
    + rewrite <- Hd; unfold deref; simpl. rewrite upd_same, upd_other; [reflexivity|].
      destruct HS as (_ & _ & Hts & _). congruence.
    + unfold h_view; simpl. rewrite map_upd by (apply held_s; exact HS). exact Hv.
  - (* CGetT *) unfold h_get_temporal, get_temporal_field. rewrite Etv, Esv.
    destruct (g_tv (v_grid v)).
    + cbn [fst snd]. split; [|reflexivity]. rewrite <- Etf.
      apply Rel_return_copy; [exact HR|apply HS].
    + destruct (g_sv (v_grid v)); cbn [fst snd]; [|split; [destruct v; exact HR|reflexivity]].
      split; [|reflexivity]. pose proof (Rel_s2t _ _ HR) as HR'.
      pose proof (Rel_grid_eqs _ _ HR') as (_ & _ & _ & _ & Etf' & _).
      pose proof (Rel_return_copy _ _ (h_t (h_spectral2temporal h)) HR') as HC.
      rewrite Etf' in HC. apply HC. apply HR'.
  - (* CGetS *) unfold h_get_spectral, get_spectral_field. rewrite Etv, Esv, Een.
    destruct (negb (g_isenv (v_grid v))); cbn [fst snd]; [split; [destruct v; exact HR|reflexivity]|].
    destruct (g_sv (v_grid v)).
    + cbn [fst snd]. split; [|reflexivity]. rewrite <- Esf.
      apply Rel_return_copy; [exact HR|apply HS].
    + destruct (g_tv (v_grid v)); cbn [fst snd]; [|split; [destruct v; exact HR|reflexivity]].
      split; [|reflexivity]. pose proof (Rel_t2s _ _ HR) as HR'.
      pose proof (Rel_grid_eqs _ _ HR') as (_ & _ & _ & _ & _ & Esf').
      pose proof (Rel_return_copy _ _ (h_s (h_temporal2spectral h)) HR') as HC.
      rewrite Esf' in HC. apply HC. apply HR'.
  - (* CSetEnv *) split; [|reflexivity]. simpl.
    pose proof (held_lt h HS) as Hlt. destruct HS as (Ht & Hs & Hts & Hh & Hn).
    split; [|split].
    + unfold Sep; simpl. repeat split; try lia; try assumption.
      revert Hh; apply Forall_impl; intros a (?&?&?); repeat split; try lia; assumption.
    + simpl. rewrite <- Hd. unfold deref, set_is_envelope; simpl.
      rewrite upd_same, upd_other by lia. reflexivity.
    + unfold h_view; simpl. rewrite map_upd by exact Hlt. exact Hv.
Qed.

Lemma Rel_init g : Rel (h_init g) (mkV g []).
Proof.
  split; [|split].
  - unfold Sep, h_init; simpl. repeat split; try lia; constructor.
  - unfold deref, h_init; simpl. destruct g; reflexivity.
  - reflexivity.
Qed.

Lemma Rel_run h v ops : Rel h v -> Rel (hrun h ops) (vrun v ops) /\ houts h ops = vouts v ops.
Proof.
  revert h v; induction ops as [|o ops IH]; intros h v HR; simpl; [auto|].
  destruct (Rel_step h v o HR) as (H1 & H2). destruct (IH _ _ H1) as (H3 & H4).
  split; [exact H3|]. rewrite H2, H4; reflexivity.
Qed.

(** No call changes an array the caller already holds (only the caller's own writes do). *)
Lemma calls_preserve_held g ops o : (forall i f, o <> CWrite i f) ->
  let h := hrun (h_init g) ops in
  firstn (length (h_view h)) (h_view (fst (hstep h o))) = h_view h.
Proof.
  intros Ho h. destruct (Rel_run _ _ ops (Rel_init g)) as (HR & _). fold h in HR.
  destruct (Rel_step h _ o HR) as ((_ & _ & Hv') & _). destruct HR as (_ & _ & Hv).
  rewrite Hv', Hv. set (v := vrun (mkV g []) ops) in *.
  assert (Hf : forall (l l' : list ndarray), firstn (length l) (l ++ l') = l).
  { intros l l'. rewrite firstn_app, firstn_all, Nat.sub_diag; simpl. apply app_nil_r. }
  assert (Hf0 : forall (l : list ndarray), firstn (length l) l = l) by (intros; apply firstn_all).
  destruct o as [a|i f|i|i| | |b]; simpl.
  - apply Hf.
  - exfalso; apply (Ho i f); reflexivity.
  - destruct (nth_error (v_arrs v) i); apply Hf0.
  - destruct (nth_error (v_arrs v) i); apply Hf0.
  - destruct (snd (get_temporal_field (v_grid v))); simpl; [apply Hf|apply Hf0].
  - destruct (snd (get_spectral_field (v_grid v))); simpl; [apply Hf|apply Hf0].
  - apply Hf0.
Qed.

(** Caller writes never change what the grid returns. *)
Definition is_write (o : hop) : Prop := exists i f, o = CWrite i f.
Lemma vrun_writes_grid v ws : Forall is_write ws -> v_grid (vrun v ws) = v_grid v.
Proof.
  intros H; revert v; induction H as [|o ws (i & f & ->) _ IH]; intros v; simpl; [reflexivity|].
  rewrite IH. destruct (nth_error (v_arrs v) i); reflexivity.
Qed.
Lemma vrun_app v a b : vrun v (a ++ b) = vrun (vrun v a) b.
Proof. revert v; induction a as [|o a IH]; intros v; simpl; auto. Qed.
Lemma hrun_app v a b : hrun v (a ++ b) = hrun (hrun v a) b.
Proof. revert v; induction a as [|o a IH]; intros v; simpl; auto. Qed.

Lemma last_snoc {A} (l : list A) x d : last (l ++ [x]) d = x.
Proof. apply last_last. Qed.

Lemma writes_invisible g ops ws o : Forall is_write ws -> o = CGetT \/ o = CGetS ->
  let h := hrun (h_init g) ops in
  snd (hstep (hrun h ws) o) = snd (hstep h o) /\
  (snd (hstep h o) = Ok tt ->
   last (h_view (fst (hstep (hrun h ws) o))) (zeros [] Float64) =
   last (h_view (fst (hstep h o))) (zeros [] Float64)).
Proof.
  intros Hw Ho h.
  destruct (Rel_run _ _ ops (Rel_init g)) as (HR & _). fold h in HR.
  set (v := vrun (mkV g []) ops) in *.
  destruct (Rel_run _ _ ws HR) as (HRw & _).
  destruct (Rel_step _ _ o HR) as ((_ & _ & V1) & O1).
  destruct (Rel_step _ _ o HRw) as ((_ & _ & V2) & O2).
  rewrite V1, V2, O1, O2. pose proof (vrun_writes_grid v ws Hw) as Hg.
  destruct Ho as [-> | ->]; simpl; rewrite Hg.
  - destruct (snd (get_temporal_field (v_grid v))); simpl; split; try reflexivity; try discriminate.
    rewrite !last_last; reflexivity.
  - destruct (snd (get_spectral_field (v_grid v))); simpl; split; try reflexivity; try discriminate.
    rewrite !last_last; reflexivity.
Qed.
