From Verif Require Import PyBase NumPy AnalyticModel TransverseSpec.
Open Scope R_scope.

Lemma ttable_app tbl h1 h2 : ttable tbl (h1 ++ h2) = ttable (ttable tbl h1) h2.
Proof. revert tbl. induction h1; intros tbl; [reflexivity|]. cbn [app ttable]. apply IHh1. Qed.
Lemma ttable_length tbl h : length (ttable tbl h) = (length tbl + length h)%nat.
Proof. revert tbl. induction h; intros tbl; cbn [ttable length]; [lia|]. rewrite IHh, app_length. cbn [length]. lia. Qed.
Lemma ttable_old tbl h r : (r < length tbl)%nat -> tref (ttable tbl h) r = tref tbl r.
Proof.
  revert tbl. induction h as [|o h IH]; intros tbl Hr; [reflexivity|]. cbn [ttable]. rewrite IH by (rewrite app_length; cbn [length]; lia).
  unfold tref. apply app_nth1. exact Hr.
Qed.
Lemma nth_error_split' {A} (h : list A) r o : nth_error h r = Some o -> exists h1 h2, h = h1 ++ o :: h2 /\ length h1 = r.
Proof. apply nth_error_split. Qed.
Lemma tevaluate_at h1 o h2 : tevaluate (h1 ++ o :: h2) (length h1) = teval_obj (ttable [] h1) o.
Proof.
  unfold tevaluate. rewrite ttable_app. cbn [ttable]. rewrite ttable_old.
  - unfold tref. rewrite app_nth2; rewrite ttable_length; cbn [length]; [|lia]. rewrite Nat.sub_diag. reflexivity.
  - rewrite app_length, ttable_length. cbn [length]. lia.
Qed.
Lemma tevaluate_before h1 h2 r : (r < length h1)%nat -> tevaluate (h1 ++ h2) r = tref (ttable [] h1) r.
Proof. intros H. unfold tevaluate. rewrite ttable_app. apply ttable_old. rewrite ttable_length. exact H. Qed.

(** ** Well-formed heaps *)
Definition trefs (b : tbody) : list nat := match b with TLeaf _ => [] | TSum rs => rs | TScale r _ => [r] end.
Definition WFh (h : theap) : Prop := forall r o q, nth_error h r = Some o -> In q (trefs (t_body o)) -> (q < r)%nat.

Lemma eval_leaf h r o f x y : nth_error h r = Some o -> t_body o = TLeaf f ->
  tevaluate h r x y = f (x + t_xoff o) (y + t_yoff o).
Proof.
  intros H Hb. destruct (nth_error_split _ _ H) as (h1 & h2 & -> & <-). rewrite tevaluate_at. unfold teval_obj. rewrite Hb. reflexivity.
Qed.
Lemma tsum_ext t1 t2 rs x y : (forall r, In r rs -> tref t1 r = tref t2 r) -> tsum t1 rs x y = tsum t2 rs x y.
Proof. induction rs; intros H; [reflexivity|]. cbn [tsum]. rewrite (H a (or_introl eq_refl)), IHrs; [reflexivity|]. intros; apply H; right; assumption. Qed.
Lemma eval_sum h r o rs x y : WFh h -> nth_error h r = Some o -> t_body o = TSum rs ->
  tevaluate h r x y = tsum (ttable [] h) rs x y.
Proof.
  intros W H Hb. pose proof (fun q => W r o q H) as Wr. rewrite Hb in Wr. cbn [trefs] in Wr.
  destruct (nth_error_split _ _ H) as (h1 & h2 & -> & <-). rewrite tevaluate_at. unfold teval_obj. rewrite Hb.
  apply tsum_ext. intros q Hq. symmetry. change (tref (ttable [] (h1 ++ o :: h2)) q) with (tevaluate (h1 ++ o :: h2) q). apply tevaluate_before. apply Wr, Hq.
Qed.
Lemma eval_scale h r o q k x y : WFh h -> nth_error h r = Some o -> t_body o = TScale q k ->
  tevaluate h r x y = Cmult (tevaluate h q x y) k.
Proof.
  intros W H Hb. pose proof (W r o q H) as Wr. rewrite Hb in Wr. specialize (Wr (or_introl eq_refl)).
  destruct (nth_error_split _ _ H) as (h1 & h2 & -> & <-). rewrite tevaluate_at. unfold teval_obj. rewrite Hb.
  rewrite tevaluate_before by exact Wr. reflexivity.
Qed.

(** ** Steps *)
Lemma set_nth_length {A} (l : list A) i v : length (set_nth l i v) = length l.
Proof. revert i. induction l; intros [|i]; cbn; auto. Qed.
Lemma nth_error_set_nth_eq {A} (l : list A) i v : (i < length l)%nat -> nth_error (set_nth l i v) i = Some v.
Proof. revert i. induction l; intros [|i] H; cbn in *; try lia; [reflexivity|]. apply IHl. lia. Qed.
Lemma nth_error_set_nth_neq {A} (l : list A) i j v : i <> j -> nth_error (set_nth l i v) j = nth_error l j.
Proof. revert i j. induction l; intros [|i] [|j] H; cbn; try reflexivity; try lia. apply IHl. lia. Qed.

Lemma nth_error_snoc {A} (l : list A) v r o : nth_error (l ++ [v]) r = Some o -> (r < length l)%nat /\ nth_error l r = Some o \/ r = length l /\ o = v.
Proof.
  intros H. destruct (Nat.lt_ge_cases r (length l)) as [L|L].
  - left. split; [exact L|]. rewrite nth_error_app1 in H by exact L. exact H.
  - right. rewrite nth_error_app2 in H by exact L. destruct (r - length l)%nat as [|n] eqn:E; [|destruct n; discriminate].
    injection H as <-. split; [lia|reflexivity].
Qed.
Lemma tstep_WF h op h' r : WFh h -> tstep h op = Ok (h', r) -> WFh h'.
Proof.
  intros W H. destruct op as [f|p a|p a|p dx dy]; cbn [tstep] in H.
  - injection H as <- <-. intros i o q Ho Hq. destruct (nth_error_snoc _ _ _ _ Ho) as [[L E]|[-> ->]]; [exact (W i o q E Hq)|]. destruct Hq.
  - destruct a as [q| |]; try discriminate. destruct (andb _ _) eqn:Eb; [|discriminate]. injection H as <- <-.
    apply andb_prop in Eb as [E1 E2]. apply Nat.ltb_lt in E1, E2.
    intros i o s Ho Hs. destruct (nth_error_snoc _ _ _ _ Ho) as [[L E]|[-> ->]]; [exact (W i o s E Hs)|]. cbn [t_body trefs] in Hs.
    destruct Hs as [<-|[<-|[]]]; assumption.
  - destruct a as [q|z|]; try discriminate. destruct (_ <? _)%nat eqn:Eb; [|discriminate]. injection H as <- <-. apply Nat.ltb_lt in Eb.
    intros i o s Ho Hs. destruct (nth_error_snoc _ _ _ _ Ho) as [[L E]|[-> ->]]; [exact (W i o s E Hs)|]. cbn [t_body trefs] in Hs.
    destruct Hs as [<-|[]]; assumption.
  - destruct (nth_error h p) as [o|] eqn:E; [|discriminate]. injection H as <- <-.
    intros i o' s Ho Hs. destruct (Nat.eq_dec p i) as [->|N].
    + rewrite nth_error_set_nth_eq in Ho by (apply nth_error_Some; congruence). injection Ho as <-. exact (W i o s E Hs).
    + rewrite nth_error_set_nth_neq in Ho by exact N. exact (W i o' s Ho Hs).
Qed.
Lemma trun_WF ops : forall h h', WFh h -> trun h ops = Ok h' -> WFh h'.
Proof.
  induction ops as [|op ops IH]; intros h h' W H; cbn [trun] in H; [injection H as <-; exact W|].
  destruct (tstep h op) as [[h1 r]|] eqn:E; cbn [bind] in H; [|discriminate]. apply (IH h1 h'); [|exact H]. apply (tstep_WF _ _ _ _ W E).
Qed.
Lemma reachable_WF h : theap_reachable h -> WFh h.
Proof. intros (ops & H). apply (trun_WF ops [] h); [|exact H]. intros r o q Ho. destruct r; discriminate. Qed.

(** Objects never lose their body, and only set_offset changes their offsets. *)
Lemma tstep_obj h op h' s r o : tstep h op = Ok (h', s) -> nth_error h r = Some o ->
  nth_error h' r = Some (mkTobj (t_body o) (fst (last_offset [op] r (t_xoff o, t_yoff o))) (snd (last_offset [op] r (t_xoff o, t_yoff o)))).
Proof.
  intros H Ho. assert (Lr : (r < length h)%nat) by (apply nth_error_Some; congruence).
  assert (K : forall v, nth_error (h ++ [v]) r = Some (mkTobj (t_body o) (t_xoff o) (t_yoff o))).
  { intros v. rewrite nth_error_app1 by exact Lr. rewrite Ho. destruct o; reflexivity. }
  destruct op as [f|p a|p a|p dx dy]; cbn [tstep] in H; cbn [last_offset fst snd].
  - injection H as <- <-. apply K.
  - destruct a; try discriminate. destruct (andb _ _); [|discriminate]. injection H as <- <-. apply K.
  - destruct a; try discriminate. destruct (_ <? _)%nat; [|discriminate]. injection H as <- <-. apply K.
  - destruct (nth_error h p) as [o'|] eqn:E; [|discriminate]. injection H as <- <-.
    destruct (Nat.eqb_spec p r) as [->|N]; cbn [fst snd].
    + rewrite nth_error_set_nth_eq by exact Lr. congruence.
    + rewrite nth_error_set_nth_neq by exact N. rewrite Ho. destruct o; reflexivity.
Qed.
Lemma last_offset_cons op ops r d : last_offset (op :: ops) r d = last_offset ops r (last_offset [op] r d).
Proof. destruct op; reflexivity. Qed.
Lemma trun_obj ops : forall h h' r o, trun h ops = Ok h' -> nth_error h r = Some o ->
  nth_error h' r = Some (mkTobj (t_body o) (fst (last_offset ops r (t_xoff o, t_yoff o))) (snd (last_offset ops r (t_xoff o, t_yoff o)))).
Proof.
  induction ops as [|op ops IH]; intros h h' r o H Ho; cbn [trun] in H.
  - injection H as <-. cbn [last_offset fst snd]. rewrite Ho. destruct o; reflexivity.
  - destruct (tstep h op) as [[h1 s]|] eqn:E; cbn [bind fst] in H; [|discriminate].
    pose proof (tstep_obj _ _ _ _ _ _ E Ho) as H1. pose proof (IH _ _ _ _ H H1) as H2. cbn [t_body t_xoff t_yoff] in H2.
    rewrite <- surjective_pairing in H2. rewrite <- last_offset_cons in H2. exact H2.
Qed.

(** ** C45: a profile of an analytic class is shifted by its last offset *)
Lemma c45_leaf ops h f ops' h' h1 r : trun [] ops = Ok h -> tstep h (TNew f) = Ok (h1, r) -> trun h1 ops' = Ok h' ->
  forall x y, tevaluate h' r x y = f (x + fst (last_offset ops' r (0, 0))) (y + snd (last_offset ops' r (0, 0))).
Proof.
  intros _ H1 H2 x y. cbn [tstep] in H1. injection H1 as <- <-.
  assert (Ho : nth_error (h ++ [mkTobj (TLeaf f) 0 0]) (length h) = Some (mkTobj (TLeaf f) 0 0)).
  { rewrite nth_error_app2 by lia. rewrite Nat.sub_diag. reflexivity. }
  pose proof (trun_obj _ _ _ _ _ H2 Ho) as H3. cbn [t_body t_xoff t_yoff] in H3.
  rewrite (eval_leaf _ _ _ f x y H3 eq_refl). reflexivity.
Qed.
Lemma c45_set_offset h r a b h' o f : theap_reachable h -> nth_error h r = Some o -> t_body o = TLeaf f -> tstep h (TOffset r a b) = Ok (h', r) ->
  forall x y, tevaluate h' r x y = tevaluate h r (x + a - t_xoff o) (y + b - t_yoff o) /\
    (t_xoff o = 0 -> t_yoff o = 0 -> tevaluate h' r x y = tevaluate h r (x + a) (y + b)).
Proof.
  intros _ Ho Hb H x y. pose proof (tstep_obj _ _ _ _ _ _ H Ho) as H1. cbn [last_offset] in H1. rewrite Nat.eqb_refl in H1. cbn [fst snd] in H1.
  rewrite (eval_leaf _ _ _ f x y H1 Hb), !(eval_leaf _ _ _ f _ _ Ho Hb). cbn [t_xoff t_yoff]. split.
  - f_equal; ring.
  - intros -> ->. f_equal; ring.
Qed.
(** ** Composites *)
Lemma c45_sum h p q h1 r ops h' : theap_reachable h -> tstep h (TAdd p (ARef q)) = Ok (h1, r) -> trun h1 ops = Ok h' ->
  forall x y, tevaluate h' r x y = Cplus (tevaluate h' p x y) (tevaluate h' q x y).
Proof.
  intros Hr H1 H2 x y. pose proof (tstep_WF _ _ _ _ (reachable_WF _ Hr) H1) as W1. pose proof (trun_WF _ _ _ W1 H2) as W'.
  cbn [tstep] in H1. destruct (andb _ _); [|discriminate]. injection H1 as <- <-.
  assert (Ho : nth_error (h ++ [mkTobj (TSum [p; q]) 0 0]) (length h) = Some (mkTobj (TSum [p; q]) 0 0)).
  { rewrite nth_error_app2 by lia. rewrite Nat.sub_diag. reflexivity. }
  pose proof (trun_obj _ _ _ _ _ H2 Ho) as H3. cbn [t_body] in H3.
  rewrite (eval_sum _ _ _ [p; q] x y W' H3 eq_refl). cbn [tsum]. unfold tevaluate. ring.
Qed.
Lemma c45_scale h p k h1 r ops h' : theap_reachable h -> tstep h (TMul p (ANum k)) = Ok (h1, r) -> trun h1 ops = Ok h' ->
  forall x y, tevaluate h' r x y = Cmult (tevaluate h' p x y) k.
Proof.
  intros Hr H1 H2 x y. pose proof (tstep_WF _ _ _ _ (reachable_WF _ Hr) H1) as W1. pose proof (trun_WF _ _ _ W1 H2) as W'.
  cbn [tstep] in H1. destruct (_ <? _)%nat; [|discriminate]. injection H1 as <- <-.
  assert (Ho : nth_error (h ++ [mkTobj (TScale p k) 0 0]) (length h) = Some (mkTobj (TScale p k) 0 0)).
  { rewrite nth_error_app2 by lia. rewrite Nat.sub_diag. reflexivity. }
  pose proof (trun_obj _ _ _ _ _ H2 Ho) as H3. cbn [t_body] in H3.
  apply (eval_scale _ _ _ p k x y W' H3 eq_refl).
Qed.

(** Induction over the parts of an object. *)
Lemma part_trans h s q r : part_of h s q -> part_of h q r -> part_of h s r.
Proof. intros H1 H2. induction H2; [exact H1| |]; [eapply part_sum|eapply part_scale]; eauto. Qed.
Lemma tsum_ext_shift t1 t2 rs x y x' y' : (forall r, In r rs -> tref t1 r x y = tref t2 r x' y') -> tsum t1 rs x y = tsum t2 rs x' y'.
Proof. induction rs; intros H; [reflexivity|]. cbn [tsum]. rewrite (H a (or_introl eq_refl)), IHrs; [reflexivity|]. intros; apply H; right; assumption. Qed.

(** The general principle: two heaps with the same bodies for the parts of r, whose leaves under r
    take the same values at (x,y) resp. (x',y'). *)
Lemma shift_parts h h' x y x' y' : WFh h -> WFh h' -> forall r, (r < length h)%nat ->
  (forall q o, part_of h q r -> nth_error h q = Some o -> exists o', nth_error h' q = Some o' /\ t_body o' = t_body o /\
      (is_leaf o -> x + t_xoff o' = x' + t_xoff o /\ y + t_yoff o' = y' + t_yoff o)) ->
  tevaluate h' r x y = tevaluate h r x' y'.
Proof.
  intros W W' r. induction (lt_wf r) as [r _ IH]. intros Hr Hp.
  destruct (nth_error h r) as [o|] eqn:Ho; [|apply nth_error_None in Ho; lia].
  destruct (Hp r o (part_self h r) Ho) as (o' & Ho' & Hb & Hl).
  assert (Hsub : forall q, In q (trefs (t_body o)) -> part_of h q r).
  { intros q Hq. destruct (t_body o) as [f|rs|q' k] eqn:Eb; cbn [trefs] in Hq; [destruct Hq| |].
    - eapply part_sum; [exact Ho|exact Eb|exact Hq|constructor].
    - destruct Hq as [<-|[]]. eapply part_scale; [exact Ho|exact Eb|constructor]. }
  assert (Hval : forall q, In q (trefs (t_body o)) -> tevaluate h' q x y = tevaluate h q x' y').
  { intros q Hq. pose proof (W r o q Ho Hq) as Hlt. apply IH; [exact Hlt|lia|].
    intros s os Hs Hos. apply Hp; [|exact Hos]. eapply part_trans; [exact Hs|]. apply Hsub, Hq. }
  destruct (t_body o) as [f|rs|q k] eqn:Eb.
  - destruct (Hl (ex_intro _ f Eb)) as (E1 & E2). rewrite (eval_leaf _ _ _ f x y Ho' Hb), (eval_leaf _ _ _ f x' y' Ho Eb), E1, E2. reflexivity.
  - rewrite (eval_sum _ _ _ rs x y W' Ho' Hb), (eval_sum _ _ _ rs x' y' W Ho Eb). apply tsum_ext_shift. intros q Hq. apply (Hval q Hq).
  - rewrite (eval_scale _ _ _ q k x y W' Ho' Hb), (eval_scale _ _ _ q k x' y' W Ho Eb). rewrite (Hval q (or_introl eq_refl)). reflexivity.
Qed.

(** Setting the offset of every part shifts a composite; *)
Lemma c45_deep h ops h' r a b : theap_reachable h -> trun h ops = Ok h' -> (r < length h)%nat ->
  (forall q o, part_of h q r -> nth_error h q = Some o -> is_leaf o ->
     t_xoff o = 0 /\ t_yoff o = 0 /\ last_offset ops q (0, 0) = (a, b)) ->
  forall x y, tevaluate h' r x y = tevaluate h r (x + a) (y + b).
Proof.
  intros Hr H L Hq x y. pose proof (reachable_WF _ Hr) as W. pose proof (trun_WF _ _ _ W H) as W'.
  apply (shift_parts h h' x y (x + a) (y + b) W W' r L). intros q o Hp Ho. pose proof (trun_obj _ _ _ _ _ H Ho) as E.
  eexists. split; [exact E|]. split; [reflexivity|]. intros Hl. destruct (Hq q o Hp Ho Hl) as (E1 & E2 & E3). cbn [t_xoff t_yoff].
  rewrite E1, E2, E3. cbn [fst snd]. split; ring.
Qed.
(** setting that of the composite itself changes nothing, for any object. *)
Lemma c45_composite_noop h r a b h' o : theap_reachable h -> nth_error h r = Some o -> ~ is_leaf o -> tstep h (TOffset r a b) = Ok (h', r) ->
  forall q x y, (q < length h)%nat -> tevaluate h' q x y = tevaluate h q x y.
Proof.
  intros Hr Ho Hn H q x y Hq. pose proof (reachable_WF _ Hr) as W. pose proof (tstep_WF _ _ _ _ W H) as W'.
  apply (shift_parts h h' x y x y W W' q Hq). intros s os Hp Hos. pose proof (tstep_obj _ _ _ _ _ _ H Hos) as E.
  eexists. split; [exact E|]. split; [reflexivity|]. intros Hl. cbn [t_xoff t_yoff last_offset].
  destruct (Nat.eqb_spec r s) as [->|N]; [exfalso; apply Hn; rewrite Hos in Ho; injection Ho as <-; exact Hl|]. cbn [fst snd]. split; reflexivity.
Qed.
(** ** C57: an operation changes only the profiles that contain the object it is applied to *)
Lemma c57_frame h ops h' r : theap_reachable h -> trun h ops = Ok h' -> (r < length h)%nat ->
  (forall q a b, In (TOffset q a b) ops -> ~ part_of h q r) ->
  forall x y, tevaluate h' r x y = tevaluate h r x y.
Proof.
  intros Hr H L Hq x y. pose proof (reachable_WF _ Hr) as W. pose proof (trun_WF _ _ _ W H) as W'.
  apply (shift_parts h h' x y x y W W' r L). intros q o Hp Ho. pose proof (trun_obj _ _ _ _ _ H Ho) as E.
  eexists. split; [exact E|]. split; [reflexivity|]. intros Hl. cbn [t_xoff t_yoff].
  assert (El : last_offset ops q (t_xoff o, t_yoff o) = (t_xoff o, t_yoff o)).
  { clear H E. induction ops as [|op ops IH]; [reflexivity|]. 
    assert (Hq' : forall q a b, In (TOffset q a b) ops -> ~ part_of h q r) by (intros; apply (Hq _ a b); right; assumption).
    destruct op; cbn [last_offset]; try (apply IH; exact Hq'). destruct (Nat.eqb_spec r0 q) as [->|N]; [|apply IH; exact Hq'].
    exfalso. apply (Hq q dx dy); [left; reflexivity|exact Hp]. }
  rewrite El. cbn [fst snd]. split; reflexivity.
Qed.

(** ** Counterexamples *)
(** (p + p).set_offset(1, 0) is not shifted. *)
Lemma c45_refuted : exists ops h h' r, trun [] ops = Ok h /\ tstep h (TOffset r 1 0) = Ok (h', r) /\
  (forall o, nth_error h r = Some o -> t_xoff o = 0 /\ t_yoff o = 0) /\
  tevaluate h r 1 0 = RtoC 2 /\ tevaluate h' r 0 0 <> tevaluate h r (0 + 1) (0 + 0).
Proof.
  pose (f := fun x y : R => RtoC x).
  exists [TNew f; TAdd 0 (ARef 0)]. eexists. eexists. exists 1%nat. split; [reflexivity|]. split; [reflexivity|]. split.
  - cbn. intros o H. injection H as <-. split; reflexivity.
  - unfold tevaluate. cbn. unfold f. split; [apply injective_projections; simpl; ring|].
    intros E. apply (f_equal fst) in E. simpl in E. lra.
Qed.
(** A sum built from p changes when p is moved afterwards: p.set_offset(1,0) + p.set_offset(-1,0) is twice the second. *)
Lemma c57_refuted : exists f h, trun [] [TNew f; TOffset 0 1 0; TOffset 0 (-1) 0; TAdd 0 (ARef 0)] = Ok h /\
  (forall x y, tevaluate h 1 x y = Cmult (RtoC 2) (f (x - 1) y)) /\
  exists x y, tevaluate h 1 x y <> Cplus (f (x + 1) y) (f (x - 1) y).
Proof.
  pose (f := fun x y : R => RtoC x). exists f. eexists. split; [reflexivity|]. split.
  - intros x y. unfold tevaluate. cbn. unfold f. apply injective_projections; simpl; ring.
  - exists 0, 0. unfold tevaluate. cbn. unfold f. intros E. apply (f_equal fst) in E. simpl in E. lra.
Qed.
