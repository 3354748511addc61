(** Proofs about GridModel. *)
From Coq Require Import FinFun.
From Verif Require Import PyBase CSum NpFFT FFTProofs NumPy GridModel GridSpec.
Open Scope R_scope.

(** One call as a state-machine step. *)
Definition gstep (g : grid) (o : gop) : grid * gout :=
  match o with
  | SetT a => let r := set_temporal_field g a in (fst r, OutUnit (snd r))
  | SetS a => let r := set_spectral_field g a in (fst r, OutUnit (snd r))
  | GetT => let r := get_temporal_field g in (fst r, OutArr (snd r))
  | GetS => let r := get_spectral_field g in (fst r, OutArr (snd r))
  end.
Fixpoint grun (g : grid) (h : list gop) : grid :=
  match h with [] => g | o :: t => grun (fst (gstep g o)) t end.
(** Outputs of all calls of a history, in order. *)
Fixpoint gouts (g : grid) (h : list gop) : list gout :=
  match h with [] => [] | o :: t => snd (gstep g o) :: gouts (fst (gstep g o)) t end.

Lemma np_fft_is_dft a : is_dft_of (np_fft_last a) a.
Proof. repeat split. Qed.
Lemma np_ifft_is_idft a : is_idft_of (np_ifft_last a) a.
Proof. repeat split. Qed.

Lemma arr_eta a : mkArr (shp a) (dty a) (fun i j k => at3 a i j k) = a.
Proof. destruct a; reflexivity. Qed.

(** Invariant linking the state to the last accepted set. *)
Definition Coh (s : list nat) (src : option gop) (g : grid) : Prop :=
  g_isenv g = true /\ g_dtype g = Complex128 /\
  shp (g_tf g) = s /\ dty (g_tf g) = Complex128 /\
  shp (g_sf g) = s /\ dty (g_sf g) = Complex128 /\
  match src with
  | None => g_tv g = false /\ g_sv g = false
  | Some (SetT a) => g_tv g = true /\ g_tf g = a /\
                     (g_sv g = true -> g_sf g = np_ifft_last a) /\ acceptable s a = true
  | Some (SetS a) => g_sv g = true /\ g_sf g = a /\
                     (g_tv g = true -> g_tf g = np_fft_last a) /\ acceptable s a = true
  | _ => False
  end.

Definition upd (s : list nat) (src : option gop) (o : gop) : option gop :=
  match o with
  | SetT a | SetS a => if acceptable s a then Some o else src
  | _ => src
  end.

Lemma acceptable_true s a : acceptable s a = true <-> shp a = s /\ dty a = Complex128.
Proof. unfold acceptable; rewrite andb_true_iff, shape_eqb_true, dtype_eqb_true; tauto. Qed.

Lemma set_arr_same a s : shp a = s -> dty a = Complex128 ->
  mkArr s Complex128 (fun i j k => cast Complex128 (at3 a i j k)) = a.
Proof. intros Hs Hd; destruct a as [s' d f]; simpl in *; subst; reflexivity. Qed.

Lemma Coh_step s src g o : Coh s src g -> Coh s (upd s src o) (fst (gstep g o)).
Proof.
  intros (He & Hd & Hts & Htd & Hss & Hsd & Hc).
  destruct o as [a|a| |]; simpl.
  - unfold set_temporal_field, acceptable. rewrite Hts, Hd.
    destruct (shape_eqb (shp a) s) eqn:E1; simpl; [|repeat split; assumption].
    destruct (dtype_eqb (dty a) Complex128) eqn:E2; simpl; [|repeat split; assumption].
    apply shape_eqb_true in E1; apply dtype_eqb_true in E2.
    unfold with_t; repeat split; simpl; try assumption.
    + rewrite Htd; apply set_arr_same; assumption.
    + discriminate.
    + apply acceptable_true; tauto.
  - unfold set_spectral_field, acceptable. rewrite Hss.
    destruct (shape_eqb (shp a) s) eqn:E1; simpl; [|repeat split; assumption].
    destruct (dtype_eqb (dty a) Complex128) eqn:E2; simpl; [|repeat split; assumption].
    apply shape_eqb_true in E1; apply dtype_eqb_true in E2.
    unfold with_s; repeat split; simpl; try assumption.
    + rewrite Hsd, <- E1, <- E2. destruct a; reflexivity.
    + discriminate.
    + apply acceptable_true; tauto.
  - unfold get_temporal_field.
    destruct (g_tv g) eqn:Etv; [repeat split; simpl; try rewrite ?Etv; assumption|].
    destruct (g_sv g) eqn:Esv; [|repeat split; simpl; try rewrite ?Etv, ?Esv; assumption].
    destruct src as [[a|a| |]|]; try (exfalso; tauto); try (exfalso; intuition discriminate).
    destruct Hc as (_ & Hsf & _ & Ha).
    unfold spectral2temporal_fft, with_t; repeat split; simpl; try assumption.
    intros _; rewrite Hsf; reflexivity.
  - unfold get_spectral_field. rewrite He; simpl.
    destruct (g_sv g) eqn:Esv; [repeat split; simpl; rewrite ?Esv; assumption|].
    destruct (g_tv g) eqn:Etv; [|repeat split; simpl; rewrite ?Etv, ?Esv; assumption].
    destruct src as [[a|a| |]|]; try (exfalso; tauto); try (exfalso; intuition discriminate).
    destruct Hc as (_ & Htf & _ & Ha).
    unfold temporal2spectral_fft, with_s; repeat split; simpl; try assumption.
    intros _; rewrite Htf; reflexivity.
Qed.

Lemma last_set_snoc s h o : last_set s (h ++ [o]) = upd s (last_set s h) o.
Proof.
  induction h as [|x h IH]; simpl.
  - destruct o; reflexivity.
  - rewrite IH. destruct o as [a|a| |]; simpl; try reflexivity;
      destruct (acceptable s a); reflexivity.
Qed.

Lemma Coh_out s h g o : Coh s (last_set s h) g -> out_ok s h o (snd (gstep g o)).
Proof.
  intros (He & Hd & Hts & Htd & Hss & Hsd & Hc).
  destruct o as [a|a| |]; simpl.
  - unfold set_temporal_field, acceptable. rewrite Hts, Hd.
    destruct (shape_eqb (shp a) s); destruct (dtype_eqb (dty a) Complex128); reflexivity.
  - unfold set_spectral_field, acceptable. rewrite Hss.
    destruct (shape_eqb (shp a) s); destruct (dtype_eqb (dty a) Complex128); reflexivity.
  - eexists; split; [reflexivity|]. unfold temporal_read_ok, get_temporal_field.
    destruct (last_set s h) as [[a|a| |]|]; try contradiction.
    + destruct Hc as (Htv & Htf & _). rewrite Htv; simpl. congruence.
    + destruct Hc as (Hsv & Hsf & Htf & _). rewrite Hsv.
      destruct (g_tv g); simpl.
      * exists (np_fft_last a); split; [rewrite Htf; reflexivity | apply np_fft_is_dft].
      * exists (np_fft_last a); split; [rewrite Hsf; reflexivity | apply np_fft_is_dft].
    + destruct Hc as (-> & ->); reflexivity.
  - eexists; split; [reflexivity|]. unfold spectral_read_ok, get_spectral_field.
    rewrite He; simpl.
    destruct (last_set s h) as [[a|a| |]|]; try contradiction.
    + destruct Hc as (Htv & Htf & Hsf & _). rewrite Htv.
      destruct (g_sv g); simpl.
      * exists (np_ifft_last a); split; [rewrite Hsf; reflexivity | apply np_ifft_is_idft].
      * exists (np_ifft_last a); split; [rewrite Htf; reflexivity | apply np_ifft_is_idft].
    + destruct Hc as (Hsv & Hsf & _). rewrite Hsv; simpl. congruence.
    + destruct Hc as (-> & ->); reflexivity.
Qed.

Lemma grun_snoc g h o : grun g (h ++ [o]) = fst (gstep (grun g h) o).
Proof. revert g; induction h as [|x h IH]; intros g; simpl; auto. Qed.

Lemma Coh_run s g h : Coh s None g -> Coh s (last_set s h) (grun g h).
Proof.
  intros Hg. induction h as [|o h IH] using rev_ind; [exact Hg|].
  rewrite grun_snoc, last_set_snoc. apply Coh_step, IH.
Qed.

(** ** Fresh grids *)
Definition fresh_env (g : grid) (s : list nat) : Prop := Coh s None g.

Lemma build_axes_inv nd i lo hi np r : build_axes nd i lo hi np = Ok r ->
  length (fst r) = nd /\ length (snd r) = nd /\
  forall q, (q < nd)%nat -> exists n, nth_error np (i + q) = Some n /\ (2 <= n)%nat /\
     nth q (fst r) [] = linspace (vget lo (i + q)) (vget hi (i + q)) n /\
     nth q (snd r) 0 = (vget hi (i + q) - vget lo (i + q)) / (INR n - 1).
Proof.
  revert i r; induction nd as [|nd IH]; intros i r; cbn [build_axes].
  - intros [= <-]; simpl; repeat split; intros q Hq; lia.
  - destruct (nth_error np i) as [n|] eqn:En; [|discriminate].
    destruct (nth_error (linspace (vget lo i) (vget hi i) n) 1) as [a1|] eqn:Ea; [|discriminate].
    destruct (build_axes nd (S i) lo hi np) as [r'|e] eqn:Eb; simpl; [|discriminate].
    intros [= <-]. destruct (IH _ _ Eb) as (H1 & H2 & H3); simpl.
    split; [lia|split; [lia|]].
    intros q Hq. destruct q as [|q].
    + exists n. rewrite Nat.add_0_r.
      destruct n as [|[|n]]; simpl in Ea; try discriminate.
      split; [assumption|split; [lia|split; [reflexivity|]]].
      simpl in Ea. injection Ea as <-.
      replace (vget (linspace (vget lo i) (vget hi i) (S (S n))) 0) with (vget lo i)
        by (unfold vget at 2; simpl; lra).
      rewrite (S_INR (S n)). simpl. lra.
    + destruct (H3 q) as (n' & ? & ? & ? & ?); [lia|].
      exists n'. rewrite <- Nat.add_succ_comm. auto.
Qed.

Lemma build_axes_ok nd i lo hi np :
  (forall q, (q < nd)%nat -> exists n, nth_error np (i + q) = Some n /\ (2 <= n)%nat) ->
  exists r, build_axes nd i lo hi np = Ok r.
Proof.
  revert i; induction nd as [|nd IH]; intros i H; simpl; [eauto|].
  destruct (H 0%nat) as (n & Hn & Hn2); [lia|]. rewrite Nat.add_0_r in Hn. rewrite Hn.
  destruct n as [|[|n]]; try lia. simpl.
  destruct (IH (S i)) as (r & Hr).
  { intros q Hq. destruct (H (S q)) as (n' & ? & ?); [lia|].
    exists n'. rewrite Nat.add_succ_comm. auto. }
  rewrite Hr; simpl; eauto.
Qed.

Lemma grid_init_fresh d lo hi np nm g : grid_init d lo hi np nm true = Ok g ->
  Coh (g_shape g) None g.
Proof.
  unfold grid_init. destruct d; simpl.
  - destruct (Nat.eqb (length lo) 2); [simpl|discriminate].
    destruct (Nat.eqb (length hi) 2); [simpl|discriminate].
    match goal with |- context [bind ?m _] => destruct m as [r|e] end; [simpl|discriminate].
    destruct nm as [M|]; [|discriminate].
    match goal with |- context [if ?b then Err ValueError else _] => destruct b end; [discriminate|].
    intros [= <-]; repeat split.
  - destruct (Nat.eqb (length lo) 3); [simpl|discriminate].
    destruct (Nat.eqb (length hi) 3); [simpl|discriminate].
    match goal with |- context [bind ?m _] => destruct m as [r|e] end; [simpl|discriminate].
    intros [= <-]; repeat split.
  - discriminate.
Qed.

(** C01 *)
Lemma gouts_nth g h n o : nth_error h n = Some o ->
  nth_error (gouts g h) n = Some (snd (gstep (grun g (firstn n h)) o)).
Proof.
  revert g n; induction h as [|x h IH]; intros g [|n]; simpl; try discriminate.
  - intros [= ->]; reflexivity.
  - intros H; apply IH; exact H.
Qed.

Lemma cache_coherent d lo hi np nm g : grid_init d lo hi np nm true = Ok g ->
  forall h n o, nth_error h n = Some o ->
  exists r, nth_error (gouts g h) n = Some r /\ out_ok (g_shape g) (firstn n h) o r.
Proof.
  intros Hi h n o Hn. exists (snd (gstep (grun g (firstn n h)) o)); split.
  - apply gouts_nth; exact Hn.
  - apply Coh_out, Coh_run, (grid_init_fresh _ _ _ _ _ _ Hi).
Qed.

(** C03 : non-envelope and unchanged-on-error *)
Lemma set_temporal_err g a g' e : set_temporal_field g a = (g', Err e) -> g' = g /\ e = AssertionError.
Proof.
  unfold set_temporal_field. destruct (negb _); [intros [= <- <-]; auto|].
  destruct (negb _); [intros [= <- <-]; auto|discriminate].
Qed.
Lemma set_spectral_err g a g' e : set_spectral_field g a = (g', Err e) -> g' = g /\ e = AssertionError.
Proof.
  unfold set_spectral_field. destruct (negb _); [intros [= <- <-]; auto|].
  destruct (negb _); [intros [= <- <-]; auto|discriminate].
Qed.

(** C04 *)
Lemma ifft_fft_last a i j k : (k < dim2 a)%nat ->
  at3 (np_ifft_last (np_fft_last a)) i j k = at3 a i j k.
Proof. intros H. unfold np_ifft_last, np_fft_last; simpl. apply (ifft_fft1 _ _ _ H). Qed.
Lemma fft_ifft_last a i j k : (k < dim2 a)%nat ->
  at3 (np_fft_last (np_ifft_last a)) i j k = at3 a i j k.
Proof. intros H. unfold np_ifft_last, np_fft_last; simpl. apply (fft_ifft1 _ _ _ H). Qed.

(** C05: histories with set_is_envelope. *)
Inductive gop5 : Type := Call (o : gop) | SetEnv (b : bool).
Definition gstep5 (g : grid) (o : gop5) : grid :=
  match o with Call o => fst (gstep g o) | SetEnv b => set_is_envelope g b end.
Fixpoint grun5 (g : grid) (h : list gop5) : grid :=
  match h with [] => g | o :: t => grun5 (gstep5 g o) t end.

(** No set_is_envelope(False) is issued while both representations are cached. *)
Fixpoint no_toggle_when_both_cached (g : grid) (h : list gop5) : Prop :=
  match h with
  | [] => True
  | o :: t => (o = SetEnv false -> ~ (g_tv g = true /\ g_sv g = true)) /\
              no_toggle_when_both_cached (gstep5 g o) t
  end.

Definition Coh5 (g : grid) : Prop :=
  shp (g_tf g) = shp (g_sf g) /\
  (g_tv g = true -> g_sv g = true ->
   forall i j k, (k < dim2 (g_sf g))%nat ->
     at3 (g_sf g) i j k = ifft1 (dim2 (g_sf g)) (fun q => at3 (g_tf g) i j q) k).

Lemma Coh5_call g o : Coh5 g -> Coh5 (fst (gstep g o)).
Proof.
  intros (Hs & Hc). destruct o as [a|a| |]; simpl.
  - unfold set_temporal_field. destruct (negb _); [split; assumption|].
    destruct (negb _); [split; assumption|]. split; simpl; [assumption|discriminate].
  - unfold set_spectral_field. destruct (negb _); [split; assumption|].
    destruct (negb _); [split; assumption|]. split; simpl; [assumption|discriminate].
  - unfold get_temporal_field. destruct (g_tv g) eqn:E1; [split; simpl; rewrite ?E1; auto|].
    destruct (g_sv g) eqn:E2; [|split; simpl; rewrite ?E1, ?E2; auto].
    split; simpl; [reflexivity|]. intros _ _ i j k Hk.
    symmetry. apply (ifft_fft1 _ _ _ Hk).
  - unfold get_spectral_field. destruct (negb _); [split; simpl; auto|].
    destruct (g_sv g) eqn:E2; [split; simpl; rewrite ?E2; auto|].
    destruct (g_tv g) eqn:E1; [|split; simpl; rewrite ?E1, ?E2; auto].
    split; simpl; [reflexivity|]. intros _ _ i j k Hk. reflexivity.
Qed.
Lemma Coh5_env g b : Coh5 g -> (b = false -> ~ (g_tv g = true /\ g_sv g = true)) ->
  Coh5 (set_is_envelope g b).
Proof.
  intros (Hs & Hc) Hb. split; simpl; [assumption|].
  destruct b; simpl; [exact Hc|]. intros H1 H2. exfalso; apply Hb; auto.
Qed.
Lemma Coh5_run g h : Coh5 g -> no_toggle_when_both_cached g h -> Coh5 (grun5 g h).
Proof.
  revert g; induction h as [|o h IH]; intros g Hg; simpl; [auto|].
  intros (Ho & Hh). apply IH; [|exact Hh].
  destruct o as [o|b]; simpl; [apply Coh5_call; exact Hg|].
  apply Coh5_env; [exact Hg|]. intros ->; apply Ho; reflexivity.
Qed.
Lemma Coh5_reads g a b : Coh5 g ->
  snd (get_temporal_field g) = Ok a -> snd (get_spectral_field g) = Ok b ->
  shp a = shp b /\ forall i j k, (k < dim2 b)%nat ->
     at3 b i j k = ifft1 (dim2 b) (fun q => at3 a i j q) k.
Proof.
  intros (Hs & Hc). unfold get_temporal_field, get_spectral_field.
  destruct (g_tv g) eqn:E1, (g_sv g) eqn:E2, (g_isenv g); simpl; intros [= <-] [= <-].
  - split; [assumption|]. auto.
  - split; [reflexivity|]. reflexivity.
  - split; [reflexivity|]. simpl. intros i j k Hk. symmetry; apply (ifft_fft1 _ _ _ Hk).
Qed.
Lemma Coh5_init d lo hi np nm b g : grid_init d lo hi np nm b = Ok g -> Coh5 g.
Proof.
  unfold grid_init. destruct d; simpl.
  - destruct (Nat.eqb (length lo) 2); [simpl|discriminate].
    destruct (Nat.eqb (length hi) 2); [simpl|discriminate].
    match goal with |- context [bind ?m _] => destruct m as [r|e] end; [simpl|discriminate].
    destruct nm as [M|]; [|discriminate].
    match goal with |- context [if ?b then Err ValueError else _] => destruct b end; [discriminate|].
    intros [= <-]; split; simpl; [reflexivity|discriminate].
  - destruct (Nat.eqb (length lo) 3); [simpl|discriminate].
    destruct (Nat.eqb (length hi) 3); [simpl|discriminate].
    match goal with |- context [bind ?m _] => destruct m as [r|e] end; [simpl|discriminate].
    intros [= <-]; split; simpl; [reflexivity|discriminate].
  - discriminate.
Qed.

(** Refutation witness for C05: set i, read the spectrum, drop to real and back. *)
Definition w5_field : ndarray := mkArr [2;2;2]%nat Complex128 (fun _ _ _ => Ci).
Definition w5_hist : list gop5 :=
  [Call (SetT w5_field); Call GetS; SetEnv false; SetEnv true].

Lemma c05_refuted :
  exists g a b, grid_init Xyt [0;0;0] [1;1;1] [2;2;2]%nat None true = Ok g /\
    snd (get_temporal_field (grun5 g w5_hist)) = Ok a /\
    snd (get_spectral_field (grun5 g w5_hist)) = Ok b /\
    ~ (forall i j k, (k < dim2 b)%nat -> at3 b i j k = ifft1 (dim2 b) (fun q => at3 a i j q) k).
Proof.
  eexists; eexists; eexists. split; [reflexivity|]. split; [reflexivity|]. split; [reflexivity|].
  intros H. specialize (H 0%nat 0%nat 0%nat). simpl in H. unfold dim2, ifft1 in H; simpl in H.
  specialize (H ltac:(lia)).
  assert (Hc : cis (2 * PI * (0 * 0) / (1+1)) = RtoC 1).
  { replace (2 * PI * (0 * 0) / (1+1)) with 0 by field. unfold cis; rewrite cos_0, sin_0; reflexivity. }
  assert (Hc' : cis (2 * PI * (0 * 1) / (1+1)) = RtoC 1).
  { replace (2 * PI * (0 * 1) / (1+1)) with 0 by field. unfold cis; rewrite cos_0, sin_0; reflexivity. }
  rewrite Hc, Hc' in H. apply (f_equal snd) in H. simpl in H. lra.
Qed.

(** C06 *)

Lemma grid_init_ok_iff d lo hi np nm b :
  (exists g, grid_init d lo hi np nm b = Ok g) <->
  d <> OtherDim /\ length lo = ndims_of d /\ length hi = ndims_of d /\
  (forall q, (q < ndims_of d)%nat -> exists n, nth_error np q = Some n /\ (2 <= n)%nat) /\
  (d = Rt -> exists M, nm = Some M /\ (1 <= M)%Z).
Proof.
  unfold grid_init, ndims_of. split.
  - intros (g & H). destruct d; cbn [pyassert bind] in H.
    + destruct (Nat.eqb_spec (length lo) 2); [cbn [pyassert bind] in H|discriminate].
      destruct (Nat.eqb_spec (length hi) 2); [cbn [pyassert bind] in H|discriminate].
      destruct (build_axes 2 0 lo hi np) as [r|e'] eqn:Eb; [cbn [bind] in H|discriminate].
      destruct nm as [M|]; [|discriminate].
      destruct (Z.ltb_spec (2 * M - 1) 0); [discriminate|].
      repeat split; try assumption; try discriminate.
      * intros q Hq. apply build_axes_inv in Eb. destruct Eb as (_ & _ & Eb).
        destruct (Eb q Hq) as (n & ? & ? & _). eauto.
      * intros _; exists M; split; [reflexivity|lia].
    + destruct (Nat.eqb_spec (length lo) 3); [cbn [pyassert bind] in H|discriminate].
      destruct (Nat.eqb_spec (length hi) 3); [cbn [pyassert bind] in H|discriminate].
      destruct (build_axes 3 0 lo hi np) as [r|e'] eqn:Eb; [cbn [bind] in H|discriminate].
      repeat split; try assumption; try discriminate.
      intros q Hq. apply build_axes_inv in Eb. destruct Eb as (_ & _ & Eb).
      destruct (Eb q Hq) as (n & ? & ? & _). eauto.
    + discriminate.
  - intros (Hd & Hlo & Hhi & Hn & HM).
    destruct d; [| |congruence].
    + rewrite Hlo, Hhi. cbn [Nat.eqb pyassert bind].
      destruct (build_axes_ok 2 0 lo hi np) as (r & Hr); [exact Hn|]. rewrite Hr; cbn [bind].
      destruct (HM eq_refl) as (M & -> & HM1).
      destruct (Z.ltb_spec (2 * M - 1) 0); [lia|eauto].
    + rewrite Hlo, Hhi. cbn [Nat.eqb pyassert bind].
      destruct (build_axes_ok 3 0 lo hi np) as (r & Hr); [exact Hn|]. rewrite Hr; cbn [bind]. eauto.
Qed.

Lemma linspace_length lo hi n : length (linspace lo hi n) = n.
Proof. destruct n as [|[|n]]; try reflexivity. unfold linspace. rewrite map_length, seq_length; reflexivity. Qed.
Lemma linspace_nth lo hi n i : (2 <= n)%nat -> (i < n)%nat ->
  vget (linspace lo hi n) i = lo + INR i * ((hi - lo) / (INR n - 1)).
Proof.
  intros Hn Hi. destruct n as [|[|n]]; try lia. unfold vget, linspace.
  set (f := fun i0 : nat => lo + INR i0 * ((hi - lo) / (INR (S (S n)) - 1))).
  rewrite (nth_indep _ 0 (f 0%nat)) by (rewrite map_length, seq_length; exact Hi).
  rewrite map_nth, seq_nth by exact Hi. reflexivity.
Qed.
Lemma INR_m1_neq0 n : (2 <= n)%nat -> INR n - 1 <> 0.
Proof. intros Hn. apply le_INR in Hn. simpl in Hn. lra. Qed.

Lemma grid_init_axes d lo hi np nm b g : grid_init d lo hi np nm b = Ok g ->
  g_lo g = lo /\ g_hi g = hi /\ length (g_axes g) = ndims_of d /\ length (g_dx g) = ndims_of d /\
  forall q, (q < ndims_of d)%nat -> exists n, nth_error np q = Some n /\
    let ax := nth q (g_axes g) [] in let dx := nth q (g_dx g) 0 in
    length ax = n /\ vget ax 0 = vget lo q /\ vget ax (n - 1) = vget hi q /\
    dx = (vget hi q - vget lo q) / (INR n - 1) /\
    (forall i, (S i < n)%nat -> vget ax (S i) - vget ax i = dx).
Proof.
  intros H.
  assert (Hr : exists r, build_axes (ndims_of d) 0 lo hi np = Ok r /\ g_axes g = fst r /\
               g_dx g = snd r /\ g_lo g = lo /\ g_hi g = hi).
  { unfold grid_init, ndims_of in *. destruct d; cbn [pyassert bind] in H.
    - destruct (Nat.eqb (length lo) 2); [cbn [pyassert bind] in H|discriminate].
      destruct (Nat.eqb (length hi) 2); [cbn [pyassert bind] in H|discriminate].
      destruct (build_axes 2 0 lo hi np) as [r|e'] eqn:Eb; [cbn [bind] in H|discriminate].
      destruct nm as [M|]; [|discriminate].
      destruct (Z.ltb (2 * M - 1) 0); [discriminate|]. injection H as <-. exists r; auto.
    - destruct (Nat.eqb (length lo) 3); [cbn [pyassert bind] in H|discriminate].
      destruct (Nat.eqb (length hi) 3); [cbn [pyassert bind] in H|discriminate].
      destruct (build_axes 3 0 lo hi np) as [r|e'] eqn:Eb; [cbn [bind] in H|discriminate].
      injection H as <-. exists r; auto.
    - discriminate. }
  destruct Hr as (r & Hb & Ha & Hx & Hl & Hh).
  apply build_axes_inv in Hb. destruct Hb as (Hl1 & Hl2 & Hq).
  rewrite Ha, Hx. repeat split; try assumption.
  intros q Hqd. destruct (Hq q Hqd) as (n & Hn & Hn2 & Hax & Hdx). simpl in Hax, Hdx, Hn.
  exists n. split; [assumption|]. cbn zeta. rewrite Hax, Hdx.
  pose proof (INR_m1_neq0 n Hn2) as Hne.
  rewrite linspace_length, !linspace_nth by lia.
  repeat split.
  - simpl; lra.
  - rewrite minus_INR by lia. simpl. field. exact Hne.
  - intros i Hi. rewrite !linspace_nth by lia. rewrite S_INR. field. exact Hne.
Qed.

Lemma zarange_length a b : length (zarange a b) = Z.to_nat (b - a).
Proof. unfold zarange; rewrite map_length, seq_length; reflexivity. Qed.
Lemma zarange_nth_error a b i : (i < Z.to_nat (b - a))%nat ->
  nth_error (zarange a b) i = Some (a + Z.of_nat i)%Z.
Proof.
  intros Hi. unfold zarange. rewrite nth_error_map.
  rewrite (nth_error_nth' _ 0%nat) by (rewrite seq_length; exact Hi).
  rewrite seq_nth by exact Hi. reflexivity.
Qed.
Lemma azimuthal_modes_length M : (1 <= M)%Z -> length (azimuthal_modes M) = Z.to_nat (2 * M - 1).
Proof. intros HM. unfold azimuthal_modes. rewrite app_length, !zarange_length. lia. Qed.

(** The mode stored in slot i. *)
Lemma azimuthal_modes_slot (M : nat) m : (1 <= M)%nat -> (- Z.of_nat M < m < Z.of_nat M)%Z ->
  nth_error (azimuthal_modes (Z.of_nat M)) (mode_slot M m) = Some m /\
  (mode_slot M m < 2 * M - 1)%nat.
Proof.
  intros HM Hm. unfold azimuthal_modes, mode_slot.
  destruct (Z.leb_spec 0 m).
  - split; [|lia]. rewrite nth_error_app1 by (rewrite zarange_length; lia).
    rewrite zarange_nth_error by lia. f_equal; lia.
  - split; [|lia]. rewrite nth_error_app2 by (rewrite zarange_length; lia).
    rewrite zarange_length. rewrite zarange_nth_error by lia. f_equal; lia.
Qed.
Lemma azimuthal_modes_NoDup (M : nat) : NoDup (azimuthal_modes (Z.of_nat M)).
Proof.
  unfold azimuthal_modes.
  assert (Hz : forall a b, NoDup (zarange a b)).
  { intros a b. unfold zarange. apply FinFun.Injective_map_NoDup; [|apply seq_NoDup].
    intros x y; lia. }
  assert (Hin : forall a b x, In x (zarange a b) -> (a <= x < b)%Z).
  { intros a b x. unfold zarange. rewrite in_map_iff. intros (i & <- & Hi).
    apply in_seq in Hi. lia. }
  generalize (Hin 0%Z (Z.of_nat M)), (Hin (- Z.of_nat M + 1)%Z 0%Z).
  intros H1 H2. induction (Hz 0%Z (Z.of_nat M)) as [|x l Hx Hl IH]; simpl; [apply Hz|].
  constructor.
  - rewrite in_app_iff. intros [H|H]; [contradiction|].
    specialize (H1 x (or_introl eq_refl)). specialize (H2 x H). lia.
  - apply IH. intros y Hy. apply H1. right; exact Hy.
Qed.
Lemma azimuthal_modes_In (M : nat) m : In m (azimuthal_modes (Z.of_nat M)) <->
  (1 <= M)%nat /\ (- Z.of_nat M < m < Z.of_nat M)%Z.
Proof.
  split.
  - unfold azimuthal_modes. rewrite in_app_iff. unfold zarange. rewrite !in_map_iff.
    intros [(i & <- & Hi)|(i & <- & Hi)]; apply in_seq in Hi; lia.
  - intros (HM & Hm). apply (nth_error_In _ (mode_slot M m)).
    apply azimuthal_modes_slot; assumption.
Qed.

Lemma grid_init_rt lo hi np M b g : grid_init Rt lo hi np (Some M) b = Ok g ->
  g_shape g = [(2 * Z.to_nat M - 1)%nat; nth 0 np 0%nat; nth 1 np 0%nat] /\
  g_modes g = Some (azimuthal_modes M) /\ g_nmodes g = Some (Z.to_nat M) /\ (1 <= M)%Z.
Proof.
  unfold grid_init. cbn [pyassert bind].
  destruct (Nat.eqb (length lo) 2); [cbn [pyassert bind]|discriminate].
  destruct (Nat.eqb (length hi) 2); [cbn [pyassert bind]|discriminate].
  match goal with |- context [bind ?m _] => destruct m as [r|e] end; [cbn [pyassert bind]|discriminate].
  destruct (Z.ltb_spec (2 * M - 1) 0); [discriminate|].
  remember (2 * M - 1)%Z as q eqn:Eq.
  intros [= <-]. cbn [g_shape g_modes g_nmodes]. split; [|split; [reflexivity|split; [reflexivity|lia]]].
  replace (Z.to_nat q) with (2 * Z.to_nat M - 1)%nat by lia. reflexivity.
Qed.
Lemma py_index_slot (M : nat) m : (1 <= M)%nat -> (- Z.of_nat M < m < Z.of_nat M)%Z ->
  py_index (2 * M - 1) m = Some (mode_slot M m).
Proof.
  intros HM Hm. unfold py_index, mode_slot.
  destruct (Z.leb_spec 0 m).
  - destruct (Z.ltb_spec m (Z.of_nat (2 * M - 1))); [reflexivity|lia].
  - destruct (Z.leb_spec 0 (m + Z.of_nat (2 * M - 1))); [f_equal; lia|lia].
Qed.

Lemma read_before_write d lo hi np nm b g : grid_init d lo hi np nm b = Ok g ->
  get_temporal_field g = (g, Err ValueError) /\
  get_spectral_field g = (g, Err (if b then ValueError else AssertionError)).
Proof.
  intros H.
  assert (Hf : g_tv g = false /\ g_sv g = false /\ g_isenv g = b).
  { unfold grid_init in H. destruct d; cbn [pyassert bind] in H.
    - destruct (Nat.eqb (length lo) 2); [cbn [pyassert bind] in H|discriminate].
      destruct (Nat.eqb (length hi) 2); [cbn [pyassert bind] in H|discriminate].
      destruct (build_axes 2 0 lo hi np) as [r|e']; [cbn [bind] in H|discriminate].
      destruct nm as [M|]; [|discriminate].
      destruct (Z.ltb (2 * M - 1) 0); [discriminate|]. injection H as <-. auto.
    - destruct (Nat.eqb (length lo) 3); [cbn [pyassert bind] in H|discriminate].
      destruct (Nat.eqb (length hi) 3); [cbn [pyassert bind] in H|discriminate].
      destruct (build_axes 3 0 lo hi np) as [r|e']; [cbn [bind] in H|discriminate].
      injection H as <-. auto.
    - discriminate. }
  destruct Hf as (H1 & H2 & H3). unfold get_temporal_field, get_spectral_field.
  rewrite H1, H2, H3. destruct b; auto.
Qed.

Lemma set_rejections g a :
  (snd (set_temporal_field g a) = Ok tt <-> shp a = shp (g_tf g) /\ dty a = g_dtype g) /\
  (snd (set_spectral_field g a) = Ok tt <-> shp a = shp (g_sf g) /\ dty a = Complex128) /\
  (forall g' e, set_temporal_field g a = (g', Err e) -> g' = g /\ e = AssertionError) /\
  (forall g' e, set_spectral_field g a = (g', Err e) -> g' = g /\ e = AssertionError) /\
  (g_isenv g = false -> get_spectral_field g = (g, Err AssertionError)).
Proof.
  split; [|split; [|split; [apply set_temporal_err|split; [apply set_spectral_err|]]]].
  - unfold set_temporal_field.
    destruct (shape_eqb (shp a) (shp (g_tf g))) eqn:E1; simpl.
    + apply shape_eqb_true in E1. destruct (dtype_eqb (dty a) (g_dtype g)) eqn:E2; simpl.
      * apply dtype_eqb_true in E2. tauto.
      * apply dtype_eqb_false in E2. split; [discriminate|tauto].
    + apply shape_eqb_false in E1. split; [discriminate|tauto].
  - unfold set_spectral_field.
    destruct (shape_eqb (shp a) (shp (g_sf g))) eqn:E1; simpl.
    + apply shape_eqb_true in E1. destruct (dtype_eqb (dty a) Complex128) eqn:E2; simpl.
      * apply dtype_eqb_true in E2. tauto.
      * apply dtype_eqb_false in E2. split; [discriminate|tauto].
    + apply shape_eqb_false in E1. split; [discriminate|tauto].
  - unfold get_spectral_field. intros ->; reflexivity.
Qed.

Lemma is_dft_unique b b' a : is_dft_of b a -> is_dft_of b' a -> arr_eq b b'.
Proof.
  intros (S1 & D1 & E1) (S2 & D2 & E2). repeat split; try congruence.
  intros i j k _. rewrite E1, E2; reflexivity.
Qed.

Lemma api_roundtrip d lo hi np nm g a : grid_init d lo hi np nm true = Ok g ->
  acceptable (g_shape g) a = true ->
  (exists s b, nth_error (gouts g [SetT a; GetS]) 1 = Some (OutArr (Ok s)) /\
     nth_error (gouts g [SetS s; GetT]) 1 = Some (OutArr (Ok b)) /\ arr_eq b a) /\
  (exists s b, nth_error (gouts g [SetS a; GetT]) 1 = Some (OutArr (Ok s)) /\
     nth_error (gouts g [SetT s; GetS]) 1 = Some (OutArr (Ok b)) /\ arr_eq b a).
Proof.
  intros Hg Ha. pose proof (proj1 (acceptable_true _ _) Ha) as (Hs & Hd).
  split.
  - destruct (cache_coherent _ _ _ _ _ _ Hg [SetT a; GetS] 1%nat GetS eq_refl) as (r & Hr & Ho).
    simpl in Ho. unfold spectral_read_ok in Ho. simpl in Ho. rewrite Ha in Ho.
    destruct Ho as (x & -> & s & -> & Hs1 & Hs2 & Hs3).
    assert (Has : acceptable (g_shape g) s = true) by (apply acceptable_true; split; congruence).
    destruct (cache_coherent _ _ _ _ _ _ Hg [SetS s; GetT] 1%nat GetT eq_refl) as (r & Hr' & Ho).
    simpl in Ho. unfold temporal_read_ok in Ho. simpl in Ho. rewrite Has in Ho.
    destruct Ho as (x & -> & b & -> & Hb1 & Hb2 & Hb3).
    exists s, b. split; [exact Hr|split; [exact Hr'|]].
    split; [congruence|split; [congruence|]].
    intros i j k (_ & _ & Hk). rewrite Hb3.
    assert (Hda : dim2 s = dim2 a) by (unfold dim2; congruence).
    assert (Hdb : dim2 b = dim2 a) by (unfold dim2; congruence).
    rewrite Hda. rewrite Hdb in Hk.
    rewrite <- (fft_ifft1 (dim2 a) (fun q => at3 a i j q) k Hk).
    apply (fft1_ext (dim2 a)). intros n _. apply Hs3.
  - destruct (cache_coherent _ _ _ _ _ _ Hg [SetS a; GetT] 1%nat GetT eq_refl) as (r & Hr & Ho).
    simpl in Ho. unfold temporal_read_ok in Ho. simpl in Ho. rewrite Ha in Ho.
    destruct Ho as (x & -> & s & -> & Hs1 & Hs2 & Hs3).
    assert (Has : acceptable (g_shape g) s = true) by (apply acceptable_true; split; congruence).
    destruct (cache_coherent _ _ _ _ _ _ Hg [SetT s; GetS] 1%nat GetS eq_refl) as (r & Hr' & Ho).
    simpl in Ho. unfold spectral_read_ok in Ho. simpl in Ho. rewrite Has in Ho.
    destruct Ho as (x & -> & b & -> & Hb1 & Hb2 & Hb3).
    exists s, b. split; [exact Hr|split; [exact Hr'|]].
    split; [congruence|split; [congruence|]].
    intros i j k (_ & _ & Hk). rewrite Hb3.
    assert (Hda : dim2 s = dim2 a) by (unfold dim2; congruence).
    assert (Hdb : dim2 b = dim2 a) by (unfold dim2; congruence).
    rewrite Hda. rewrite Hdb in Hk.
    rewrite <- (ifft_fft1 (dim2 a) (fun q => at3 a i j q) k Hk).
    apply (ifft1_ext (dim2 a)). intros n _. apply Hs3.
Qed.

Lemma parseval_last a i j : (0 < dim2 a)%nat ->
  rsum (dim2 a) (fun k => Cnorm2 (at3 a i j k)) =
  INR (dim2 a) * rsum (dim2 a) (fun k => Cnorm2 (at3 (np_ifft_last a) i j k)).
Proof.
  intros HN. unfold np_ifft_last; simpl.
  exact (parseval_ifft (dim2 a) (fun q => at3 a i j q) HN).
Qed.

Lemma mode_layout lo hi np M b g : grid_init Rt lo hi np (Some (Z.of_nat M)) b = Ok g ->
  exists modes, g_modes g = Some modes /\
  g_shape g = [(2 * M - 1)%nat; nth 0 np 0%nat; nth 1 np 0%nat] /\
  length modes = (2 * M - 1)%nat /\ NoDup modes /\
  (forall m, In m modes <-> (- Z.of_nat M < m < Z.of_nat M)%Z) /\
  (forall m, (- Z.of_nat M < m < Z.of_nat M)%Z ->
     py_index (2 * M - 1) m = Some (mode_slot M m) /\ nth_error modes (mode_slot M m) = Some m).
Proof.
  intros Hg. destruct (grid_init_rt _ _ _ _ _ _ Hg) as (H1 & H2 & H3 & H4).
  rewrite Nat2Z.id in H1. assert (HM : (1 <= M)%nat) by lia.
  exists (azimuthal_modes (Z.of_nat M)). split; [exact H2|]. split; [exact H1|].
  split; [rewrite azimuthal_modes_length by lia; lia|].
  split; [apply azimuthal_modes_NoDup|]. split.
  - intros m. rewrite azimuthal_modes_In. split; [tauto|auto].
  - intros m Hm. split; [apply py_index_slot; assumption|]. apply azimuthal_modes_slot; assumption.
Qed.
