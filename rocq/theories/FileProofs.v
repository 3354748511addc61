(** C26: numbering of output files. *)
From Coq Require Import String Ascii DecimalString DecimalNat Decimal.
From Verif Require Import PyBase CSum NumPy GridModel GridObs EnergyModel LaserModel LaserOps AnalysisModel OpenPMDModel FileSpec LaserInv.
Open Scope R_scope.

(** ** Strings *)
Lemma sapp_assoc s t u : ((s ++ t) ++ u)%string = (s ++ (t ++ u))%string.
Proof. induction s; simpl; [reflexivity|f_equal; exact IHs]. Qed.
Lemma has_char_app c s t : has_char c (s ++ t) <-> has_char c s \/ has_char c t.
Proof. induction s; simpl; tauto. Qed.

Lemma split_last c s1 : forall s2 t1 t2, ~ has_char c t1 -> ~ has_char c t2 ->
  (s1 ++ String c t1)%string = (s2 ++ String c t2)%string -> t1 = t2.
Proof.
  induction s1 as [|a s1 IH]; intros [|b s2] t1 t2 H1 H2 E; simpl in E.
  - injection E; auto.
  - injection E as <- E. exfalso. apply H1. rewrite E. apply has_char_app. right; simpl; auto.
  - injection E as -> E. exfalso. apply H2. rewrite <- E. apply has_char_app. right; simpl; auto.
  - injection E as -> E. eapply IH; eauto.
Qed.
Lemma split_first c s1 : forall s2 t1 t2, ~ has_char c s1 -> ~ has_char c s2 ->
  (s1 ++ String c t1)%string = (s2 ++ String c t2)%string -> s1 = s2.
Proof.
  induction s1 as [|a s1 IH]; intros [|b s2] t1 t2 H1 H2 E; simpl in E, H1, H2.
  - reflexivity.
  - injection E as <- _. tauto.
  - injection E as -> _. tauto.
  - injection E as -> E. f_equal. apply (IH s2 t1 t2); tauto.
Qed.

(** ** Numbers *)
Definition parse (s : string) : option nat := option_map Nat.of_uint (NilEmpty.uint_of_string s).
Lemma parse_zeros k s : parse (zeros_str k ++ s) = parse s.
Proof.
  induction k as [|k IH]; [reflexivity|]. simpl. rewrite <- IH. unfold parse.
  change (NilEmpty.uint_of_string (String "0" (zeros_str k ++ s)))
    with (option_map D0 (NilEmpty.uint_of_string (zeros_str k ++ s))).
  destruct (NilEmpty.uint_of_string (zeros_str k ++ s)); reflexivity.
Qed.
Lemma little_nonnil n : forall d, d <> Nil -> Nat.to_little_uint n d <> Nil.
Proof.
  induction n as [|n IH]; intros d Hd; simpl; [exact Hd|]. apply IH. destruct d; simpl; congruence.
Qed.
Lemma revapp_nonnil d : forall e, d <> Nil \/ e <> Nil -> revapp d e <> Nil.
Proof. induction d; intros e [H|H]; simpl; try congruence; apply IHd; right; congruence. Qed.
Lemma to_uint_nonnil n : Nat.to_uint n <> Nil.
Proof.
  unfold Nat.to_uint, rev. apply revapp_nonnil. left. apply little_nonnil. discriminate.
Qed.
Lemma digits_eq n : digits n = NilEmpty.string_of_uint (Nat.to_uint n).
Proof.
  unfold digits, NilZero.string_of_uint. pose proof (to_uint_nonnil n). destruct (Nat.to_uint n); try reflexivity; congruence.
Qed.
Lemma parse_pad5 n : parse (pad5 n) = Some n.
Proof.
  unfold pad5. rewrite parse_zeros, digits_eq. unfold parse. rewrite NilEmpty.usu. simpl. f_equal. apply Unsigned.of_to.
Qed.
Lemma pad5_inj i j : pad5 i = pad5 j -> i = j.
Proof. intros H. apply (f_equal parse) in H. rewrite !parse_pad5 in H. congruence. Qed.
Lemma uint_chars c d : has_char c (NilEmpty.string_of_uint d) ->
  In c ["0";"1";"2";"3";"4";"5";"6";"7";"8";"9"]%char.
Proof. induction d; simpl; try tauto; intros [->|H]; simpl; auto 20; apply IHd in H; exact H. Qed.
Lemma zeros_chars c k : has_char c (zeros_str k) -> c = "0"%char.
Proof. induction k; simpl; [tauto|]. intros [->|H]; auto. Qed.
Lemma pad5_chars c n : has_char c (pad5 n) -> In c ["0";"1";"2";"3";"4";"5";"6";"7";"8";"9"]%char.
Proof.
  unfold pad5. rewrite has_char_app, digits_eq. intros [H|H].
  - apply zeros_chars in H. subst. simpl; auto.
  - apply uint_chars in H. exact H.
Qed.

(** ** Paths *)
Lemma path_join_suffix d f : exists pre, path_join d f = (pre ++ f)%string.
Proof.
  assert (H : forall b : bool, exists pre, (if b then f else match last_char d with
     | None => f | Some "/"%char => (d ++ f)%string | Some _ => (d ++ "/" ++ f)%string end) = (pre ++ f)%string).
  { intros [|]; [exists ""%string; reflexivity|].
    assert (H1 : exists pre, (d ++ f)%string = (pre ++ f)%string) by (exists d; reflexivity).
    assert (H2 : exists pre, (d ++ "/" ++ f)%string = (pre ++ f)%string)
      by (exists (d ++ "/")%string; symmetry; apply sapp_assoc).
    assert (H3 : exists pre, f = (pre ++ f)%string) by (exists ""%string; reflexivity).
    destruct (last_char d) as [c|]; [|exact H3].
    destruct c as [[] [] [] [] [] [] [] []]; first [exact H2|exact H1]. }
  unfold path_join. destruct f as [|c f]; [apply (H false)|].
  destruct c as [[] [] [] [] [] [] [] []]; first [apply (H false)|apply (H true)].
Qed.

Lemma file_path_shape d p x i : exists pre, file_path d p x i = (pre ++ String "_" (pad5 i ++ String "." x))%string.
Proof.
  unfold file_path, file_name. destruct (path_join_suffix d (p ++ "_" ++ pad5 i ++ "." ++ x)%string) as (pre & ->).
  exists (pre ++ p)%string. rewrite sapp_assoc. reflexivity.
Qed.

Lemma file_path_inj d p x i d' p' x' i' : ~ has_char "_" x -> ~ has_char "_" x' ->
  file_path d p x i = file_path d' p' x' i' -> i = i'.
Proof.
  intros H H' E.
  destruct (file_path_shape d p x i) as (a & Ea). destruct (file_path_shape d' p' x' i') as (a' & Ea').
  rewrite Ea, Ea' in E. apply split_last in E.
  - apply split_first in E; [apply pad5_inj, E| |]; intros Hc; apply pad5_chars in Hc; simpl in Hc;
      repeat (destruct Hc as [Hc|Hc]; [discriminate|]); exact Hc.
  - rewrite has_char_app. simpl. intros [Hc|[Hc|Hc]]; [|discriminate|exact (H Hc)].
    apply pad5_chars in Hc; simpl in Hc; repeat (destruct Hc as [Hc|Hc]; [discriminate|]); exact Hc.
  - rewrite has_char_app. simpl. intros [Hc|[Hc|Hc]]; [|discriminate|exact (H' Hc)].
    apply pad5_chars in Hc; simpl in Hc; repeat (destruct Hc as [Hc|Hc]; [discriminate|]); exact Hc.
Qed.

(** ** The counter *)
Lemma finish_iter L d s : l_iter (fst (finish L d s)) = l_iter L.
Proof. unfold finish. destruct (snd (set_spectral_field _ _)); reflexivity. Qed.
Lemma propagate_iter S L d nr ng b : l_iter (fst (propagate S L d nr ng b)) = l_iter L.
Proof.
  unfold propagate. destruct (negb _); [reflexivity|].
  destruct (snd (absorb_boundary _ _ _)); [|reflexivity].
  destruct (snd (get_spectral_field _)); [|reflexivity].
  destruct (l_dim L).
  - destruct ng as [gn|].
    + destruct (g_modes _); [|reflexivity]. destruct (negb _); [reflexivity|].
      destruct (Nat.ltb _ _); [reflexivity|]. rewrite finish_iter. reflexivity.
    + destruct (g_modes _); [|reflexivity]. cbn zeta.
      match goal with |- context [Nat.ltb ?a ?b] => destruct (Nat.ltb a b) end; [reflexivity|].
      rewrite finish_iter. reflexivity.
  - cbn zeta. rewrite finish_iter. reflexivity.
  - cbn zeta. rewrite finish_iter. reflexivity.
Qed.
Lemma lstep_iter S L o : not_write o -> l_iter (fst (lstep S L o)) = l_iter L.
Proof.
  destruct o as [d nr ng b|e|v k|w]; cbn [lstep not_write]; intros H.
  - apply propagate_iter.
  - unfold apply_optics. destruct (snd (get_spectral_field _)); reflexivity.
  - reflexivity.
  - destruct H.
Qed.

Lemma write_file_cases io L fs d p x a :
  let r := write_file io L fs d p x a in
  let bm := snd (build_mesh (l_dim L) (l_grid L) (p_lambda0 (l_prof L)) (p_pol (l_prof L)) a) in
  (exists m, bm = Ok m /\ snd (io fs (file_path d p x (l_iter L)) (Some m)) = Ok tt /\ snd r = Ok tt /\
     snd (fst r) = fst (io fs (file_path d p x (l_iter L)) (Some m)) /\ l_iter (fst (fst r)) = (l_iter L + 1)%nat) \/
  (exists e, snd r = Err e /\ l_iter (fst (fst r)) = l_iter L /\
     (snd (fst r) = fs \/ exists m, snd (fst r) = fst (io fs (file_path d p x (l_iter L)) m))).
Proof.
  cbn zeta. unfold write_file.
  destruct (snd (build_mesh (l_dim L) (l_grid L) (p_lambda0 (l_prof L)) (p_pol (l_prof L)) a)) as [m|e] eqn:E.
  2:{ right. exists e. destruct (snd (get_temporal_field (l_grid L))); cbn; conj; auto. right. eexists; reflexivity. }
  destruct (snd (io fs (file_path d p x (l_iter L)) (Some m))) as [[]|e] eqn:E1.
  - left. exists m. cbn. auto.
  - right. exists e. cbn. conj; auto. right. exists (Some m); auto.
Qed.

(** A failing write does not advance the counter; a successful one advances it by one. *)
Lemma c26_step S io L fs d p x a :
  let r := fstep S io L fs (FWrite d p x a) in
  (snd (fst r) = Ok tt -> l_iter (fst (fst (fst r))) = (l_iter L + 1)%nat) /\
  (forall e, snd (fst r) = Err e -> l_iter (fst (fst (fst r))) = l_iter L).
Proof.
  cbn [fstep fst snd]. destruct (write_file_cases io L fs d p x a) as [(m & _ & _ & H1 & _ & H2)|(e & H1 & H2 & _)]; split; intros;
  try congruence.
Qed.

(** Whatever its outcome, a write touches no file but its own. *)
Lemma c26_others S io L fs d p x a : io_law io ->
  let r := fstep S io L fs (FWrite d p x a) in
  forall q, q <> file_path d p x (l_iter L) -> snd (fst (fst r)) q = fs q.
Proof.
  intros IO. cbn [fstep fst snd]. intros q Hq.
  destruct (write_file_cases io L fs d p x a) as [(m & _ & _ & _ & -> & _)|(e & _ & _ & [->|(m & ->)])]; [|reflexivity|];
  apply (proj1 (IO _ _ _)), Hq.
Qed.

(** paths written by the log, the first entry being iteration [k] *)
Definition wr_path (w : wrote) (k : nat) : string := file_path (wr_dir w) (wr_prefix w) (wr_fmt w) k.
Definition fmt_ok (f : fcall) : Prop := match f with FWrite _ _ x _ => ~ has_char "_" x | _ => True end.

(** Files of iterations below [k] are not touched by writes numbered [>= k]. *)
Lemma frun_spec S io (IO : io_law io) h : forall L fs, Forall fcall_ok h -> Forall fmt_ok h ->
  let '(L', fs', ws) := frun S io L fs h in
  l_iter L' = (l_iter L + length ws)%nat /\
  (forall k w, nth_error ws k = Some w -> fs' (wr_path w (l_iter L + k)) = Some (wr_mesh w)) /\
  (forall d p x i, ~ has_char "_" x -> (i < l_iter L)%nat -> fs' (file_path d p x i) = fs (file_path d p x i)) /\
  Forall (fun w => ~ has_char "_" (wr_fmt w)) ws.
Proof.
  induction h as [|f h IH]; intros L fs Hok Hf; cbn [frun].
  - conj; try (simpl; lia); try constructor. intros k w H. destruct k; discriminate.
  - inversion Hok as [|? ? Ho1 Ho2]; subst. inversion Hf as [|? ? Hf1 Hf2]; subst.
    destruct (fstep S io L fs f) as (((L1 & fs1) & out) & w) eqn:ES.
    specialize (IH L1 fs1 Ho2 Hf2). destruct (frun S io L1 fs1 h) as ((L2 & fs2) & ws).
    destruct IH as (I1 & I2 & I3 & I4).
    destruct f as [o|d p x a].
    + cbn [fstep] in ES. injection ES as <- <- <- <-. pose proof (lstep_iter S L o Ho1) as E. rewrite E in *. conj; assumption.
    + cbn [fstep fmt_ok] in ES, Hf1. pose proof (write_file_cases io L fs d p x a) as HC. cbn zeta in HC.
      destruct (write_file io L fs d p x a) as ((Lw & fw) & rw) eqn:EW. cbn [fst snd] in *.
      destruct HC as [(m & Hm & Hio & Hr & Hfs & Hit)|(e & Hr & Hit & Hfs)].
      * rewrite Hr, Hm in ES. injection ES as <- <- <- <-. rewrite Hit in *.
        destruct (IO fs (file_path d p x (l_iter L)) (Some m)) as (IO1 & IO2).
        conj.
        -- simpl. lia.
        -- intros [|k] w H; simpl in H.
           ++ injection H as <-. cbn [wr_mesh]. unfold wr_path; cbn [wr_dir wr_prefix wr_fmt].
              rewrite Nat.add_0_r. rewrite I3 by (try exact Hf1; lia). rewrite Hfs. apply (IO2 m eq_refl Hio).
           ++ rewrite <- (I2 _ _ H). f_equal. f_equal. lia.
        -- intros d' p' x' i Hx Hi. rewrite I3 by (try exact Hx; lia). rewrite Hfs. apply IO1.
           intros E. apply file_path_inj in E; try assumption. lia.
        -- constructor; assumption.
      * assert (Ew : w = None) by (rewrite Hr in ES; congruence).
        injection ES as <- <- _ _. subst w. rewrite Hit in *. conj; try assumption.
        intros d' p' x' i Hx Hi. rewrite I3 by assumption. destruct Hfs as [-> | (m & ->)]; [reflexivity|].
        apply (proj1 (IO _ _ _)). intros E. apply file_path_inj in E; try assumption. lia.
Qed.

Lemma c26 S io d lo hi np p nm nte L0 h fs : io_law io ->
  laser_init d lo hi np p nm nte = Ok L0 -> Forall fcall_ok h -> Forall fmt_ok h ->
  let '(L, fs', ws) := frun S io L0 fs h in
  l_iter L = length ws /\
  (forall k w, nth_error ws k = Some w ->
     fs' (file_path (wr_dir w) (wr_prefix w) (wr_fmt w) k) = Some (wr_mesh w)) /\
  (forall k k' w w', nth_error ws k = Some w -> nth_error ws k' = Some w' -> k <> k' ->
     file_path (wr_dir w) (wr_prefix w) (wr_fmt w) k <> file_path (wr_dir w') (wr_prefix w') (wr_fmt w') k').
Proof.
  intros IO Hi Hok Hf. pose proof (frun_spec S io IO h L0 fs Hok Hf) as H.
  assert (H0 : l_iter L0 = 0%nat).
  { assert (Hn : forall L L', init_normalize L = Ok L' -> l_iter L' = l_iter L).
    { intros L L'. unfold init_normalize. destruct (p_energy (l_prof L)); [|intros [= <-]; reflexivity].
      cbn zeta. destruct (snd _); [|discriminate]. intros [= <-]. reflexivity. }
    unfold laser_init in Hi. destruct (grid_init _ _ _ _ _ _) as [g|]; [|discriminate]. cbn [bind] in Hi.
    destruct d; cbn zeta in Hi; [| |discriminate].
    - destruct (Z.ltb _ _); [discriminate|]. destruct (snd (set_temporal_field _ _)); [|discriminate].
      apply Hn in Hi. exact Hi.
    - destruct (snd (set_temporal_field _ _)); [|discriminate]. apply Hn in Hi. exact Hi. }
  destruct (frun S io L0 fs h) as ((L & fs') & ws). destruct H as (H1 & H2 & _ & H4). rewrite H0 in *.
  conj; [exact H1|exact H2|].
  intros k k' w w' Hw Hw' Hne E. apply Hne. rewrite Forall_forall in H4.
  apply (file_path_inj _ _ _ _ _ _ _ _ (H4 _ (nth_error_In _ _ Hw)) (H4 _ (nth_error_In _ _ Hw')) E).
Qed.

(** Same directory, prefix and format: no condition on the format. *)
Lemma path_join_cons d c : exists pre, forall t, path_join d (String c t) = (pre ++ String c t)%string.
Proof.
  assert (H : forall b : bool, exists pre, forall t, (if b then String c t else match last_char d with
     | None => String c t | Some "/"%char => (d ++ String c t)%string | Some _ => (d ++ "/" ++ String c t)%string end) = (pre ++ String c t)%string).
  { intros [|]; [exists ""%string; reflexivity|].
    destruct (last_char d) as [e|]; [|exists ""%string; reflexivity].
    assert (H1 : exists pre, forall t, (d ++ String c t)%string = (pre ++ String c t)%string) by (exists d; reflexivity).
    assert (H2 : exists pre, forall t, (d ++ "/" ++ String c t)%string = (pre ++ String c t)%string)
      by (exists (d ++ "/")%string; intros; symmetry; apply sapp_assoc).
    destruct e as [[] [] [] [] [] [] [] []]; first [exact H2|exact H1]. }
  unfold path_join.
  destruct c as [[] [] [] [] [] [] [] []]; first [exact (H false)|exact (H true)].
Qed.
Lemma path_join_prefix d p x : exists pre, forall i, path_join d (file_name p x i) = (pre ++ String "_" (pad5 i ++ String "." x))%string.
Proof.
  destruct p as [|c p'].
  - destruct (path_join_cons d "_"%char) as (pre & Hp). exists pre. intros i. apply Hp.
  - destruct (path_join_cons d c) as (pre & Hp). exists (pre ++ String c p')%string. intros i.
    rewrite sapp_assoc. apply Hp.
Qed.
Lemma sapp_cancel s t u : (s ++ t)%string = (s ++ u)%string -> t = u.
Proof. induction s; simpl; auto. intros E; injection E; auto. Qed.
Lemma file_path_inj_same d p x i j : file_path d p x i = file_path d p x j -> i = j.
Proof.
  unfold file_path. destruct (path_join_prefix d p x) as (pre & H). rewrite !H. intros E.
  apply sapp_cancel in E. injection E as E. apply split_first in E; [apply pad5_inj, E| |]; intros Hc; apply pad5_chars in Hc; simpl in Hc;
      repeat (destruct Hc as [Hc|Hc]; [discriminate|]); exact Hc.
Qed.

(** A file system that always accepts. *)
Definition simple_io : io_t := fun fs p m => (fun q => if String.eqb q p then m else fs q, Ok tt).
Lemma simple_io_law : io_law simple_io.
Proof.
  intros fs p m. cbn [simple_io fst snd]. split.
  - intros q Hq. destruct (String.eqb_spec q p); congruence.
  - intros x -> _. rewrite String.eqb_refl. reflexivity.
Qed.
Lemma build_mesh_ok d g w pol a : snd (get_temporal_field g) = Ok a -> (d = Rt -> g_nmodes g <> None) ->
  exists m, build_mesh d g w pol false = (fst (get_temporal_field g), Ok m).
Proof.
  intros Ha Hd. unfold build_mesh. rewrite Ha. cbn [fst snd].
  destruct d; [|eexists; reflexivity|eexists; reflexivity].
  destruct (g_nmodes g); [eexists; reflexivity|]. exfalso; apply Hd; reflexivity.
Qed.
Lemma write_simple L fs d p x a : snd (get_temporal_field (l_grid L)) = Ok a -> l_dim L = Xyt ->
  exists L' fs', write_file simple_io L fs d p x false = (L', fs', Ok tt) /\
    snd (get_temporal_field (l_grid L')) = Ok a /\ l_dim L' = Xyt /\ l_iter L' = (l_iter L + 1)%nat /\
    exists m, snd (build_mesh (l_dim L) (l_grid L) (p_lambda0 (l_prof L)) (p_pol (l_prof L)) false) = Ok m.
Proof.
  intros Ha Hd. unfold write_file.
  destruct (build_mesh_ok (l_dim L) (l_grid L) (p_lambda0 (l_prof L)) (p_pol (l_prof L)) a Ha) as (m & E); [congruence|].
  rewrite E. cbn [fst snd simple_io]. do 2 eexists. split; [reflexivity|]. cbn [l_grid l_dim l_iter set_grid]. conj; eauto.
  unfold get_temporal_field in *. destruct (g_tv (l_grid L)) eqn:E1; cbn [fst snd] in *; [rewrite E1; exact Ha|].
  destruct (g_sv (l_grid L)) eqn:E2; cbn [fst snd g_tv] in *; [exact Ha|discriminate].
Qed.

(** Where the file is: inside the directory, named prefix_NNNNN.format. *)
Lemma last_char_app d c : last_char (d ++ String c "") = Some c.
Proof.
  induction d as [|a d IH]; [reflexivity|]. cbn [String.append last_char]. rewrite IH.
  destruct (d ++ String c "")%string eqn:E; [|reflexivity]. destruct d; discriminate.
Qed.
Lemma pad5_len n : (5 <= String.length (pad5 n))%nat.
Proof.
  unfold pad5. assert (H : forall s t, String.length (s ++ t) = (String.length s + String.length t)%nat)
    by (intros s t; induction s; simpl; auto).
  assert (Z : forall k, String.length (zeros_str k) = k) by (induction k; simpl; auto).
  rewrite H, Z. lia.
Qed.
Lemma path_join_rel d f : (forall t, f <> String "/" t) ->
  path_join d f = match last_char d with
     | None => f | Some "/"%char => (d ++ f)%string | Some _ => (d ++ "/" ++ f)%string end.
Proof.
  intros H. unfold path_join. destruct f as [|c f]; [reflexivity|].
  destruct c as [[] [] [] [] [] [] [] []]; try reflexivity. exfalso. exact (H f eq_refl).
Qed.
Lemma file_name_rel p x i : (forall t, p <> String "/" t) -> forall t, file_name p x i <> String "/" t.
Proof.
  intros H t E. unfold file_name in E. destruct p as [|c p]; [discriminate|]. injection E as -> _. exact (H p eq_refl).
Qed.
Lemma c26_location d p x i : (forall t, p <> String "/" t) ->
  exists num, (5 <= String.length num)%nat /\ option_map Nat.of_uint (NilEmpty.uint_of_string num) = Some i /\
    let name := (p ++ "_" ++ num ++ "." ++ x)%string in
    file_path "" p x i = name /\
    file_path (d ++ "/") p x i = (d ++ "/" ++ name)%string /\
    (forall c, c <> "/"%char -> file_path (d ++ String c "") p x i = (d ++ String c "" ++ "/" ++ name)%string).
Proof.
  intros H. exists (pad5 i). split; [apply pad5_len|]. split; [exact (parse_pad5 i)|].
  pose proof (file_name_rel p x i H) as H'. cbn zeta. fold (file_name p x i). unfold file_path.
  split; [|split].
  - rewrite path_join_rel by exact H'. reflexivity.
  - rewrite path_join_rel by exact H'. rewrite last_char_app. rewrite sapp_assoc. reflexivity.
  - intros c Hc. rewrite path_join_rel by exact H'. rewrite last_char_app.
    assert (G : (((d ++ String c "") ++ "/" ++ file_name p x i)%string) = (d ++ String c "" ++ "/" ++ file_name p x i)%string)
      by apply sapp_assoc.
    transitivity ((d ++ String c "") ++ "/" ++ file_name p x i)%string; [|exact G]. clear - Hc. destruct c as [[] [] [] [] [] [] [] []]; try reflexivity. congruence.
Qed.
