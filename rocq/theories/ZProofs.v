(** Proofs of C78: export_to_z and import_from_z. *)
From Verif Require Import PyBase CSum NpFFT FFTProofs NumPy GridModel GridSpec GridProofs GridObs LaserSpec EnergyModel LaserModel AnalysisModel AnalysisSpec ReadOnlyProofs FullSpectrumProofs LaserInv LaserInitProofs PropagateProofs ZModel ZSpec.
Open Scope R_scope.

Lemma steps_at l h i : steps l h -> (i < length l)%nat -> vget l i = vget l 0 + INR i * h.
Proof.
  intros (_ & _ & H) Hi. induction i as [|i IH]; [cbn [INR]; ring|]. specialize (H i Hi). rewrite S_INR. specialize (IH ltac:(lia)). lra.
Qed.
(** exp(2 pi i fftfreq_int(k) q / N) does not see the sign convention of the frequencies. *)
Lemma fftint_cis N k (q : Z) : (k < N)%nat -> cis (2 * PI * (IZR (fftfreq_int N k) * IZR q) / INR N) = cis (2 * PI * (INR k * IZR q) / INR N).
Proof.
  intros Hk. unfold fftfreq_int. destruct (Nat.ltb k ((N - 1) / 2 + 1)); [rewrite <- INR_IZR_INZ; reflexivity|].
  rewrite minus_IZR, <- !INR_IZR_INZ. assert (INR N <> 0) by (apply INR_neq0; lia).
  rewrite <- (cis_period (2 * PI * ((INR k - INR N) * IZR q) / INR N) q). f_equal. field. assumption.
Qed.
Definition kap (N : nat) (h : R) (k : nat) : R := 2 * PI * fftfreq N (c_light * h) k.
Lemma kap_step N h k (q : Z) : (k < N)%nat -> 0 < h -> cis (kap N h k * (IZR q * (c_light * h))) = cis (2 * PI * (INR k * IZR q) / INR N).
Proof.
  intros Hk Hh. rewrite <- fftint_cis by exact Hk. f_equal. unfold kap, fftfreq. pose proof c_light_pos. assert (INR N <> 0) by (apply INR_neq0; lia). field. split; [lra|]. split; lra.
Qed.

Lemma export_reads A d g w z z0 t0 : same_contents g (fst (export_to_z A d g w z z0 t0)).
Proof. unfold export_to_z. apply same_with_field. Qed.
Lemma export_default A d g w z0 t0 : export_to_z A d g w None z0 t0 = export_to_z A d g w (Some (map (fun v => v * c_light) (time_axis g))) z0 t0.
Proof.
  unfold export_to_z, with_field. pose proof (get_t_meta g) as (_&_&_&E&_). f_equal. destruct (snd (get_temporal_field g)); [|reflexivity].
  cbn zeta. unfold time_axis. rewrite E. reflexivity.
Qed.
Lemma import_error A d g w fz z z0 t0 e : snd (import_from_z A d g w fz z z0 t0) = Err e -> fst (import_from_z A d g w fz z z0 t0) = g.
Proof.
  assert (S : forall a, snd (set_temporal_field g a) = Err e -> fst (set_temporal_field g a) = g).
  { intros a. unfold set_temporal_field. destruct (negb _); [reflexivity|]. destruct (negb _); [reflexivity|]. discriminate. }
  unfold import_from_z. destruct (Nat.ltb _ 2); [reflexivity|]. destruct (negb _); [reflexivity|].
  destruct d.
  - destruct (g_modes g); [|reflexivity]. destruct (Nat.ltb _ _); [reflexivity|]. destruct (negb _); [reflexivity|]. apply S.
  - destruct (g_npoints g) as [|nx [|ny [|nt [|]]]]; try reflexivity. destruct (orb _ _); [reflexivity|]. apply S.
  - destruct (g_npoints g) as [|nx [|ny [|nt [|]]]]; try reflexivity. destruct (orb _ _); [reflexivity|]. apply S.
Qed.
Lemma import_meta A d g w fz z z0 t0 : same_meta g (fst (import_from_z A d g w fz z z0 t0)).
Proof.
  unfold import_from_z. destruct (Nat.ltb _ 2); [apply same_meta_refl|]. destruct (negb _); [apply same_meta_refl|].
  destruct d.
  - destruct (g_modes g); [|apply same_meta_refl]. destruct (Nat.ltb _ _); [apply same_meta_refl|]. destruct (negb _); [apply same_meta_refl|]. apply set_t_meta.
  - destruct (g_npoints g) as [|nx [|ny [|nt [|]]]]; try apply same_meta_refl. destruct (orb _ _); [apply same_meta_refl|]. apply set_t_meta.
  - destruct (g_npoints g) as [|nx [|ny [|nt [|]]]]; try apply same_meta_refl. destruct (orb _ _); [apply same_meta_refl|]. apply set_t_meta.
Qed.

(** ** Values *)
Lemma export_xyt_eq A g f w z z0 t0 : tread g = Ok f ->
  snd (export_to_z A Xyt g w (Some z) z0 t0) = Ok (mkArr [dim0 f; dim1 f; length z] Complex128 (fun i j q =>
    Cmult (z_t2z_xy A (vget (g_hi g) 0 - vget (g_lo g) 0, dim0 f) (vget (g_hi g) 1 - vget (g_lo g) 1, dim1 f) (z_kfreq A (w / c_light) (time_axis g))
             (fun k i j => z_ft A (w / c_light) (time_axis g) (fun n => at3 f i j n) k) z z0 t0 q i j) (export_phase w t0 (vget z q)))).
Proof.
  intros Hf. unfold export_to_z, with_field. cbn [snd]. change (snd (get_temporal_field g)) with (tread g). rewrite Hf.
  pose proof (get_t_meta g) as (E1&E2&_&E4&_). cbn zeta. unfold time_axis. rewrite E1, E2, E4. reflexivity.
Qed.
Lemma export_rt_eq A g f w z z0 t0 modes : tread g = Ok f -> dty f = Complex128 -> g_modes g = Some modes -> dim0 f = length modes ->
  snd (export_to_z A Rt g w (Some z) z0 t0) = Ok (mkArr [dim0 f; dim1 f; length z] Complex128 (fun i j q =>
    if Nat.ltb i (length modes) then Cmult (z_t2z_rt A (nth 0 (g_axes g) []) (z_kfreq A (w / c_light) (time_axis g)) (nth i modes 0%Z)
             (fun k j => z_ft A (w / c_light) (time_axis g) (fun n => at3 f i j n) k) z z0 t0 q j) (export_phase w t0 (vget z q)) else RtoC 0)).
Proof.
  intros Hf Hd Hm Hl. unfold export_to_z, with_field. cbn [snd]. change (snd (get_temporal_field g)) with (tread g). rewrite Hf.
  pose proof (get_t_meta g) as (E1&E2&_&E4&_&_&E7&_). cbn zeta. unfold time_axis. rewrite E4, E7, Hm, Hd.
  destruct (Nat.ltb_spec (dim0 f) (length modes)); [lia|]. reflexivity.
Qed.
(** Linearity of the export. *)
Lemma lin_mult a b u v p : Cmult (lin a b u v) p = lin a b (Cmult u p) (Cmult v p).
Proof. unfold lin. ring. Qed.
Lemma export_linear A g1 g2 g3 f1 f2 f3 d w z z0 t0 a b : z_local A -> z_linear A -> (d = Rt \/ d = Xyt) ->
  same_meta g1 g2 -> same_meta g1 g3 -> tread g1 = Ok f1 -> tread g2 = Ok f2 -> tread g3 = Ok f3 ->
  shp f2 = shp f1 -> shp f3 = shp f1 -> dim2 f1 = length (time_axis g1) ->
  length (z_kfreq A (w / c_light) (time_axis g1)) = length (time_axis g1) ->
  (forall i j k, inb f1 i j k -> at3 f3 i j k = lin a b (at3 f1 i j k) (at3 f2 i j k)) ->
  (d = Rt -> dty f1 = Complex128 /\ dty f2 = Complex128 /\ dty f3 = Complex128 /\ dim1 f1 = length (nth 0 (g_axes g1) []) /\
     exists modes, g_modes g1 = Some modes /\ dim0 f1 = length modes) ->
  exists e1 e2 e3, snd (export_to_z A d g1 w (Some z) z0 t0) = Ok e1 /\ snd (export_to_z A d g2 w (Some z) z0 t0) = Ok e2 /\
    snd (export_to_z A d g3 w (Some z) z0 t0) = Ok e3 /\ shp e3 = [dim0 f1; dim1 f1; length z] /\
    forall i j q, (i < dim0 f1)%nat -> (j < dim1 f1)%nat -> (q < length z)%nat -> at3 e3 i j q = lin a b (at3 e1 i j q) (at3 e2 i j q).
Proof.
  intros (_ & L1 & L2 & L3) (N1 & N2 & N3) Hd M2 M3 H1 H2 H3 S2 S3 Ht Hk Hv Hr.
  destruct M2 as (A1&A2&_&A4&_&_&A7&_). destruct M3 as (B1&B2&_&B4&_&_&B7&_).
  assert (D20 : dim0 f2 = dim0 f1) by (unfold dim0; rewrite S2; reflexivity). assert (D21 : dim1 f2 = dim1 f1) by (unfold dim1; rewrite S2; reflexivity).
  assert (D30 : dim0 f3 = dim0 f1) by (unfold dim0; rewrite S3; reflexivity). assert (D31 : dim1 f3 = dim1 f1) by (unfold dim1; rewrite S3; reflexivity).
  assert (T2 : time_axis g2 = time_axis g1) by (unfold time_axis; rewrite A4; reflexivity). assert (T3 : time_axis g3 = time_axis g1) by (unfold time_axis; rewrite B4; reflexivity).
  destruct Hd as [-> | ->].
  - destruct (Hr eq_refl) as (Y1 & Y2 & Y3 & Hr1 & modes & Hm & Hl).
    do 3 eexists. split; [apply (export_rt_eq A g1 f1 w z z0 t0 modes); assumption|]. split; [apply (export_rt_eq A g2 f2 w z z0 t0 modes); congruence|].
    split; [apply (export_rt_eq A g3 f3 w z z0 t0 modes); congruence|]. cbn [shp at3]. rewrite D30, D31. split; [reflexivity|].
    intros i j q Hi Hj Hq. destruct (Nat.ltb_spec i (length modes)); [|lia]. rewrite A4, B4, T2, T3, <- lin_mult. f_equal.
    rewrite <- (proj1 (N2 _ _ _ _ _ _ _ _ _ _ _ _)). apply L2. intros k j' Hk' Hj'. rewrite <- N1. apply L1. intros n Hn. apply Hv. unfold inb. repeat split; lia.
  - do 3 eexists. split; [apply (export_xyt_eq A g1 f1); assumption|]. split; [apply (export_xyt_eq A g2 f2); assumption|].
    split; [apply (export_xyt_eq A g3 f3); assumption|]. cbn [shp at3]. rewrite D30, D31. split; [reflexivity|].
    intros i j q Hi Hj Hq. rewrite D20, D21, A1, A2, B1, B2, T2, T3, <- lin_mult. f_equal.
    rewrite <- (proj1 (N3 _ _ _ _ _ _ _ _ _ _ _ _ _)). apply L3. cbn [snd]. intros k i' j' Hk' Hi' Hj'. rewrite <- N1. apply L1. intros n Hn. apply Hv. unfold inb. repeat split; lia.
Qed.
(** Modes do not mix. *)
Lemma export_modes A g g' f f' w z z0 t0 modes i : z_local A -> same_meta g g' -> tread g = Ok f -> tread g' = Ok f' -> shp f' = shp f ->
  dty f = Complex128 -> dty f' = Complex128 -> g_modes g = Some modes -> dim0 f = length modes -> dim1 f = length (nth 0 (g_axes g) []) -> dim2 f = length (time_axis g) ->
  (forall j n, (j < dim1 f)%nat -> (n < dim2 f)%nat -> at3 f' i j n = at3 f i j n) ->
  exists e e', snd (export_to_z A Rt g w (Some z) z0 t0) = Ok e /\ snd (export_to_z A Rt g' w (Some z) z0 t0) = Ok e' /\ forall j q, at3 e' i j q = at3 e i j q.
Proof.
  intros (_ & L1 & L2 & _) M H H' S Hd Hd' Hm Hl Hr Ht Hv. destruct M as (A1&A2&_&A4&_&_&A7&_).
  assert (D0 : dim0 f' = dim0 f) by (unfold dim0; rewrite S; reflexivity).
  assert (T : time_axis g' = time_axis g) by (unfold time_axis; rewrite A4; reflexivity).
  do 2 eexists. split; [apply (export_rt_eq A g f w z z0 t0 modes); assumption|]. split; [apply (export_rt_eq A g' f' w z z0 t0 modes); congruence|].
  intros j q. cbn [at3]. destruct (Nat.ltb i (length modes)); [|reflexivity]. rewrite A4, T. f_equal. apply L2. intros k j' _ Hj'. apply L1. intros n Hn. apply Hv; congruence.
Qed.

(** ** Plane waves *)
Lemma export_plane A g f e w h z : z_local A -> z_spectrum A -> z_plane A -> steps (time_axis g) h -> tread g = Ok f -> dim2 f = length (time_axis g) ->
  (forall i j n, inb f i j n -> at3 f i j n = e n) ->
  exists fz F, snd (export_to_z A Xyt g w (Some z) 0 0) = Ok fz /\ shp fz = [dim0 f; dim1 f; length z] /\
    (forall n, (n < dim2 f)%nat -> e n = csum (dim2 f) (fun k => Cmult (F k) (cis (- (c_light * kap (dim2 f) h k * vget (time_axis g) n))))) /\
    (forall i j q, (i < dim0 f)%nat -> (j < dim1 f)%nat -> (q < length z)%nat ->
       at3 fz i j q = csum (dim2 f) (fun k => Cmult (F k) (cis (kap (dim2 f) h k * vget z q)))).
Proof.
  intros (_ & L1 & _ & L3) HS HP Hs Hf Ht Hv. set (t := time_axis g) in *. destruct (HS (w / c_light) t h Hs) as (K1 & K2 & K3).
  pose proof c_light_pos as Pc.
  set (F := fun k => z_ft A (w / c_light) t e k). eexists. exists F. split; [apply export_xyt_eq, Hf|]. split; [reflexivity|]. split.
  - intros n Hn. rewrite Ht in Hn |- *. rewrite (K3 e n Hn). apply csum_ext. intros k Hk. rewrite K2 by exact Hk. unfold F, kap. do 2 f_equal. ring.
  - intros i j q Hi Hj Hq. cbn [at3]. fold t.
    assert (HF : forall k i j, (i < dim0 f)%nat -> (j < dim1 f)%nat -> z_ft A (w / c_light) t (fun n => at3 f i j n) k = F k).
    { intros k i' j' Hi' Hj'. apply L1. intros n Hn. apply Hv. unfold inb. rewrite Ht. auto. }
    rewrite (fun H => proj1 (L3 _ _ _ _ (fun k _ _ => F k) _ _ _ _ _ _ H)) by (cbn [snd]; intros k i' j' _ Hi' Hj'; apply HF; assumption).
    destruct (HP (vget (g_hi g) 0 - vget (g_lo g) 0, dim0 f) (vget (g_hi g) 1 - vget (g_lo g) 1, dim1 f) (z_kfreq A (w / c_light) t) (fun k _ _ => F k)) as [P _]; [intros ? ? ? ? ? ?; reflexivity|].
    rewrite P by (cbn [snd]; assumption). rewrite <- csum_scal_r, K1, Ht. apply csum_ext. intros k Hk. rewrite K2 by exact Hk. unfold export_phase, kap.
    rewrite <- Cmult_assoc, <- cis_plus. do 2 f_equal. field. lra.
Qed.
(** Times and positions are related by z = -ct, modulo the length of the window. *)
Lemma export_delay A g f e w h z : z_local A -> z_spectrum A -> z_plane A -> steps (time_axis g) h -> tread g = Ok f -> dim2 f = length (time_axis g) ->
  (forall i j n, inb f i j n -> at3 f i j n = e n) ->
  exists fz, snd (export_to_z A Xyt g w (Some z) 0 0) = Ok fz /\ shp fz = [dim0 f; dim1 f; length z] /\
    forall i j q n (p : Z), (i < dim0 f)%nat -> (j < dim1 f)%nat -> (q < length z)%nat -> (n < dim2 f)%nat ->
      vget z q = - c_light * vget (time_axis g) n + IZR p * (INR (dim2 f) * (c_light * h)) -> at3 fz i j q = e n.
Proof.
  intros HL HS HP Hs Hf Ht Hv. destruct (export_plane A g f e w h z HL HS HP Hs Hf Ht Hv) as (fz & F & E1 & E2 & E3 & E4).
  exists fz. split; [exact E1|]. split; [exact E2|]. intros i j q n p Hi Hj Hq Hn Hz. rewrite E4, E3 by assumption. apply csum_ext. intros k Hk. f_equal.
  rewrite Hz. replace (kap (dim2 f) h k * (- c_light * vget (time_axis g) n + IZR p * (INR (dim2 f) * (c_light * h)))) with (- (c_light * kap (dim2 f) h k * vget (time_axis g) n) + kap (dim2 f) h k * (IZR (p * Z.of_nat (dim2 f)) * (c_light * h))).
  2:{ rewrite mult_IZR, <- INR_IZR_INZ. ring. }
  rewrite cis_plus, kap_step by (try exact Hk; apply Hs).
  replace (2 * PI * (INR k * IZR (p * Z.of_nat (dim2 f))) / INR (dim2 f)) with (2 * PI * IZR (Z.of_nat k * p)).
  2:{ rewrite !mult_IZR, <- !INR_IZR_INZ. field. apply INR_neq0. lia. }
  rewrite cis_2PI_Z. ring.
Qed.
Lemma import_plane A g g' f e w h z : CohG g -> z_local A -> z_spectrum A -> z_plane A -> steps (time_axis g) h -> steps z (c_light * h) -> length z = length (time_axis g) ->
  tread g = Ok f -> g_npoints g = shp f -> length (shp f) = 3%nat -> dim2 f = length (time_axis g) ->
  (forall i j n, inb f i j n -> at3 f i j n = e n) ->
  CohG g' -> same_meta g g' ->
  exists fz b, snd (export_to_z A Xyt g w (Some z) 0 0) = Ok fz /\ snd (import_from_z A Xyt g' w fz z 0 0) = Ok tt /\
    tread (fst (import_from_z A Xyt g' w fz z 0 0)) = Ok b /\ arr_eq f b.
Proof.
  intros Hc HL HS HP Hs Hz Hlen Hf Hnp Hrk Ht Hv Hc' Hm. pose proof c_light_pos as Pc.
  destruct (tread_shape _ _ (proj1 Hc) Hf) as [Hsh Hdt].
  destruct (shp f) as [|nx [|ny [|nt [|]]]] eqn:Es; try discriminate Hrk. clear Hrk.
  assert (D0 : dim0 f = nx) by (unfold dim0; rewrite Es; reflexivity). assert (D1 : dim1 f = ny) by (unfold dim1; rewrite Es; reflexivity). assert (D2 : dim2 f = nt) by (unfold dim2; rewrite Es; reflexivity).
  destruct (export_plane A g f e w h z HL HS HP Hs Hf Ht Hv) as (fz & F & E1 & E2 & E3 & E4). rewrite D0, D1, D2 in *.
  set (t := time_axis g) in *. destruct Hm as (A1&A2&A3&A4&A5&A6&A7&A8&A9&A10).
  assert (T : time_axis g' = t) by (unfold t, time_axis; rewrite A4; reflexivity).
  assert (Z0 : dim0 fz = nx) by (unfold dim0; rewrite E2; reflexivity). assert (Z1 : dim1 fz = ny) by (unfold dim1; rewrite E2; reflexivity). assert (Z2 : dim2 fz = length z) by (unfold dim2; rewrite E2; reflexivity).
  destruct Hs as (Hs1 & Hs2 & Hs3). pose proof Hz as (Hz1 & _ & Hz3).
  assert (HN : (0 < nt)%nat) by lia.
  exists fz. unfold import_from_z. rewrite T, Z2, Nat.eqb_refl. destruct (Nat.ltb_spec (length z) 2); [lia|]. cbn [negb].
  rewrite A3, Hnp. rewrite Z0, Z1, !Nat.eqb_refl. cbn [negb orb].
  set (T3 := fun k i j => Cmult (fft_forward fz i j k) (import_shift w z k)).
  match goal with |- context [set_temporal_field g' ?a] => set (b := a) end.
  destruct (set_t_ok g' b (proj1 Hc')) as (R1 & R2 & R3).
  { unfold b. cbn [shp]. rewrite A8, <- Hsh. congruence. }
  { reflexivity. }
  exists b. split; [exact E1|]. split; [exact R1|]. split; [exact R2|].
  (** the spectrum is recovered *)
  assert (dzz : vget z 1 - vget z 0 = c_light * h) by (apply Hz3; lia).
  assert (KO : forall k, import_omega w z k / c_light = w / c_light + kap nt h k).
  { intros k. unfold import_omega, kap, fftfreq. rewrite dzz, Hlen, <- Ht. assert (INR nt <> 0) by (apply INR_neq0; exact HN). field. repeat split; lra. }
  assert (HT : forall k i j, (k < nt)%nat -> (i < nx)%nat -> (j < ny)%nat -> T3 k i j = F k).
  { intros k i j Hk Hi Hj. unfold T3, fft_forward. rewrite Z2, Hlen, <- Ht. unfold import_shift. rewrite KO. replace (w / c_light + kap nt h k - w / c_light) with (kap nt h k) by ring.
    rewrite (fft1_ext nt _ (fun q => csum nt (fun m => Cmult (Cmult (F m) (cis (kap nt h m * vget z 0))) (cis (2 * PI * (INR q * INR m) / INR nt))))).
    2:{ intros q Hq. rewrite E4 by (try assumption; lia). apply csum_ext. intros m Hm'. rewrite <- Cmult_assoc, <- cis_plus. f_equal.
        rewrite (steps_at z (c_light * h) q Hz) by lia. rewrite Rmult_plus_distr_l, cis_plus. rewrite (INR_IZR_INZ q) at 1. rewrite kap_step by assumption.
        rewrite <- cis_plus. f_equal. rewrite <- INR_IZR_INZ. field. apply INR_neq0; exact HN. }
    set (X := fun m => Cmult (F m) (cis (kap nt h m * vget z 0))).
    assert (EX : Cmult (RtoC (/ INR nt)) (fft1 nt (fun q => csum nt (fun m => Cmult (X m) (cis (2 * PI * (INR q * INR m) / INR nt)))) k) = X k).
    { rewrite <- fft1_scal. rewrite <- (fft_ifft1 nt X k Hk). reflexivity. }
    unfold X in EX at 1. cbn beta in EX. rewrite EX. unfold X. rewrite <- Cmult_assoc, <- cis_plus. replace (kap nt h k * vget z 0 + - (vget z 0 * kap nt h k)) with 0 by ring. rewrite cis_0. ring. }
  split; [unfold b; cbn [shp]; rewrite Es; congruence|]. split; [unfold b; cbn [dty]; congruence|].
  intros i j n Hin. assert (Hi : (i < nx)%nat /\ (j < ny)%nat /\ (n < nt)%nat) by (unfold inb in Hin; rewrite D0, D1, D2 in Hin; exact Hin). destruct Hi as (Hi & Hj & Hn).
  rewrite Hv by exact Hin. rewrite E3 by exact Hn. unfold b. cbn [at3].
  assert (Lk : length (import_ks w z) = nt) by (unfold import_ks; rewrite map_length, seq_length; lia).
  destruct HL as (_ & _ & _ & L3).
  rewrite (fun H => proj2 (L3 _ _ _ _ (fun k _ _ => F k) _ _ _ _ _ _ H)) by (cbn [snd]; rewrite Lk; intros k i' j' Hk Hi' Hj'; apply HT; assumption).
  destruct (HP (vget (g_hi g') 0 - vget (g_lo g') 0, nx) (vget (g_hi g') 1 - vget (g_lo g') 1, ny) (import_ks w z) (fun k _ _ => F k)) as [_ P]; [intros ? ? ? ? ? ?; reflexivity|].
  rewrite P by (try assumption; cbn [snd]; lia). rewrite <- csum_scal_r, Lk. apply csum_ext. intros k Hk. unfold import_phase.
  assert (Ek : vget (import_ks w z) k = w / c_light + kap nt h k).
  { unfold import_ks, vget. rewrite (nth_indep _ 0 ((fun k => import_omega w z k / c_light) 0%nat)) by (rewrite map_length, seq_length; lia).
    rewrite (map_nth (fun k => import_omega w z k / c_light)), seq_nth by lia. apply KO. }
  rewrite Ek, <- Cmult_assoc, <- cis_plus. do 2 f_equal. field. lra.
Qed.

(** ** Linearity of the import *)
Lemma grid_init_np d lo hi np nm b g : grid_init d lo hi np nm b = Ok g -> g_npoints g = np.
Proof.
  unfold grid_init. destruct d; cbn [pyassert bind]; [| |discriminate].
  - destruct (Nat.eqb (length lo) 2); cbn [pyassert bind]; [|discriminate].
    destruct (Nat.eqb (length hi) 2); cbn [pyassert bind]; [|discriminate].
    destruct (build_axes 2 0 lo hi np) as [r|e]; cbn [bind]; [|discriminate].
    destruct nm as [M|]; [|discriminate]. destruct (Z.ltb _ 0); [discriminate|]. intros [= <-]. reflexivity.
  - destruct (Nat.eqb (length lo) 3); cbn [pyassert bind]; [|discriminate].
    destruct (Nat.eqb (length hi) 3); cbn [pyassert bind]; [|discriminate].
    destruct (build_axes 3 0 lo hi np) as [r|e]; cbn [bind]; [|discriminate].
    intros [= <-]. reflexivity.
Qed.
Lemma import_xyt_ok A g fz w z z0 t0 n0 n1 nt : CohG g -> GShape Xyt g n0 n1 nt -> g_npoints g = [n0; n1; nt] -> (2 <= length z)%nat -> shp fz = [n0; n1; length z] ->
  exists b, snd (import_from_z A Xyt g w fz z z0 t0) = Ok tt /\ tread (fst (import_from_z A Xyt g w fz z z0 t0)) = Ok b /\ shp b = [n0; n1; nt] /\
    forall i j n, at3 b i j n = Cmult (z_z2t_xy A (vget (g_hi g) 0 - vget (g_lo g) 0, n0) (vget (g_hi g) 1 - vget (g_lo g) 1, n1) (import_ks w z)
       (fun k i j => Cmult (fft_forward fz i j k) (import_shift w z k)) (time_axis g) z0 t0 n i j) (import_phase w z0 (vget (time_axis g) n)).
Proof.
  intros Hc GS Hnp Hz Hs. assert (Z0 : dim0 fz = n0) by (unfold dim0; rewrite Hs; reflexivity). assert (Z1 : dim1 fz = n1) by (unfold dim1; rewrite Hs; reflexivity). assert (Z2 : dim2 fz = length z) by (unfold dim2; rewrite Hs; reflexivity).
  unfold import_from_z. rewrite Z2, Nat.eqb_refl. destruct (Nat.ltb_spec (length z) 2); [lia|]. cbn [negb]. rewrite Hnp, Z0, Z1, !Nat.eqb_refl. cbn [negb orb].
  match goal with |- context [set_temporal_field g ?a] => set (b := a) end.
  assert (Sb : shp b = [n0; n1; nt]) by (unfold b; cbn [shp]; rewrite (gs_tax _ _ _ _ _ GS); reflexivity).
  destruct (set_t_ok g b (proj1 Hc)) as (R1 & R2 & _); [rewrite Sb; symmetry; apply (gs_shape _ _ _ _ _ GS)|reflexivity|].
  exists b. split; [exact R1|]. split; [exact R2|]. split; [exact Sb|]. intros i j n. reflexivity.
Qed.
Lemma import_rt_ok A g fz w z z0 t0 n0 n1 nt modes : CohG g -> GShape Rt g n0 n1 nt -> g_modes g = Some modes -> length modes = n0 -> (2 <= length z)%nat -> shp fz = [n0; n1; length z] ->
  exists b, snd (import_from_z A Rt g w fz z z0 t0) = Ok tt /\ tread (fst (import_from_z A Rt g w fz z z0 t0)) = Ok b /\ shp b = [n0; n1; nt] /\
    forall i j n, (i < n0)%nat -> at3 b i j n = Cmult (z_z2t_rt A (nth 0 (g_axes g) []) (import_ks w z) (nth i modes 0%Z)
       (fun k j => Cmult (fft_forward fz i j k) (import_shift w z k)) (time_axis g) z0 t0 n j) (import_phase w z0 (vget (time_axis g) n)).
Proof.
  intros Hc GS Hm Hl Hz Hs. assert (Z0 : dim0 fz = n0) by (unfold dim0; rewrite Hs; reflexivity). assert (Z1 : dim1 fz = n1) by (unfold dim1; rewrite Hs; reflexivity). assert (Z2 : dim2 fz = length z) by (unfold dim2; rewrite Hs; reflexivity).
  destruct (gs_rt _ _ _ _ _ GS eq_refl) as (M & _ & _ & _ & _ & _ & Lr).
  unfold import_from_z. rewrite Z2, Nat.eqb_refl. destruct (Nat.ltb_spec (length z) 2); [lia|]. cbn [negb]. rewrite Hm, Z0, Hl, Z1, Lr, Nat.ltb_irrefl, Nat.eqb_refl. cbn [negb].
  match goal with |- context [set_temporal_field g ?a] => set (b := a) end.
  assert (Sb : shp b = [n0; n1; nt]) by (unfold b; cbn [shp]; apply (gs_shape _ _ _ _ _ GS)).
  destruct (set_t_ok g b (proj1 Hc)) as (R1 & R2 & _); [reflexivity|reflexivity|].
  exists b. split; [exact R1|]. split; [exact R2|]. split; [exact Sb|]. intros i j n Hi. unfold b. cbn [at3]. destruct (Nat.ltb_spec i n0); [reflexivity|lia].
Qed.
Lemma fft_forward_lin f1 f2 f3 N a b i j k : dim2 f1 = N -> dim2 f2 = N -> dim2 f3 = N ->
  (forall q, (q < N)%nat -> at3 f3 i j q = lin a b (at3 f1 i j q) (at3 f2 i j q)) -> fft_forward f3 i j k = lin a b (fft_forward f1 i j k) (fft_forward f2 i j k).
Proof.
  intros D1 D2 D3 H. unfold fft_forward. rewrite D1, D2, D3. rewrite (fft1_ext N (fun q => at3 f3 i j q) (fun q => lin a b (at3 f1 i j q) (at3 f2 i j q)) k H). unfold lin, fft1.
  rewrite (csum_ext _ _ (fun n => Cplus (Cmult a (Cmult (at3 f1 i j n) (cis (- (2 * PI * (INR n * INR k) / INR N))))) (Cmult b (Cmult (at3 f2 i j n) (cis (- (2 * PI * (INR n * INR k) / INR N))))))) by (intros; ring).
  rewrite csum_plus, !csum_scal_l. ring.
Qed.
Lemma import_linear A d lo hi np nm g f1 f2 f3 w z z0 t0 a b : z_local A -> z_linear A -> grid_init d lo hi np (Some nm) true = Ok g -> (d = Xyt -> length np = 3%nat) ->
  (2 <= length z)%nat -> shp f1 = firstn 2 (g_shape g) ++ [length z] -> shp f2 = shp f1 -> shp f3 = shp f1 ->
  (forall i j q, inb f1 i j q -> at3 f3 i j q = lin a b (at3 f1 i j q) (at3 f2 i j q)) ->
  exists b1 b2 b3, tread (fst (import_from_z A d g w f1 z z0 t0)) = Ok b1 /\ tread (fst (import_from_z A d g w f2 z z0 t0)) = Ok b2 /\ tread (fst (import_from_z A d g w f3 z z0 t0)) = Ok b3 /\
    snd (import_from_z A d g w f3 z z0 t0) = Ok tt /\ shp b3 = g_shape g /\
    forall i j n, inb b3 i j n -> at3 b3 i j n = lin a b (at3 b1 i j n) (at3 b2 i j n).
Proof.
  intros (_ & L1 & L2 & L3) (N1 & N2 & N3) Hg Hnp Hz S1 S2 S3 Hv.
  pose proof (grid_init_CohG _ _ _ _ _ _ Hg) as Hc.
  destruct (grid_init_shape _ _ _ _ _ _ _ Hg) as (_ & _ & Gx & _ & Hd).
  assert (Lk : length (import_ks w z) = length z) by (unfold import_ks; rewrite map_length, seq_length; reflexivity).
  destruct d; [| |congruence].
  - destruct (grid_init_GShape_rt _ _ _ _ _ _ Hg) as (n1 & nt & _ & _ & HM & GS). destruct (grid_init_rt _ _ _ _ _ _ Hg) as (_ & Hm & _).
    assert (Lm : length (azimuthal_modes nm) = (2 * Z.to_nat nm - 1)%nat) by (rewrite azimuthal_modes_length by exact HM; lia).
    pose proof (gs_shape _ _ _ _ _ GS) as Gs. rewrite Gs in S1. cbn [firstn app] in S1. set (n0 := (2 * Z.to_nat nm - 1)%nat) in *.
    destruct (import_rt_ok A g f1 w z z0 t0 n0 n1 nt _ Hc GS Hm Lm Hz S1) as (b1 & _ & R1 & _ & V1).
    destruct (import_rt_ok A g f2 w z z0 t0 n0 n1 nt _ Hc GS Hm Lm Hz (eq_trans S2 S1)) as (b2 & _ & R2 & _ & V2).
    destruct (import_rt_ok A g f3 w z z0 t0 n0 n1 nt _ Hc GS Hm Lm Hz (eq_trans S3 S1)) as (b3 & O3 & R3 & T3 & V3).
    exists b1, b2, b3. do 4 (split; [assumption|]). split; [congruence|]. intros i j n Hin.
    assert (Hi : (i < n0 /\ j < n1 /\ n < nt)%nat) by (unfold inb, dim0, dim1, dim2 in Hin; rewrite T3 in Hin; exact Hin). destruct Hi as (Hi & Hj & Hn).
    rewrite V1, V2, V3, <- lin_mult by exact Hi. f_equal. rewrite <- (proj2 (N2 _ _ _ _ _ _ _ _ _ _ _ _)). apply L2. intros k j' Hk Hj'. rewrite <- lin_mult. f_equal.
    apply (fft_forward_lin f1 f2 f3 (length z)); try (unfold dim2; rewrite ?S2, ?S3, S1; reflexivity).
    intros q Hq. apply Hv. unfold inb, dim0, dim1, dim2. rewrite S1. cbn [nth]. destruct (gs_rt _ _ _ _ _ GS eq_refl) as (M & _ & _ & _ & _ & _ & Lr). lia.
  - destruct (grid_init_GShape_xyt _ _ _ _ _ _ Hg (Hnp eq_refl)) as (n0 & n1 & nt & -> & _ & GS).
    assert (Hp : g_npoints g = [n0; n1; nt]) by (apply (grid_init_np _ _ _ _ _ _ _ Hg)).
    pose proof (gs_shape _ _ _ _ _ GS) as Gs. rewrite Gs in S1. cbn [firstn app] in S1.
    destruct (import_xyt_ok A g f1 w z z0 t0 n0 n1 nt Hc GS Hp Hz S1) as (b1 & _ & R1 & _ & V1).
    destruct (import_xyt_ok A g f2 w z z0 t0 n0 n1 nt Hc GS Hp Hz (eq_trans S2 S1)) as (b2 & _ & R2 & _ & V2).
    destruct (import_xyt_ok A g f3 w z z0 t0 n0 n1 nt Hc GS Hp Hz (eq_trans S3 S1)) as (b3 & O3 & R3 & T3 & V3).
    exists b1, b2, b3. do 4 (split; [assumption|]). split; [congruence|]. intros i j n _.
    rewrite V1, V2, V3, <- lin_mult. f_equal. rewrite <- (proj2 (N3 _ _ _ _ _ _ _ _ _ _ _ _ _)). apply L3. cbn [snd]. intros k i' j' Hk Hi' Hj'. rewrite <- lin_mult. f_equal.
    apply (fft_forward_lin f1 f2 f3 (length z)); try (unfold dim2; rewrite ?S2, ?S3, S1; reflexivity).
    intros q Hq. apply Hv. unfold inb, dim0, dim1, dim2. rewrite S1. cbn [nth]. auto.
Qed.

(** ** Grids built through the API *)
Lemma grid_facts d lo hi np nm g0 h f : grid_init d lo hi np (Some nm) true = Ok g0 -> length np = ndims_of d -> snd (get_temporal_field (grun g0 h)) = Ok f ->
  CohG (grun g0 h) /\ same_meta g0 (grun g0 h) /\ shp f = g_shape g0 /\ dty f = Complex128 /\ dim2 f = length (time_axis g0) /\ (d = Rt \/ d = Xyt) /\ length (shp f) = 3%nat /\
  (d = Xyt -> g_npoints g0 = shp f) /\
  (d = Rt -> dim1 f = length (nth 0 (g_axes g0) []) /\ exists modes, g_modes g0 = Some modes /\ dim0 f = length modes).
Proof.
  intros Hg Hl Hf. pose proof (grid_init_CohG _ _ _ _ _ _ Hg) as Hc. pose proof (grun_Coh g0 h Hc) as Hc'. pose proof (grun_meta g0 h) as M.
  destruct (tread_shape _ _ (proj1 Hc') Hf) as [Hs Hdt]. assert (Hs0 : shp f = g_shape g0) by (rewrite Hs; apply M).
  split; [exact Hc'|]. split; [exact M|]. split; [exact Hs0|]. split; [exact Hdt|].
  destruct (grid_init_shape _ _ _ _ _ _ _ Hg) as (_ & _ & Gx & _ & Hd). destruct d; [| |congruence].
  - destruct (grid_init_GShape_rt _ _ _ _ _ _ Hg) as (n1 & nt & _ & _ & HM & GS). destruct (grid_init_rt _ _ _ _ _ _ Hg) as (_ & Hm & _).
    pose proof (gs_shape _ _ _ _ _ GS) as Gs. destruct (gs_rt _ _ _ _ _ GS eq_refl) as (M' & _ & _ & _ & _ & _ & Lr). pose proof (gs_tax _ _ _ _ _ GS) as Lt.
    rewrite Gs in Hs0. unfold dim0, dim1, dim2. rewrite Hs0. cbn [nth]. split; [congruence|]. split; [auto|]. split; [reflexivity|]. split; [discriminate|].
    intros _. split; [congruence|]. eexists. split; [exact Hm|]. rewrite azimuthal_modes_length by exact HM. lia.
  - destruct (grid_init_GShape_xyt _ _ _ _ _ _ Hg Hl) as (n0 & n1 & nt & -> & _ & GS).
    pose proof (gs_shape _ _ _ _ _ GS) as Gs. pose proof (gs_tax _ _ _ _ _ GS) as Lt. rewrite Gs in Hs0. unfold dim0, dim1, dim2. rewrite Hs0. cbn [nth].
    split; [congruence|]. split; [auto|]. split; [reflexivity|]. split; [intros _; apply (grid_init_np _ _ _ _ _ _ _ Hg)|discriminate].
Qed.
Lemma grid_steps d lo hi np nm b g0 : grid_init d lo hi np nm b = Ok g0 -> let q := (ndims_of d - 1)%nat in nth q lo 0 < nth q hi 0 ->
  steps (time_axis g0) (spacing (nth q lo 0) (nth q hi 0) (nth q np 0%nat)).
Proof.
  intros Hi q Hlt. destruct (grid_init_axes _ _ _ _ _ _ _ Hi) as (_ & _ & La & Ld & Hax).
  assert (Hq : (q < ndims_of d)%nat) by (unfold q; destruct d; simpl; lia).
  destruct (Hax q Hq) as (n & Hn & A1 & A2 & A3 & A4 & A5). cbn zeta in *.
  assert (Hnq : nth q np 0%nat = n) by (apply nth_error_nth; exact Hn). rewrite Hnq.
  assert (Hex : exists g, grid_init d lo hi np nm b = Ok g) by eauto.
  apply grid_init_ok_iff in Hex. destruct Hex as (_ & _ & _ & Hnn & _). destruct (Hnn q Hq) as (? & Q & G2). rewrite Hn in Q. injection Q as <-.
  assert (ET : time_axis g0 = nth q (g_axes g0) []) by (unfold time_axis; rewrite last_nth, La; reflexivity).
  unfold steps. rewrite ET, A1. split; [exact G2|]. split; [apply spacing_pos; assumption|]. intros i Hi'. rewrite (A5 i Hi'), A4. reflexivity.
Qed.
Lemma c78_linear A d lo hi np nm g0 h1 h2 h3 f1 f2 f3 w z z0 t0 a b : z_local A -> z_linear A ->
  grid_init d lo hi np (Some nm) true = Ok g0 -> length np = ndims_of d ->
  snd (get_temporal_field (grun g0 h1)) = Ok f1 -> snd (get_temporal_field (grun g0 h2)) = Ok f2 -> snd (get_temporal_field (grun g0 h3)) = Ok f3 ->
  (forall i j n, inb f1 i j n -> at3 f3 i j n = lin a b (at3 f1 i j n) (at3 f2 i j n)) ->
  exists e1 e2 e3, snd (export_to_z A d (grun g0 h1) w (Some z) z0 t0) = Ok e1 /\ snd (export_to_z A d (grun g0 h2) w (Some z) z0 t0) = Ok e2 /\
    snd (export_to_z A d (grun g0 h3) w (Some z) z0 t0) = Ok e3 /\ shp e3 = [dim0 f1; dim1 f1; length z] /\
    forall i j q, inb e3 i j q -> at3 e3 i j q = lin a b (at3 e1 i j q) (at3 e2 i j q).
Proof.
  intros HL HN Hg Hl H1 H2 H3 Hv.
  destruct (grid_facts d lo hi np nm g0 h1 f1 Hg Hl H1) as (C1 & M1 & S1 & T1 & D1 & Hd & _ & _ & R1).
  destruct (grid_facts d lo hi np nm g0 h2 f2 Hg Hl H2) as (C2 & M2 & S2 & T2 & D2 & _ & _ & _ & R2).
  destruct (grid_facts d lo hi np nm g0 h3 f3 Hg Hl H3) as (C3 & M3 & S3 & T3 & D3 & _ & _ & _ & R3).
  assert (M12 : same_meta (grun g0 h1) (grun g0 h2)) by (revert M1 M2; unfold same_meta; intuition congruence).
  assert (M13 : same_meta (grun g0 h1) (grun g0 h3)) by (revert M1 M3; unfold same_meta; intuition congruence).
  assert (ET : time_axis (grun g0 h1) = time_axis g0) by (unfold time_axis; destruct M1 as (_&_&_&E&_); rewrite E; reflexivity).
  destruct (export_linear A (grun g0 h1) (grun g0 h2) (grun g0 h3) f1 f2 f3 d w z z0 t0 a b HL HN Hd M12 M13 H1 H2 H3) as (e1 & e2 & e3 & E1 & E2 & E3 & Es & Ev); try congruence; try exact Hv.
  - rewrite ET. apply HL.
  - intros Er. destruct (R1 Er) as (Q1 & modes & Q2 & Q3). destruct M1 as (_&_&_&E4&_&_&E7&_). conj; try assumption; [rewrite E4; exact Q1|]. exists modes. split; congruence.
  - exists e1, e2, e3. do 4 (split; [assumption|]). intros i j q Hin. unfold inb, dim0, dim1, dim2 in Hin. rewrite Es in Hin. cbn [nth] in Hin. apply Ev; apply Hin.
Qed.
Lemma c78_modes A lo hi np nm g0 h h' f f' w z z0 t0 i : z_local A -> grid_init Rt lo hi np (Some nm) true = Ok g0 -> length np = 2%nat ->
  snd (get_temporal_field (grun g0 h)) = Ok f -> snd (get_temporal_field (grun g0 h')) = Ok f' ->
  (forall j n, (j < dim1 f)%nat -> (n < dim2 f)%nat -> at3 f' i j n = at3 f i j n) ->
  exists e e', snd (export_to_z A Rt (grun g0 h) w (Some z) z0 t0) = Ok e /\ snd (export_to_z A Rt (grun g0 h') w (Some z) z0 t0) = Ok e' /\ forall j q, at3 e' i j q = at3 e i j q.
Proof.
  intros HL Hg Hl H1 H2 Hv.
  destruct (grid_facts Rt lo hi np nm g0 h f Hg Hl H1) as (C1 & M1 & S1 & T1 & D1 & Hd & _ & _ & R1).
  destruct (grid_facts Rt lo hi np nm g0 h' f' Hg Hl H2) as (C2 & M2 & S2 & T2 & D2 & _ & _ & _ & R2).
  assert (M12 : same_meta (grun g0 h) (grun g0 h')) by (revert M1 M2; unfold same_meta; intuition congruence).
  assert (ET : time_axis (grun g0 h) = time_axis g0) by (unfold time_axis; destruct M1 as (_&_&_&E&_); rewrite E; reflexivity).
  destruct (R1 eq_refl) as (Q1 & modes & Q2 & Q3). destruct M1 as (_&_&_&E4&_&_&E7&_).
  apply (export_modes A (grun g0 h) (grun g0 h') f f' w z z0 t0 modes i); try congruence; try assumption.
Qed.
Lemma c78_delay A lo hi np nm g0 h f e w z : z_local A -> z_spectrum A -> z_plane A -> grid_init Xyt lo hi np (Some nm) true = Ok g0 -> length np = 3%nat -> vget lo 2 < vget hi 2 ->
  snd (get_temporal_field (grun g0 h)) = Ok f -> (forall i j n, inb f i j n -> at3 f i j n = e n) ->
  exists fz, snd (export_to_z A Xyt (grun g0 h) w (Some z) 0 0) = Ok fz /\ shp fz = [dim0 f; dim1 f; length z] /\
    forall i j q n (p : Z), (i < dim0 f)%nat -> (j < dim1 f)%nat -> (q < length z)%nat -> (n < dim2 f)%nat ->
      vget z q = - (c_light * vget (time_axis g0) n) + IZR p * (c_light * (INR (dim2 f) * spacing (vget lo 2) (vget hi 2) (nth 2 np 0%nat))) -> at3 fz i j q = e n.
Proof.
  intros HL HS HP Hg Hl Hlt Hf Hv. destruct (grid_facts Xyt lo hi np nm g0 h f Hg Hl Hf) as (C1 & M1 & S1 & T1 & D1 & _).
  assert (ET : time_axis (grun g0 h) = time_axis g0) by (unfold time_axis; destruct M1 as (_&_&_&E&_); rewrite E; reflexivity).
  pose proof (grid_steps _ _ _ _ _ _ _ Hg Hlt) as Hs. cbn [ndims_of Nat.sub] in Hs.
  destruct (export_delay A (grun g0 h) f e w _ z HL HS HP ltac:(rewrite ET; exact Hs) Hf ltac:(congruence) Hv) as (fz & E1 & E2 & E3).
  exists fz. split; [exact E1|]. split; [exact E2|]. intros i j q n p Hi Hj Hq Hn Hz. apply (E3 i j q n p Hi Hj Hq Hn). rewrite ET, Hz. unfold vget. ring.
Qed.
Lemma c78_roundtrip A lo hi np nm g0 h h' f e w z : z_local A -> z_spectrum A -> z_plane A -> grid_init Xyt lo hi np (Some nm) true = Ok g0 -> length np = 3%nat -> vget lo 2 < vget hi 2 ->
  snd (get_temporal_field (grun g0 h)) = Ok f -> (forall i j n, inb f i j n -> at3 f i j n = e n) ->
  steps z (c_light * spacing (vget lo 2) (vget hi 2) (nth 2 np 0%nat)) -> length z = length (time_axis g0) ->
  exists fz b, snd (export_to_z A Xyt (grun g0 h) w (Some z) 0 0) = Ok fz /\ snd (import_from_z A Xyt (grun g0 h') w fz z 0 0) = Ok tt /\
    snd (get_temporal_field (fst (import_from_z A Xyt (grun g0 h') w fz z 0 0))) = Ok b /\ arr_eq f b.
Proof.
  intros HL HS HP Hg Hl Hlt Hf Hv Hz Hlen. destruct (grid_facts Xyt lo hi np nm g0 h f Hg Hl Hf) as (C1 & M1 & S1 & T1 & D1 & _ & H3 & Hp & _).
  assert (ET : time_axis (grun g0 h) = time_axis g0) by (unfold time_axis; destruct M1 as (_&_&_&E&_); rewrite E; reflexivity).
  pose proof (grid_steps _ _ _ _ _ _ _ Hg Hlt) as Hs. cbn [ndims_of Nat.sub] in Hs.
  pose proof (grun_meta g0 h') as M2. pose proof (grun_Coh g0 h' (grid_init_CohG _ _ _ _ _ _ Hg)) as C2.
  assert (M12 : same_meta (grun g0 h) (grun g0 h')) by (revert M1 M2; unfold same_meta; intuition congruence).
  apply (import_plane A (grun g0 h) (grun g0 h') f e w (spacing (vget lo 2) (vget hi 2) (nth 2 np 0%nat)) z C1 HL HS HP); try assumption; rewrite ?ET; try assumption.
  destruct M1 as (_&_&E3&_). rewrite E3. apply Hp. reflexivity.
Qed.
(** ** The instance *)
Lemma flat_local : z_local flat_axiprop.
Proof.
  split; [intros k0 t; cbn; rewrite map_length, seq_length; reflexivity|]. split; [|split].
  - intros k0 t u u' k H. cbn [z_ft flat_axiprop]. apply csum_ext. intros n Hn. rewrite H by exact Hn. reflexivity.
  - intros r ks m F F' z z0 t0 q j H. cbn [z_t2z_rt z_z2t_rt flat_axiprop]. destruct (Nat.ltb_spec j (length r)); [|auto]. split; apply csum_ext; intros k Hk; rewrite H by assumption; reflexivity.
  - intros X Y ks F F' z z0 t0 q i j H. cbn [z_t2z_xy z_z2t_xy flat_axiprop]. destruct (Nat.ltb_spec i (snd X)), (Nat.ltb_spec j (snd Y)); cbn [andb]; auto. split; apply csum_ext; intros k Hk; rewrite H by assumption; reflexivity.
Qed.
Lemma csum_lin n a b f g p : csum n (fun k => Cmult (lin a b (f k) (g k)) (p k)) = lin a b (csum n (fun k => Cmult (f k) (p k))) (csum n (fun k => Cmult (g k) (p k))).
Proof. unfold lin. rewrite <- !csum_scal_l, <- csum_plus. apply csum_ext. intros. ring. Qed.
Lemma lin_0 a b : RtoC 0 = lin a b (RtoC 0) (RtoC 0).
Proof. unfold lin. ring. Qed.
Lemma flat_linear : z_linear flat_axiprop.
Proof.
  split; [|split].
  - intros k0 t u v a b k. cbn [z_ft flat_axiprop]. rewrite <- csum_lin. apply csum_ext. intros n _. unfold lin. ring.
  - intros. cbn [z_t2z_rt z_z2t_rt flat_axiprop]. destruct (Nat.ltb j (length r)); split; try apply lin_0; apply csum_lin.
  - intros. cbn [z_t2z_xy z_z2t_xy flat_axiprop]. destruct (andb _ _); split; try apply lin_0; apply csum_lin.
Qed.
Lemma flat_spectrum : z_spectrum flat_axiprop.
Proof.
  intros k0 t h Hs. pose proof Hs as (H2 & Hh & H3). pose proof c_light_pos as Pc. assert (H1 : vget t 1 - vget t 0 = h) by (apply H3; lia).
  assert (EK : forall k, flat_kap t k = kap (length t) h k) by (intros k; unfold flat_kap, kap; rewrite H1; reflexivity).
  assert (Ek : forall k, (k < length t)%nat -> vget (z_kfreq flat_axiprop k0 t) k = k0 + kap (length t) h k).
  { intros k Hk. cbn [z_kfreq flat_axiprop]. unfold vget. rewrite (nth_indep _ 0 ((fun k => k0 + flat_kap t k) 0%nat)) by (rewrite map_length, seq_length; exact Hk).
    rewrite (map_nth (fun k => k0 + flat_kap t k)), seq_nth by exact Hk. cbn [Nat.add]. rewrite EK. reflexivity. }
  split; [cbn; rewrite map_length, seq_length; reflexivity|]. split; [exact Ek|]. intros u n Hn. set (N := length t) in *.
  rewrite (csum_ext _ _ (fun k => csum N (fun m => Cmult (Cmult (RtoC (/ INR N)) (u m)) (cis (2 * PI * (INR k * (INR m - INR n)) / INR N))))).
  - rewrite csum_swap. rewrite (csum_single _ _ n Hn).
    + rewrite csum_scal_l, ortho, Nat.eqb_refl by assumption. rewrite Cmult_comm, Cmult_assoc, <- RtoC_mult, Rinv_r by (apply INR_neq0; lia). ring.
    + intros m Hm Hne. rewrite csum_scal_l, ortho by assumption. apply Nat.eqb_neq in Hne. rewrite Hne. ring.
  - intros k Hk. rewrite Ek by exact Hk. cbn [z_ft flat_axiprop]. fold N. rewrite <- csum_scal_r. apply csum_ext. intros m Hm. rewrite EK. fold N. rewrite <- Cmult_assoc, <- cis_plus. f_equal.
    rewrite (steps_at t h m Hs) by exact Hm. rewrite (steps_at t h n Hs) by exact Hn.
    replace (c_light * kap N h k * (vget t 0 + INR m * h) + - (c_light * (k0 + kap N h k - k0) * (vget t 0 + INR n * h))) with (kap N h k * (IZR (Z.of_nat m - Z.of_nat n) * (c_light * h))).
    2:{ rewrite minus_IZR, <- !INR_IZR_INZ. ring. }
    rewrite kap_step by assumption. rewrite minus_IZR, <- !INR_IZR_INZ. reflexivity.
Qed.
Lemma flat_plane : z_plane flat_axiprop.
Proof.
  intros X Y ks F HF. split.
  - intros z q i j Hq Hi Hj. cbn [z_t2z_xy flat_axiprop]. destruct (Nat.ltb_spec i (snd X)); [|lia]. destruct (Nat.ltb_spec j (snd Y)); [|lia]. cbn [andb]. apply csum_ext. intros k Hk. rewrite HF by assumption. do 2 f_equal. ring.
  - intros t n i j Hn Hi Hj. cbn [z_z2t_xy flat_axiprop]. destruct (Nat.ltb_spec i (snd X)); [|lia]. destruct (Nat.ltb_spec j (snd Y)); [|lia]. cbn [andb]. apply csum_ext. intros k Hk. rewrite HF by assumption. do 2 f_equal. ring.
Qed.
