(** export_to_z and import_from_z with other values of z0 and t0. *)
From Verif Require Import PyBase CSum NpFFT FFTProofs NumPy GridModel GridSpec GridProofs GridObs LaserSpec EnergyModel LaserModel AnalysisModel AnalysisSpec ReadOnlyProofs FullSpectrumProofs LaserInv LaserInitProofs PropagateProofs ZModel ZSpec.
From Verif Require Import ZProofs.
Open Scope R_scope.

Lemma export_plane_at A g f e w h z z0 t0 s : z_local A -> z_spectrum A -> z_emit A z0 t0 s -> steps (time_axis g) h -> tread g = Ok f -> dim2 f = length (time_axis g) ->
  (forall i j n, inb f i j n -> at3 f i j n = e n) ->
  exists fz F, snd (export_to_z A Xyt g w (Some z) z0 t0) = Ok fz /\ shp fz = [dim0 f; dim1 f; length z] /\
    (forall n, (n < dim2 f)%nat -> e n = csum (dim2 f) (fun k => Cmult (F k) (cis (- (c_light * kap (dim2 f) h k * vget (time_axis g) n))))) /\
    (forall i j q, (i < dim0 f)%nat -> (j < dim1 f)%nat -> (q < length z)%nat ->
       at3 fz i j q = Cmult (cis (w / c_light * s - w * t0)) (csum (dim2 f) (fun k => Cmult (F k) (cis (kap (dim2 f) h k * (vget z q + s)))))).
Proof.
  intros (_ & L1 & _ & L3) HS HP Hs Hf Ht Hv. set (t := time_axis g) in *. destruct (HS (w / c_light) t h Hs) as (K1 & K2 & K3).
  pose proof c_light_pos as Pc.
  set (F := fun k => z_ft A (w / c_light) t e k). eexists. exists F. split; [apply export_xyt_eq, Hf|]. split; [reflexivity|]. split.
  - intros n Hn. rewrite Ht in Hn |- *. rewrite (K3 e n Hn). apply csum_ext. intros k Hk. rewrite K2 by exact Hk. unfold F, kap. do 2 f_equal. ring.
  - intros i j q Hi Hj Hq. cbn [at3]. fold t.
    assert (HF : forall k i j, (i < dim0 f)%nat -> (j < dim1 f)%nat -> z_ft A (w / c_light) t (fun n => at3 f i j n) k = F k).
    { intros k i' j' Hi' Hj'. apply L1. intros n Hn. apply Hv. unfold inb. rewrite Ht. auto. }
    rewrite (fun H => proj1 (L3 _ _ _ _ (fun k _ _ => F k) _ _ _ _ _ _ H)) by (cbn [snd]; intros k i' j' _ Hi' Hj'; apply HF; assumption).
    pose proof (HP (vget (g_hi g) 0 - vget (g_lo g) 0, dim0 f) (vget (g_hi g) 1 - vget (g_lo g) 1, dim1 f) (z_kfreq A (w / c_light) t) (fun k _ _ => F k) ltac:(intros ? ? ? ? ? ?; reflexivity)) as P.
    rewrite P by (cbn [snd]; assumption). rewrite <- csum_scal_r, <- csum_scal_l, K1, Ht. apply csum_ext. intros k Hk. rewrite K2 by exact Hk. unfold export_phase, kap.
    rewrite <- Cmult_assoc, <- cis_plus. rewrite (Cmult_comm (cis _) (Cmult _ _)), <- Cmult_assoc, <- cis_plus. do 2 f_equal. field. lra.
Qed.
Lemma export_delay_at A g f e w h z z0 t0 s : z_local A -> z_spectrum A -> z_emit A z0 t0 s -> steps (time_axis g) h -> tread g = Ok f -> dim2 f = length (time_axis g) ->
  (forall i j n, inb f i j n -> at3 f i j n = e n) ->
  exists fz, snd (export_to_z A Xyt g w (Some z) z0 t0) = Ok fz /\ shp fz = [dim0 f; dim1 f; length z] /\
    forall i j q n (p : Z), (i < dim0 f)%nat -> (j < dim1 f)%nat -> (q < length z)%nat -> (n < dim2 f)%nat ->
      vget z q + s = - c_light * vget (time_axis g) n + IZR p * (INR (dim2 f) * (c_light * h)) -> at3 fz i j q = Cmult (cis (w / c_light * s - w * t0)) (e n).
Proof.
  intros HL HS HP Hs Hf Ht Hv. destruct (export_plane_at A g f e w h z z0 t0 s HL HS HP Hs Hf Ht Hv) as (fz & F & E1 & E2 & E3 & E4).
  exists fz. split; [exact E1|]. split; [exact E2|]. intros i j q n p Hi Hj Hq Hn Hz. rewrite E4, E3 by assumption. f_equal. apply csum_ext. intros k Hk. f_equal.
  rewrite Hz. replace (kap (dim2 f) h k * (- c_light * vget (time_axis g) n + IZR p * (INR (dim2 f) * (c_light * h)))) with (- (c_light * kap (dim2 f) h k * vget (time_axis g) n) + kap (dim2 f) h k * (IZR (p * Z.of_nat (dim2 f)) * (c_light * h))).
  2:{ rewrite mult_IZR, <- INR_IZR_INZ. ring. }
  rewrite cis_plus, kap_step by (try exact Hk; apply Hs).
  replace (2 * PI * (INR k * IZR (p * Z.of_nat (dim2 f))) / INR (dim2 f)) with (2 * PI * IZR (Z.of_nat k * p)).
  2:{ rewrite !mult_IZR, <- !INR_IZR_INZ. field. apply INR_neq0. lia. }
  rewrite cis_2PI_Z. ring.
Qed.
Lemma import_plane_at A g g' f e w h z z0 t0 s z1 t1 s1 : CohG g -> z_local A -> z_spectrum A -> z_emit A z0 t0 s -> z_record A z1 t1 s1 -> steps (time_axis g) h -> steps z (c_light * h) -> length z = length (time_axis g) ->
  tread g = Ok f -> g_npoints g = shp f -> length (shp f) = 3%nat -> dim2 f = length (time_axis g) ->
  (forall i j n, inb f i j n -> at3 f i j n = e n) ->
  CohG g' -> same_meta g g' ->
  exists fz b, snd (export_to_z A Xyt g w (Some z) z0 t0) = Ok fz /\ snd (import_from_z A Xyt g' w fz z z1 t1) = Ok tt /\
    tread (fst (import_from_z A Xyt g' w fz z z1 t1)) = Ok b /\ shp b = shp f /\
    forall i j n m (p : Z), inb f i j n -> (m < dim2 f)%nat ->
      c_light * vget (time_axis g) n + s1 = c_light * vget (time_axis g) m + s + IZR p * (INR (dim2 f) * (c_light * h)) ->
      at3 b i j n = Cmult (cis (w / c_light * (s - s1) + w * (z1 / c_light - t0))) (e m).
Proof.
  intros Hc HL HS HP HQ Hs Hz Hlen Hf Hnp Hrk Ht Hv Hc' Hm. pose proof c_light_pos as Pc.
  destruct (tread_shape _ _ (proj1 Hc) Hf) as [Hsh Hdt].
  destruct (shp f) as [|nx [|ny [|nt [|]]]] eqn:Es; try discriminate Hrk. clear Hrk.
  assert (D0 : dim0 f = nx) by (unfold dim0; rewrite Es; reflexivity). assert (D1 : dim1 f = ny) by (unfold dim1; rewrite Es; reflexivity). assert (D2 : dim2 f = nt) by (unfold dim2; rewrite Es; reflexivity).
  destruct (export_plane_at A g f e w h z z0 t0 s HL HS HP Hs Hf Ht Hv) as (fz & F & E1 & E2 & E3 & E4). rewrite D0, D1, D2 in *.
  set (t := time_axis g) in *. destruct Hm as (A1&A2&A3&A4&A5&A6&A7&A8&A9&A10).
  assert (T : time_axis g' = t) by (unfold t, time_axis; rewrite A4; reflexivity).
  assert (Z0 : dim0 fz = nx) by (unfold dim0; rewrite E2; reflexivity). assert (Z1 : dim1 fz = ny) by (unfold dim1; rewrite E2; reflexivity). assert (Z2 : dim2 fz = length z) by (unfold dim2; rewrite E2; reflexivity).
  destruct Hs as (Hs1 & Hs2 & Hs3). pose proof Hz as (Hz1 & _ & Hz3).
  assert (HN : (0 < nt)%nat) by lia.
  exists fz. unfold import_from_z. rewrite T, Z2, Nat.eqb_refl. destruct (Nat.ltb_spec (length z) 2); [lia|]. cbn [negb].
  rewrite A3, Hnp. rewrite Z0, Z1, !Nat.eqb_refl. cbn [negb orb].
  set (T3 := fun k i j => Cmult (fft_forward fz i j k) (import_shift w z k)).
  match goal with |- context [set_temporal_field g' ?a] => set (b := a) end.
  destruct (set_t_ok g' b (proj1 Hc')) as (R1 & R2 & R3).
  { unfold b. cbn [shp]. rewrite A8, <- Hsh. congruence. }
  { reflexivity. }
  exists b. split; [exact E1|]. split; [exact R1|]. split; [exact R2|].
  (** the spectrum is recovered *)
  assert (dzz : vget z 1 - vget z 0 = c_light * h) by (apply Hz3; lia).
  assert (KO : forall k, import_omega w z k / c_light = w / c_light + kap nt h k).
  { intros k. unfold import_omega, kap, fftfreq. rewrite dzz, Hlen, <- Ht. assert (INR nt <> 0) by (apply INR_neq0; exact HN). field. repeat split; lra. }
  assert (HT : forall k i j, (k < nt)%nat -> (i < nx)%nat -> (j < ny)%nat -> T3 k i j = Cmult (cis (w / c_light * s - w * t0)) (Cmult (F k) (cis (kap nt h k * s)))).
  { intros k i j Hk Hi Hj. unfold T3, fft_forward. rewrite Z2, Hlen, <- Ht. unfold import_shift. rewrite KO. replace (w / c_light + kap nt h k - w / c_light) with (kap nt h k) by ring.
    set (c0 := cis (w / c_light * s - w * t0)) in *.
    set (X := fun m => Cmult (Cmult c0 (Cmult (F m) (cis (kap nt h m * s)))) (cis (kap nt h m * vget z 0))).
    rewrite (fft1_ext nt _ (fun q => csum nt (fun m => Cmult (X m) (cis (2 * PI * (INR q * INR m) / INR nt))))).
    2:{ intros q Hq. rewrite E4 by (try assumption; lia). rewrite <- csum_scal_l. apply csum_ext. intros m Hm'. unfold X. rewrite <- !Cmult_assoc. f_equal. f_equal. rewrite <- !cis_plus.
        rewrite (steps_at z (c_light * h) q Hz) by lia. 
        replace (kap nt h m * (vget z 0 + INR q * (c_light * h) + s)) with (kap nt h m * s + (kap nt h m * vget z 0 + kap nt h m * (IZR (Z.of_nat q) * (c_light * h)))) by (rewrite <- INR_IZR_INZ; ring).
        rewrite !cis_plus, kap_step by assumption. rewrite <- INR_IZR_INZ. do 3 f_equal. replace (INR m * INR q) with (INR q * INR m) by ring. reflexivity. }
    assert (EX : Cmult (RtoC (/ INR nt)) (fft1 nt (fun q => csum nt (fun m => Cmult (X m) (cis (2 * PI * (INR q * INR m) / INR nt)))) k) = X k).
    { rewrite <- fft1_scal. rewrite <- (fft_ifft1 nt X k Hk). reflexivity. }
    rewrite EX. unfold X. rewrite <- !Cmult_assoc, <- cis_plus. replace (kap nt h k * vget z 0 + - (vget z 0 * kap nt h k)) with 0 by ring. rewrite cis_0. ring. }
  split; [unfold b; cbn [shp]; congruence|].
  intros i j n m p Hin Hm Hnm. assert (Hi : (i < nx)%nat /\ (j < ny)%nat /\ (n < nt)%nat) by (unfold inb in Hin; rewrite D0, D1, D2 in Hin; exact Hin). destruct Hi as (Hi & Hj & Hn).
  rewrite E3 by exact Hm. unfold b. cbn [at3].
  assert (Lk : length (import_ks w z) = nt) by (unfold import_ks; rewrite map_length, seq_length; lia).
  destruct HL as (_ & _ & _ & L3). set (c0 := cis (w / c_light * s - w * t0)) in *.
  rewrite (fun H => proj2 (L3 _ _ _ _ (fun k _ _ => Cmult c0 (Cmult (F k) (cis (kap nt h k * s)))) _ _ _ _ _ _ H)) by (cbn [snd]; rewrite Lk; intros k i' j' Hk Hi' Hj'; apply HT; assumption).
  pose proof (HQ (vget (g_hi g') 0 - vget (g_lo g') 0, nx) (vget (g_hi g') 1 - vget (g_lo g') 1, ny) (import_ks w z) (fun k _ _ => Cmult c0 (Cmult (F k) (cis (kap nt h k * s)))) ltac:(intros ? ? ? ? ? ?; reflexivity)) as P.
  rewrite P by (try assumption; cbn [snd]; lia). rewrite <- csum_scal_r, <- csum_scal_l, Lk. apply csum_ext. intros k Hk. unfold import_phase.
  assert (Ek : vget (import_ks w z) k = w / c_light + kap nt h k).
  { unfold import_ks, vget. rewrite (nth_indep _ 0 ((fun k => import_omega w z k / c_light) 0%nat)) by (rewrite map_length, seq_length; lia).
    rewrite (map_nth (fun k => import_omega w z k / c_light)), seq_nth by lia. apply KO. }
  rewrite Ek. unfold c0.
  assert (EK : cis (kap nt h k * s + - (kap nt h k * (c_light * vget t n + s1))) = cis (- (c_light * kap nt h k * vget t m))).
  { rewrite Hnm.
    replace (kap nt h k * s + - (kap nt h k * (c_light * vget t m + s + IZR p * (INR nt * (c_light * h))))) with (- (c_light * kap nt h k * vget t m) + kap nt h k * (IZR (- p * Z.of_nat nt) * (c_light * h))) by (rewrite mult_IZR, opp_IZR, <- INR_IZR_INZ; ring).
    rewrite cis_plus, kap_step by assumption. replace (2 * PI * (INR k * IZR (- p * Z.of_nat nt)) / INR nt) with (2 * PI * IZR (Z.of_nat k * - p)).
    2:{ rewrite !mult_IZR, <- !INR_IZR_INZ. field. apply INR_neq0. lia. }
    rewrite cis_2PI_Z. ring. }
  rewrite <- EK.
  replace (- ((w / c_light + kap nt h k) * (c_light * vget t n + s1))) with (- (w / c_light * (c_light * vget t n + s1)) + - (kap nt h k * (c_light * vget t n + s1))) by ring.
  replace (w / c_light * (s - s1) + w * (z1 / c_light - t0)) with (w / c_light * s - w * t0 + (- (w / c_light * (c_light * vget t n + s1)) + (z1 / c_light + vget t n) * w)) by (field; lra).
  rewrite !cis_plus. ring.
Qed.
Lemma c78_delay_at A lo hi np nm g0 h f e w z z0 t0 s : z_local A -> z_spectrum A -> z_emit A z0 t0 s -> grid_init Xyt lo hi np (Some nm) true = Ok g0 -> length np = 3%nat -> vget lo 2 < vget hi 2 ->
  snd (get_temporal_field (grun g0 h)) = Ok f -> (forall i j n, inb f i j n -> at3 f i j n = e n) ->
  exists fz, snd (export_to_z A Xyt (grun g0 h) w (Some z) z0 t0) = Ok fz /\ shp fz = [dim0 f; dim1 f; length z] /\
    forall i j q n (p : Z), (i < dim0 f)%nat -> (j < dim1 f)%nat -> (q < length z)%nat -> (n < dim2 f)%nat ->
      vget z q + s = - (c_light * vget (time_axis g0) n) + IZR p * (c_light * (INR (dim2 f) * spacing (vget lo 2) (vget hi 2) (nth 2 np 0%nat))) ->
      at3 fz i j q = Cmult (cis (w / c_light * s - w * t0)) (e n).
Proof.
  intros HL HS HP Hg Hl Hlt Hf Hv. destruct (grid_facts Xyt lo hi np nm g0 h f Hg Hl Hf) as (C1 & M1 & S1 & T1 & D1 & _).
  assert (ET : time_axis (grun g0 h) = time_axis g0) by (unfold time_axis; destruct M1 as (_&_&_&E&_); rewrite E; reflexivity).
  pose proof (grid_steps _ _ _ _ _ _ _ Hg Hlt) as Hs. cbn [ndims_of Nat.sub] in Hs.
  destruct (export_delay_at A (grun g0 h) f e w _ z z0 t0 s HL HS HP ltac:(rewrite ET; exact Hs) Hf ltac:(congruence) Hv) as (fz & E1 & E2 & E3).
  exists fz. split; [exact E1|]. split; [exact E2|]. intros i j q n p Hi Hj Hq Hn Hz. apply (E3 i j q n p Hi Hj Hq Hn). rewrite ET, Hz. unfold vget. ring.
Qed.
Lemma c78_roundtrip_at A lo hi np nm g0 h h' f e w z z0 t0 s z1 t1 s1 : z_local A -> z_spectrum A -> z_emit A z0 t0 s -> z_record A z1 t1 s1 ->
  grid_init Xyt lo hi np (Some nm) true = Ok g0 -> length np = 3%nat -> vget lo 2 < vget hi 2 ->
  snd (get_temporal_field (grun g0 h)) = Ok f -> (forall i j n, inb f i j n -> at3 f i j n = e n) ->
  steps z (c_light * spacing (vget lo 2) (vget hi 2) (nth 2 np 0%nat)) -> length z = length (time_axis g0) ->
  exists fz b, snd (export_to_z A Xyt (grun g0 h) w (Some z) z0 t0) = Ok fz /\ snd (import_from_z A Xyt (grun g0 h') w fz z z1 t1) = Ok tt /\
    snd (get_temporal_field (fst (import_from_z A Xyt (grun g0 h') w fz z z1 t1))) = Ok b /\ shp b = shp f /\
    forall i j n m (p : Z), inb f i j n -> (m < dim2 f)%nat ->
      c_light * vget (time_axis g0) n + s1 = c_light * vget (time_axis g0) m + s + IZR p * (c_light * (INR (dim2 f) * spacing (vget lo 2) (vget hi 2) (nth 2 np 0%nat))) ->
      at3 b i j n = Cmult (cis (w / c_light * (s - s1) + w * (z1 / c_light - t0))) (e m).
Proof.
  intros HL HS HP HQ Hg Hl Hlt Hf Hv Hz Hlen. destruct (grid_facts Xyt lo hi np nm g0 h f Hg Hl Hf) as (C1 & M1 & S1 & T1 & D1 & _ & H3 & Hp & _).
  assert (ET : time_axis (grun g0 h) = time_axis g0) by (unfold time_axis; destruct M1 as (_&_&_&E&_); rewrite E; reflexivity).
  pose proof (grid_steps _ _ _ _ _ _ _ Hg Hlt) as Hs. cbn [ndims_of Nat.sub] in Hs.
  pose proof (grun_meta g0 h') as M2. pose proof (grun_Coh g0 h' (grid_init_CohG _ _ _ _ _ _ Hg)) as C2.
  assert (M12 : same_meta (grun g0 h) (grun g0 h')) by (revert M1 M2; unfold same_meta; intuition congruence).
  destruct (import_plane_at A (grun g0 h) (grun g0 h') f e w (spacing (vget lo 2) (vget hi 2) (nth 2 np 0%nat)) z z0 t0 s z1 t1 s1 C1 HL HS HP HQ) as (fz & b & E1 & E2 & E3 & E4 & E5); try assumption; rewrite ?ET; try assumption.
  { destruct M1 as (_&_&E3&_). rewrite E3. apply Hp. reflexivity. }
  exists fz, b. split; [exact E1|]. split; [exact E2|]. split; [exact E3|]. split; [exact E4|].
  intros i j n m p Hin Hm Hnm. apply (E5 i j n m p Hin Hm). rewrite ET, Hnm. ring.
Qed.
Lemma import_checks A d g w fz z z0 t0 :
  ((length z < 2)%nat -> import_from_z A d g w fz z z0 t0 = (g, Err IndexError)) /\
  ((2 <= length z)%nat -> dim2 fz <> length z -> import_from_z A d g w fz z z0 t0 = (g, Err ValueError)).
Proof.
  unfold import_from_z. split.
  - intros H. destruct (Nat.ltb_spec (length z) 2); [reflexivity|lia].
  - intros H N. destruct (Nat.ltb_spec (length z) 2); [lia|]. destruct (Nat.eqb_spec (dim2 fz) (length z)); [contradiction|]. reflexivity.
Qed.
Lemma flat_emit z0 t0 : z_emit flat_axiprop z0 t0 (c_light * t0 - z0).
Proof.
  intros X Y ks F HF z q i j Hq Hi Hj. cbn [z_t2z_xy flat_axiprop]. destruct (Nat.ltb_spec i (snd X)), (Nat.ltb_spec j (snd Y)); try lia. cbn [andb].
  apply csum_ext. intros k Hk. rewrite (HF k i j Hk Hi Hj). do 2 f_equal. ring.
Qed.
Lemma flat_record z0 t0 : z_record flat_axiprop z0 t0 (- (z0 + c_light * t0)).
Proof.
  intros X Y ks F HF t n i j Hn Hi Hj. cbn [z_z2t_xy flat_axiprop]. destruct (Nat.ltb_spec i (snd X)), (Nat.ltb_spec j (snd Y)); try lia. cbn [andb].
  apply csum_ext. intros k Hk. rewrite (HF k i j Hk Hi Hj). do 2 f_equal. ring.
Qed.
