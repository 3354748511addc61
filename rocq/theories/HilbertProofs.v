(** The analytic signal: its real part is the signal, and a carrier becomes a complex exponential (C85). *)
From Verif Require Import PyBase CSum NpFFT FFTProofs NumPy NpMath GridModel GridSpec GridProofs LaserSpec GridObs EnergyModel EnergyProofs
  LaserModel LaserInv AnalysisModel AnalysisSpec OpenPMDModel DurationProofs FrequencyProofs CreateGridProofs HilbertModel.
Open Scope R_scope.

Lemma even_half N : N = if Nat.even N then (2 * (N / 2))%nat else (2 * (N / 2) + 1)%nat.
Proof. pose proof (Nat.div2_odd N) as Q. rewrite Nat.div2_div in Q. rewrite <- Nat.negb_even in Q. set (K := (N / 2)%nat) in *. clearbody K. destruct (Nat.even N); cbn [negb Nat.b2n] in Q; lia. Qed.
Lemma odd_half N : Nat.even N = false -> ((N + 1) / 2 = N / 2 + 1)%nat.
Proof.
  intros H. pose proof (even_half N) as E. rewrite H in E. set (K := (N / 2)%nat) in *. clearbody K. subst N.
  symmetry. apply (Nat.div_unique (2 * K + 1 + 1) 2 (K + 1) 0); lia.
Qed.
(** The weights of a frequency and of its opposite add up to 2. *)
Lemma hilbert_h_sym N k : (0 < k)%nat -> (k < N)%nat -> hilbert_h N k + hilbert_h N (N - k) = 2.
Proof.
  intros H0 HN. unfold hilbert_h. pose proof (even_half N) as E. pose proof (odd_half N) as O. set (K := (N / 2)%nat) in *. clearbody K. destruct (Nat.eqb_spec k 0); [lia|]. destruct (Nat.eqb_spec (N - k) 0); [lia|].
  destruct (Nat.even N) eqn:Ev.
  - destruct (Nat.eqb_spec k K), (Nat.eqb_spec (N - k) K); try lia; [ring|].
    destruct (Nat.ltb_spec k K), (Nat.ltb_spec (N - k) K); try lia; ring.
  - rewrite (O eq_refl). destruct (Nat.ltb_spec k (K + 1)), (Nat.ltb_spec (N - k) (K + 1)); try lia; ring.
Qed.
Lemma hilbert_h_pos N p : (0 < p)%nat -> (2 * p < N)%nat -> hilbert_h N p = 2 /\ hilbert_h N (N - p) = 0.
Proof.
  intros H0 HN. unfold hilbert_h. pose proof (even_half N) as E. pose proof (odd_half N) as O. set (K := (N / 2)%nat) in *. clearbody K. destruct (Nat.eqb_spec p 0); [lia|]. destruct (Nat.eqb_spec (N - p) 0); [lia|].
  destruct (Nat.even N) eqn:Ev.
  - destruct (Nat.eqb_spec p K), (Nat.eqb_spec (N - p) K); try lia.
    destruct (Nat.ltb_spec p K), (Nat.ltb_spec (N - p) K); try lia; auto.
  - rewrite (O eq_refl). destruct (Nat.ltb_spec p (K + 1)), (Nat.ltb_spec (N - p) (K + 1)); try lia; auto.
Qed.
(** Reflection k -> -k mod N of a sum over the frequencies. *)
Lemma csum_reflect N f : csum N f = csum N (fun k => if Nat.eqb k 0 then f 0%nat else f (N - k)%nat).
Proof.
  destruct N as [|n]; [reflexivity|]. rewrite !csum_first. cbn [Nat.eqb]. f_equal. rewrite <- csum_rev. apply csum_ext. intros i Hi. f_equal. lia.
Qed.
Lemma fft1_conj N x k : (0 < N)%nat -> (k < N)%nat -> (forall n, (n < N)%nat -> Im (x n) = 0) ->
  fft1 N x (if Nat.eqb k 0 then 0 else N - k)%nat = Cconj (fft1 N x k).
Proof.
  intros H0 HN Hx. pose proof (INR_pos N H0) as HNp. unfold fft1. rewrite Cconj_csum. apply csum_ext. intros n Hn. rewrite Cconj_mult, <- cis_opp. f_equal.
  - specialize (Hx n Hn). destruct (x n) as (a, b). unfold Im in Hx. simpl in Hx. subst b. unfold Cconj; simpl. f_equal. ring.
  - destruct (Nat.eqb_spec k 0) as [->|Hk].
    + f_equal. simpl (INR 0). rewrite !Rmult_0_r. unfold Rdiv. rewrite !Rmult_0_l. ring.
    + rewrite <- (cis_period (- (2 * PI * (INR n * INR (N - k)) / INR N)) (Z.of_nat n)). f_equal. rewrite minus_INR by lia. rewrite <- INR_IZR_INZ. field. lra.
Qed.
Lemma Re_conj z : RtoC (Re z) = Cmult (RtoC (/ 2)) (Cplus z (Cconj z)).
Proof. destruct z as (a, b). unfold RtoC, Cmult, Cplus, Cconj, Re; simpl. f_equal; field. Qed.
(** The real part of the analytic signal is the signal. *)
Lemma hilbert_real N x n : (n < N)%nat -> (forall q, (q < N)%nat -> Im (x q) = 0) -> RtoC (Re (scipy_hilbert N x n)) = x n.
Proof.
  intros Hn Hx. assert (H0 : (0 < N)%nat) by lia. pose proof (INR_pos N H0) as HNp. rewrite Re_conj.
  rewrite <- (ifft_fft1 N x n Hn). unfold scipy_hilbert, ifft1. rewrite Cconj_mult, Cconj_R, Cconj_csum.
  rewrite (csum_reflect N (fun i => Cconj _)).
  replace (Cmult (RtoC (/ 2)) (Cplus (Cmult (RtoC (/ INR N)) (csum N (fun k => Cmult (Cmult (fft1 N x k) (RtoC (hilbert_h N k))) (cis (2 * PI * (INR n * INR k) / INR N)))))
      (Cmult (RtoC (/ INR N)) (csum N (fun k => if Nat.eqb k 0 then Cconj (Cmult (Cmult (fft1 N x 0) (RtoC (hilbert_h N 0))) (cis (2 * PI * (INR n * INR 0) / INR N)))
         else Cconj (Cmult (Cmult (fft1 N x (N - k)) (RtoC (hilbert_h N (N - k)))) (cis (2 * PI * (INR n * INR (N - k)) / INR N))))))))
   with (Cmult (RtoC (/ INR N)) (csum N (fun k => Cmult (RtoC (/ 2)) (Cplus (Cmult (Cmult (fft1 N x k) (RtoC (hilbert_h N k))) (cis (2 * PI * (INR n * INR k) / INR N)))
      (if Nat.eqb k 0 then Cconj (Cmult (Cmult (fft1 N x 0) (RtoC (hilbert_h N 0))) (cis (2 * PI * (INR n * INR 0) / INR N)))
         else Cconj (Cmult (Cmult (fft1 N x (N - k)) (RtoC (hilbert_h N (N - k)))) (cis (2 * PI * (INR n * INR (N - k)) / INR N)))))))).
  2:{ rewrite csum_scal_l, csum_plus. ring. }
  f_equal. apply csum_ext. intros k Hk. pose proof (fft1_conj N x k H0 Hk Hx) as F. destruct (Nat.eqb_spec k 0) as [->|Hk0].
  - assert (E : hilbert_h N 0 = 1) by reflexivity. rewrite E. rewrite !Cconj_mult, <- F, Cconj_R, <- cis_opp.
    replace (2 * PI * (INR n * INR 0) / INR N) with 0 by (simpl (INR 0); rewrite !Rmult_0_r; unfold Rdiv; ring). rewrite Ropp_0, cis_0.
    destruct (fft1 N x 0) as (a, b). unfold RtoC, Cmult, Cplus; simpl. f_equal; field.
  - rewrite F. rewrite !Cconj_mult, Cconj_conj, Cconj_R, <- cis_opp.
    replace (cis (- (2 * PI * (INR n * INR (N - k)) / INR N))) with (cis (2 * PI * (INR n * INR k) / INR N)).
    2:{ symmetry. rewrite <- (cis_period (- (2 * PI * (INR n * INR (N - k)) / INR N)) (Z.of_nat n)). f_equal. rewrite minus_INR by lia. rewrite <- INR_IZR_INZ. field. lra. }
    pose proof (hilbert_h_sym N k ltac:(lia) Hk) as E.
    replace (hilbert_h N (N - k)) with (2 - hilbert_h N k) by lra.
    destruct (fft1 N x k) as (a, b), (cis (2 * PI * (INR n * INR k) / INR N)) as (u, v). unfold RtoC, Cmult, Cplus; simpl. f_equal; field.
Qed.
(** Linearity and pure tones. *)
Lemma hilbert_ext N x y n : (forall q, (q < N)%nat -> x q = y q) -> scipy_hilbert N x n = scipy_hilbert N y n.
Proof. intros H. unfold scipy_hilbert. apply ifft1_ext. intros k Hk. f_equal. apply fft1_ext, H. Qed.
Lemma hilbert_plus N x y n : scipy_hilbert N (fun q => Cplus (x q) (y q)) n = Cplus (scipy_hilbert N x n) (scipy_hilbert N y n).
Proof. unfold scipy_hilbert. rewrite <- ifft1_plus. apply ifft1_ext. intros k _. rewrite fft1_plus. ring. Qed.
Lemma hilbert_scal N s x n : scipy_hilbert N (fun q => Cmult s (x q)) n = Cmult s (scipy_hilbert N x n).
Proof. unfold scipy_hilbert. rewrite <- ifft1_scal. apply ifft1_ext. intros k _. rewrite fft1_scal. ring. Qed.
Lemma hilbert_tone N p n : (p < N)%nat -> (n < N)%nat ->
  scipy_hilbert N (fun q => cis (2 * PI * (INR p * INR q) / INR N)) n = Cmult (RtoC (hilbert_h N p)) (cis (2 * PI * (INR p * INR n) / INR N)).
Proof.
  intros Hp Hn. assert (H0 : (0 < N)%nat) by lia. pose proof (INR_pos N H0) as HNp.
  set (X := fun k => if Nat.eqb k p then RtoC (INR N) else RtoC 0).
  assert (E : forall q, (q < N)%nat -> cis (2 * PI * (INR p * INR q) / INR N) = ifft1 N X q).
  { intros q Hq. unfold ifft1, X. rewrite (csum_single N _ p Hp).
    - rewrite Nat.eqb_refl. replace (INR q * INR p) with (INR p * INR q) by ring.
      destruct (cis (2 * PI * (INR p * INR q) / INR N)) as (u, v). unfold RtoC, Cmult; simpl. f_equal; field; lra.
    - intros i Hi Hne. destruct (Nat.eqb_spec i p); [tauto|]. apply Cmult_0_l. }
  rewrite (hilbert_ext N _ (ifft1 N X) n E). unfold scipy_hilbert.
  rewrite (ifft1_ext N _ (fun k => Cmult (RtoC (hilbert_h N p)) (X k)) n).
  - rewrite ifft1_scal, <- (E n Hn). reflexivity.
  - intros k Hk. rewrite fft_ifft1 by exact Hk. unfold X. destruct (Nat.eqb_spec k p) as [->|_]; [ring|]. rewrite Cmult_0_l, Cmult_0_r. reflexivity.
Qed.
(** The analytic signal of a cos(2 pi p n / N + phi) is a exp(i (2 pi p n / N + phi)). *)
Lemma hilbert_cos N p a phi n : (0 < p)%nat -> (2 * p < N)%nat -> (n < N)%nat ->
  scipy_hilbert N (fun q => RtoC (a * cos (2 * PI * (INR p * INR q) / INR N + phi))) n = Cmult (RtoC a) (cis (2 * PI * (INR p * INR n) / INR N + phi)).
Proof.
  intros H0 Hp Hn. assert (HNp : 0 < INR N) by (apply INR_pos; lia). destruct (hilbert_h_pos N p H0 Hp) as (E1 & E2).
  rewrite (hilbert_ext N _ (fun q => Cplus (Cmult (Cmult (RtoC (a / 2)) (cis phi)) (cis (2 * PI * (INR p * INR q) / INR N)))
      (Cmult (Cmult (RtoC (a / 2)) (cis (- phi))) (cis (2 * PI * (INR (N - p) * INR q) / INR N)))) n).
  - rewrite hilbert_plus, !hilbert_scal, !hilbert_tone by lia. rewrite E1, E2, cis_plus.
    destruct (cis phi) as (u, v), (cis (2 * PI * (INR p * INR n) / INR N)) as (u', v'). unfold RtoC, Cmult, Cplus; simpl. f_equal; field.
  - intros q Hq. assert (E : cis (2 * PI * (INR (N - p) * INR q) / INR N) = cis (- (2 * PI * (INR p * INR q) / INR N))).
    { rewrite <- (cis_period (- (2 * PI * (INR p * INR q) / INR N)) (Z.of_nat q)). f_equal. rewrite minus_INR by lia. rewrite <- INR_IZR_INZ. field. lra. }
    rewrite E. set (u := 2 * PI * (INR p * INR q) / INR N). unfold cis, RtoC, Cmult, Cplus; simpl. rewrite cos_plus, !cos_neg, !sin_neg. f_equal; field.
Qed.

(** ** field_to_envelope *)
Lemma fte_value hilb d g f w : tread g = Ok f -> snd (field_to_envelope hilb d g) = Ok w ->
  let g' := fst (field_to_envelope hilb d g) in
  g_isenv g' = true /\ g_axes g' = g_axes g /\ g_lo g' = g_lo g /\ g_hi g' = g_hi g /\ g_shape g' = g_shape g /\
  exists e, tread g' = Ok e /\ shp e = shp f /\
    forall i j k, at3 e i j k = Cmult (at3 (hilbert_transform hilb f) i j k) (cis (w * vget (time_axis g) k)).
Proof.
  intros Hf. unfold field_to_envelope. destruct (g_isenv g); [discriminate|]. change (snd (get_temporal_field g)) with (tread g). rewrite Hf.
  set (q := get_frequency _ _ _ _ _ _). destruct (snd q) as [(om, w')|]; [|discriminate].
  set (E := mkArr _ _ _). set (s := set_temporal_field _ E). destruct (snd s) as [[]|] eqn:Hs; [|discriminate]. cbn [fst snd]. intros H. injection H as ->.
  assert (Q : same_meta g (fst q)).
  { eapply same_meta_trans; [apply get_t_meta|]. unfold q, get_frequency, with_field; cbn [fst]. apply get_t_meta. }
  destruct Q as (Q1 & Q2 & _ & Q4 & _ & _ & _ & Q8 & _).
  revert Hs. unfold s, set_temporal_field. destruct (shape_eqb (shp E) (shp (g_tf (set_is_envelope (fst q) true)))) eqn:Es; cbn [negb]; [|discriminate].
  apply shape_eqb_true in Es. destruct (negb _); [discriminate|]. intros _. cbn [fst].
  cbn [set_is_envelope with_t g_isenv g_axes g_lo g_hi g_shape]. rewrite Q1, Q2, Q4, Q8. do 5 (split; [reflexivity|]).
  eexists. split; [unfold tread, get_temporal_field; cbn [g_tv snd g_tf]; reflexivity|]. split; [symmetry; exact Es|]. intros i j k. reflexivity.
Qed.
Lemma Re_mult_R z x : Re (Cmult z (RtoC x)) = Re z * x.
Proof. destruct z as (a, b). unfold Re, Cmult, RtoC; simpl. ring. Qed.
Lemma c85_recover d g f w : tread g = Ok f -> (forall i j k, inb f i j k -> Im (at3 f i j k) = 0) ->
  snd (field_to_envelope scipy_hilbert d g) = Ok w ->
  let g' := fst (field_to_envelope scipy_hilbert d g) in
  g_isenv g' = true /\ g_axes g' = g_axes g /\ g_lo g' = g_lo g /\ g_hi g' = g_hi g /\
  exists e, tread g' = Ok e /\ shp e = shp f /\
    forall i j k, inb f i j k -> RtoC (Re (Cmult (at3 e i j k) (cis (- (w * vget (time_axis g) k))))) = at3 f i j k.
Proof.
  intros Hf Hr Hw g'. destruct (fte_value scipy_hilbert d g f w Hf Hw) as (A1 & A2 & A3 & A4 & _ & e & He & Hs & Hv). fold g' in A1, A2, A3, A4, He.
  conj; try assumption. exists e. conj; try assumption. intros i j k Hin. rewrite Hv, <- Cmult_assoc, cis_mul_opp, Cmult_1_r. unfold inb in *.
  unfold hilbert_transform; cbn [at3]. rewrite hilbert_real.
  - f_equal. lia.
  - lia.
  - intros q Hq. apply Hr. lia.
Qed.
Lemma uniform_at l d q : uniform l -> (forall i, (S i < length l)%nat -> vget l (S i) - vget l i = d) -> (q < length l)%nat -> vget l q = vget l 0 + INR q * d.
Proof.
  intros _ Hd. induction q as [|q IH]; intros Hq; [simpl; ring|]. pose proof (Hd q Hq) as E. specialize (IH ltac:(lia)).
  rewrite S_INR. replace (vget l (S q)) with (vget l q + d) by lra. rewrite IH. ring.
Qed.
(** A carrier with p whole periods in the window of N dt. *)
Lemma c85_carrier f t dt p a phi i j k : (forall q, (q < dim2 f)%nat -> t q = t 0%nat + INR q * dt) -> (0 < p)%nat -> (2 * p < dim2 f)%nat -> dt <> 0 -> inb f i j k ->
  let w := 2 * PI * INR p / (INR (dim2 f) * dt) in
  (forall q, (q < dim2 f)%nat -> at3 f i j q = RtoC (a * cos (w * t q + phi))) ->
  at3 (hilbert_transform scipy_hilbert f) i j k = Cmult (RtoC a) (cis (- (w * t k + phi))).
Proof.
  intros Ht H0 Hp Hdt Hin w Hf. set (N := dim2 f) in *. assert (HNp : 0 < INR N) by (apply INR_pos; lia).
  unfold inb in Hin. fold N in Hin. unfold hilbert_transform; cbn [at3]. fold N.
  set (phi' := - (w * (t 0%nat + INR (N - 1) * dt) + phi)).
  assert (Ew : w * dt = 2 * PI * INR p / INR N) by (unfold w; field; lra).
  assert (E : forall q, (q < N)%nat -> w * t (N - 1 - q)%nat + phi = - (2 * PI * (INR p * INR q) / INR N + phi')).
  { intros q Hq. rewrite Ht by lia. replace (2 * PI * (INR p * INR q) / INR N) with (INR q * (2 * PI * INR p / INR N)) by (field; lra). rewrite <- Ew.
    replace (INR (N - 1 - q)) with (INR (N - 1) - INR q) by (rewrite <- minus_INR by lia; reflexivity). unfold phi'. ring. }
  rewrite (hilbert_ext N _ (fun q => RtoC (a * cos (2 * PI * (INR p * INR q) / INR N + phi')))).
  - rewrite hilbert_cos by lia. f_equal. f_equal. pose proof (E (N - 1 - k)%nat ltac:(lia)) as Ek. replace (N - 1 - (N - 1 - k))%nat with k in Ek by lia. lra.
  - intros q Hq. rewrite Hf by lia. rewrite E by exact Hq. rewrite cos_neg. reflexivity.
Qed.
(** The envelope of A(x,y) cos(w t + phi) has the modulus |A|, and is A exp(-i phi) exp(i (w0 - w) t) with w0 the frequency returned. *)
Lemma c85_envelope d g f w0 dt p A phi : tread g = Ok f -> 
  (forall q, (q < dim2 f)%nat -> vget (time_axis g) q = vget (time_axis g) 0 + INR q * dt) -> dt <> 0 -> (0 < p)%nat -> (2 * p < dim2 f)%nat ->
  let w := 2 * PI * INR p / (INR (dim2 f) * dt) in
  (forall i j k, inb f i j k -> at3 f i j k = RtoC (A i j * cos (w * vget (time_axis g) k + phi i j))) ->
  snd (field_to_envelope scipy_hilbert d g) = Ok w0 ->
  exists e, tread (fst (field_to_envelope scipy_hilbert d g)) = Ok e /\ shp e = shp f /\ forall i j k, inb f i j k ->
    at3 e i j k = Cmult (RtoC (A i j)) (cis ((w0 - w) * vget (time_axis g) k - phi i j)) /\ Cmod (at3 e i j k) = Rabs (A i j).
Proof.
  intros Hf Ht Hdt H0 Hp w Hv Hw. destruct (fte_value scipy_hilbert d g f w0 Hf Hw) as (_ & _ & _ & _ & _ & e & He & Hs & Hve).
  exists e. split; [exact He|]. split; [exact Hs|]. intros i j k Hin.
  assert (E : at3 e i j k = Cmult (RtoC (A i j)) (cis ((w0 - w) * vget (time_axis g) k - phi i j))).
  { rewrite Hve, (c85_carrier f (fun q => vget (time_axis g) q) dt p (A i j) (phi i j) i j k Ht H0 Hp Hdt Hin).
    - fold w. rewrite <- Cmult_assoc, <- cis_plus. f_equal. f_equal. ring.
    - intros q Hq. fold w. apply Hv. unfold inb in *. tauto. }
  split; [exact E|]. rewrite E, Cmod_mult, Cmod_cis, Rmult_1_r. apply Cmod_R.
Qed.
