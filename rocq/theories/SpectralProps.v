(** C59, C60. *)
From Verif Require Import PyBase CSum NumPy NpFFT NpMath NpMathProofs GridModel GridProofs EnergyProofs AnalysisModel LaserSpec FromArrayProofs FromArraySpec DataModel DataProofs MomentProofs TransDataProofs FFTProofs SpectralSpec SpectralDataProofs.
Open Scope R_scope.

Lemma c_div_lt a b : 0 < a -> a < b -> c_light / b < c_light / a.
Proof.
  intros Ha H. pose proof c_light_pos. unfold Rdiv. apply Rmult_lt_compat_l; [assumption|]. apply Rinv_lt_contravar; [apply Rmult_lt_0_compat; lra|exact H].
Qed.
Lemma in_axis_intro l v : (0 < length l)%nat -> vget l 0 <= v -> v <= last l 0 -> in_axis l v = true.
Proof. intros L H1 H2. unfold in_axis. destruct l as [|x l]; [cbn in L; lia|]. apply andb_true_intro. rewrite !Rleb_true. split; assumption. Qed.
Section Asc.
Variables (wl : list R).
Hypothesis (A : ascending wl = true) (Pw : forall i, (i < length wl)%nat -> 0 < vget wl i).
Lemma spectrum_value_unique y f v v' : (2 <= length wl)%nat -> spectrum_value wl y f v -> spectrum_value wl y f v' -> v = v'.
Proof.
  intros L (H1 & H2 & H3) (H1' & H2' & H3').
  destruct (Rlt_dec f (c_light / last wl 0)) as [Q|Q]; [rewrite H1, H1' by exact Q; reflexivity|].
  destruct (Rlt_dec (c_light / vget wl 0) f) as [Q'|Q']; [rewrite H2, H2' by exact Q'; reflexivity|].
  pose proof (freq_asc wl A Pw) as Ax. set (xp := map (fun w => c_light / w) (rev wl)) in *.
  assert (Lx : length xp = length wl) by (unfold xp; rewrite map_length, rev_length; reflexivity).
  assert (Hin : in_axis xp f = true).
  { apply in_axis_intro; [lia| |].
    - unfold xp. rewrite freq_rev by lia. rewrite last_vget in Q. lra.
    - rewrite last_vget, Lx. unfold xp. rewrite freq_rev by lia. replace (length wl - S (length wl - 1))%nat with 0%nat by lia. lra. }
  destruct (find_interval_bounds xp f Ax ltac:(lia) Hin) as (B1 & B2). set (j := find_interval xp f) in *. clearbody j.
  rewrite Lx in B1. unfold xp in B2. rewrite !freq_rev in B2 by lia.
  replace (length wl - S j)%nat with (S (length wl - S (S j))) in B2 by lia.
  pose proof (H3 (length wl - S (S j))%nat ltac:(lia) B2) as E. pose proof (H3' (length wl - S (S j))%nat ltac:(lia) B2) as E'. rewrite <- E' in E.
  pose proof (c_div_lt _ _ (Pw (length wl - S (S j)) ltac:(lia)) (ascending_nth wl A (length wl - S (S j)) (S (length wl - S (S j))) ltac:(lia))).
  apply Rmult_eq_reg_l in E; [exact E|lra].
Qed.
Lemma sample_count_unique dt cwl N N' : sample_count wl dt cwl N -> sample_count wl dt cwl N' -> N = N'.
Proof.
  intros (a & Ha & _ & B) (a' & Ha' & _ & B'). rewrite (nearest_unique _ _ _ _ Ha' Ha) in B'.
  apply INR_eq. assert (Z.of_nat N = Z.of_nat N')%Z; [|apply Nat2Z.inj in H; subst; reflexivity].
  assert (IZR (Z.of_nat N) < IZR (Z.of_nat N' + 1)) by (rewrite plus_IZR, <- !INR_IZR_INZ; lra).
  assert (IZR (Z.of_nat N') < IZR (Z.of_nat N + 1)) by (rewrite plus_IZR, <- !INR_IZR_INZ; lra).
  apply lt_IZR in H, H0. lia.
Qed.
Lemma spectral_asc int ph dt lo hi : length int = length wl ->
  long_spectral wl int ph true dt lo hi = spectral_core wl int (match ph with Some p => p | None => map (fun _ => 0) wl end) dt lo hi \/
  exists e, (length wl <= 1)%nat /\ long_spectral wl int ph true dt lo hi = Err e.
Proof.
  intros L. unfold long_spectral. rewrite L, Nat.eqb_refl, A. cbn [negb orb]. destruct (descending wl) eqn:D; [|left; reflexivity].
  pose proof (asc_desc_short wl A D) as S1. right. unfold spectral_core. rewrite (rev_short wl) by exact S1. cbn zeta.
  destruct wl as [|w [|? ?]]; [eexists; split; [exact S1|reflexivity]| |cbn in S1; lia]. cbn. eexists; split; [lia|reflexivity].
Qed.
Variables (int : list R) (ph : option (list R)) (dt lo hi : R) (d : long_data).
Hypothesis (Li : length int = length wl) (Lp : forall p, ph = Some p -> length p = length wl) (Hdt : 0 < dt).
Hypothesis (H : long_spectral wl int ph true dt lo hi = Ok d).
Let pl := match ph with Some p => p | None => map (fun _ => 0) wl end.
Lemma core_ok : spectral_core wl int pl dt lo hi = Ok d.
Proof. destruct (spectral_asc int ph dt lo hi Li) as [E|(e & _ & E)]; rewrite E in H; [exact H|discriminate]. Qed.
Lemma pl_len : length pl = length wl. Proof. unfold pl. apply phase_list_length, Lp. Qed.
Lemma cwl_eq : ld_wavelength d = weighted_mean wl int.
Proof.
  destruct (core_inv wl int pl dt lo hi d core_ok A Pw Li pl_len Hdt) as (N & I & P & ta & _ & _ & _ & _ & Hc). cbn zeta in Hc.
  unfold crop_data in Hc. destruct (linspace _ _ N); [discriminate|]. injection Hc as <-. reflexivity.
Qed.
Lemma bound t e : long_evaluate d t = Ok e -> Cmod e <= 1.
Proof.
  destruct (core_inv wl int pl dt lo hi d core_ok A Pw Li pl_len Hdt) as (N & I & P & ta & HN & _ & _ & Hta & Hc). cbn zeta in Hc.
  apply (s_bound N ta dt (weighted_mean wl int) lo hi d HN Hdt Hc).
Qed.
Lemma count_len N : sample_count wl dt (ld_wavelength d) N -> (2 <= length wl)%nat.
Proof. intros (a & _ & L & _). lia. Qed.
Lemma zero_phase f v : (2 <= length wl)%nat -> spectrum_value wl (map (fun _ => 0) wl) f v -> v = 0.
Proof.
  intros L2 Hv. apply (spectrum_value_unique _ f _ _ L2 Hv). repeat split; try reflexivity. intros i Hi _.
  rewrite !(vget_map (fun _ => 0)) by lia. ring.
Qed.
(** All the facts about one set of data, in the vocabulary of the specification. *)
Lemma facts N : sample_count wl dt (ld_wavelength d) N ->
  exists I P ta, (0 < N)%nat /\ (forall k, ta k = Cmult (RtoC (/ (INR N * dt))) (dft_at N I P k)) /\
    ((2 <= N)%nat -> forall q, (q < N)%nat -> spectrum_value wl int (sample_freqs (c_light / ld_wavelength d) dt N q) (I q) /\
       match ph with Some p => spectrum_value wl p (sample_freqs (c_light / ld_wavelength d) dt N q) (P q) | None => P q = 0 end) /\
    let time := linspace (- dt * INR N / 2) (dt * INR N / 2 - dt) N in
    let ti0 := map (fun k => Cmod (ta k) ^ 2) (seq 0 N) in
    let tp0 := map (unwrap (fun k => - angle (ta k))) (seq 0 N) in
    crop_data (ld_wavelength d) time (map (fun v => v / rmaxl ti0) ti0) (map (fun p => p - vget tp0 (argmin (map Rabs time))) tp0) lo hi = Ok d.
Proof.
  intros HC. destruct (core_inv wl int pl dt lo hi d core_ok A Pw Li pl_len Hdt) as (N' & I & P & ta & HN & HC' & Hs & Hta & Hc).
  cbn zeta in *. rewrite <- cwl_eq in *. pose proof (sample_count_unique _ _ _ _ HC HC') as <-. exists I, P, ta. split; [exact HN|]. split; [exact Hta|]. split; [|exact Hc].
  intros H2 q Hq. destruct (Hs q Hq) as [S1 S2]. rewrite linspace_coord in S1, S2 by assumption. split; [exact S1|].
  unfold pl in S2. destruct ph as [p|]; [exact S2|]. apply (zero_phase _ _ (count_len N HC) S2).
Qed.
Lemma dft_synthesis N I P f0 k : (0 < N)%nat -> dft_at N I P k = synthesis N I P (mirrored_freqs f0 dt N) f0 ((INR k - INR (N / 2)) * dt).
Proof.
  intros HN. unfold dft_at, synthesis. apply csum_ext. intros q Hq. f_equal. f_equal. unfold mirrored_freqs. pose proof (INR_neq0 N HN). field. split; [lra|exact H0].
Qed.
Lemma dft_ext N I P I' P' k : (forall q, (q < N)%nat -> I q = I' q /\ P q = P' q) -> dft_at N I P k = dft_at N I' P' k.
Proof. intros E. unfold dft_at. apply csum_ext. intros q Hq. unfold spec_pt. destruct (E q Hq) as [-> ->]. reflexivity. Qed.
Lemma synth N I P :
  sample_count wl dt (ld_wavelength d) N ->
  (forall q, (q < N)%nat -> spectrum_value wl int (sample_freqs (c_light / ld_wavelength d) dt N q) (I q) /\
     match ph with Some p => spectrum_value wl p (sample_freqs (c_light / ld_wavelength d) dt N q) (P q) | None => P q = 0 end) ->
  (exists q, (q < N)%nat /\ 0 < I q) ->
  let E := fun k => synthesis N I P (mirrored_freqs (c_light / ld_wavelength d) dt N) (c_light / ld_wavelength d) ((INR k - INR (N / 2)) * dt) in
  (2 <= N)%nat -> exists K,
    (forall k, (k < N)%nat -> Cmod (Cmult K (E k)) <= 1) /\ (exists k, (k < N)%nat /\ Cmod (Cmult K (E k)) = 1) /\
    (exists r, 0 <= r /\ Cmult K (E (N / 2)%nat) = RtoC r) /\
    ((forall q, (q < N)%nat -> P q = 0) -> Cmult K (E (N / 2)%nat) = RtoC 1) /\
    forall k, (k < N)%nat -> In (sample_time dt N k) (ld_time d) -> long_evaluate d (sample_time dt N k) = Ok (Cmult K (E k)).
Proof.
  intros HC HS (q & Hq & HI) E H2. destruct (facts N HC) as (I' & P' & ta & HN & Hta & HS' & Hc). cbn zeta in Hc. specialize (HS' H2).
  assert (EE : forall q, (q < N)%nat -> I' q = I q /\ P' q = P q).
  { intros p Hp. destruct (HS p Hp) as [S1 S2]. destruct (HS' p Hp) as [S1' S2']. pose proof (count_len N HC) as L2.
    split; [apply (spectrum_value_unique _ _ _ _ L2 S1' S1)|]. destruct ph as [pp|]; [apply (spectrum_value_unique _ _ _ _ L2 S2' S2)|]. congruence. }
  assert (ED : forall k, dft_at N I' P' k = E k).
  { intros k. unfold E. rewrite <- dft_synthesis by exact HN. apply dft_ext. exact EE. }
  assert (HM : 0 < rmaxl (map (fun k => Cmod (ta k) ^ 2) (seq 0 N))).
  { apply (s_M_pos N I' P' ta dt HN Hdt Hta q Hq). rewrite (proj1 (EE q Hq)). exact HI. }
  exists (Kc N ta dt). split; [|split; [|split; [|split]]].
  - intros k Hk. rewrite <- ED. apply (s_le1 N I' P' ta dt HN Hdt Hta k Hk HM).
  - destruct (s_eq1 N I' P' ta dt HN Hdt Hta HM) as (k & Hk & E1). exists k. rewrite <- ED. split; assumption.
  - rewrite <- ED. apply (s_real N I' P' ta dt HN Hdt Hta HM).
  - intros HP. rewrite <- ED. apply (s_centre N I' P' ta dt HN Hdt Hta); [|exact HM]. intros p Hp. rewrite (proj2 (EE p Hp)). apply HP, Hp.
  - intros k Hk Hin. rewrite <- ED. rewrite <- (s_time_at N dt k H2 Hk) in Hin |- *.
    apply (s_node N I' P' ta dt (ld_wavelength d) lo hi d HN Hdt Hta Hc k Hk Hin HM).
Qed.
Lemma times N : sample_count wl dt (ld_wavelength d) N -> (2 <= N)%nat ->
  exists a b, let ts := map (sample_time dt N) (seq 0 N) in nearest ts lo a /\ nearest ts hi b /\ ld_time d = slice ts a b.
Proof.
  intros HC H2. destruct (facts N HC) as (I' & P' & ta & HN & Hta & HS' & Hc). cbn zeta in Hc.
  destruct (s_d N ta dt (ld_wavelength d) lo hi d HN Hc) as (a & b & Ha & Hb & Ed). exists a, b. cbn zeta.
  assert (ET : linspace (- dt * INR N / 2) (dt * INR N / 2 - dt) N = map (sample_time dt N) (seq 0 N)).
  { apply (nth_ext _ _ 0 0); [rewrite linspace_length, map_length, seq_length; reflexivity|]. rewrite linspace_length. intros k Hk.
    change (vget (linspace (- dt * INR N / 2) (dt * INR N / 2 - dt) N) k = nth k (map (sample_time dt N) (seq 0 N)) 0).
    rewrite (s_time_at N dt k H2 Hk). rewrite (nth_indep _ 0 (sample_time dt N 0)) by (rewrite map_length, seq_length; exact Hk).
    rewrite map_nth, seq_nth by exact Hk. reflexivity. }
  rewrite ET in *. rewrite Ed at 1. cbn [ld_time]. repeat split; try apply Ha; try apply Hb.
Qed.
End Asc.

(** ** Statements *)
Lemma c59_central wl int ph dt lo hi d : spectrum_ok wl int ph dt -> long_spectral wl int ph true dt lo hi = Ok d ->
  (forall i, (i < length wl)%nat -> 0 <= vget int i) -> (exists i, (i < length wl)%nat /\ 0 < vget int i) ->
  ld_wavelength d = weighted_mean wl int /\ vget wl 0 <= ld_wavelength d <= last wl 0.
Proof.
  intros (A & P & Li & Lp & Hdt) H Hn (i0 & Hi0 & Hp). pose proof (cwl_eq wl A P int ph dt lo hi d Li Lp Hdt H) as E. split; [exact E|]. rewrite E. unfold weighted_mean.
  set (S := rsum (length wl) (fun i => vget int i)). 
  assert (HS : 0 < S).
  { unfold S. pose proof (rsum_nonneg (length wl) (fun i => vget int i) Hn) as Q. destruct (Rle_lt_or_eq_dec _ _ Q) as [L|L]; [exact L|]. exfalso.
    pose proof (rsum_nonneg_zero (length wl) _ Hn (eq_sym L) i0 Hi0). lra. }
  assert (M : forall i, (i < length wl)%nat -> vget wl 0 <= vget wl i <= last wl 0).
  { intros i Hi. rewrite last_vget. split.
    - destruct i; [lra|]. apply Rlt_le, (ascending_nth wl A). lia.
    - destruct (Nat.eq_dec i (length wl - 1)) as [->|Q]; [lra|]. apply Rlt_le, (ascending_nth wl A). lia. }
  assert (B1 : vget wl 0 * S <= rsum (length wl) (fun i => vget int i * vget wl i)).
  { unfold S. rewrite <- rsum_scal_l. apply rsum_le. intros i Hi. pose proof (M i Hi). pose proof (Hn i Hi). nra. }
  assert (B2 : rsum (length wl) (fun i => vget int i * vget wl i) <= last wl 0 * S).
  { unfold S. rewrite <- rsum_scal_l. apply rsum_le. intros i Hi. pose proof (M i Hi). pose proof (Hn i Hi). nra. }
  split; apply (Rmult_le_reg_r S); try exact HS; unfold Rdiv; rewrite Rmult_assoc, Rinv_l by lra; lra.
Qed.
Lemma c59_bound wl int ph dt lo hi d : spectrum_ok wl int ph dt -> long_spectral wl int ph true dt lo hi = Ok d ->
  forall t e, long_evaluate d t = Ok e -> Cmod e <= 1.
Proof. intros (A & P & Li & Lp & Hdt) H. apply (bound wl A P int ph dt lo hi d Li Lp Hdt H). Qed.
Lemma c59_times wl int ph dt lo hi d N : spectrum_ok wl int ph dt -> long_spectral wl int ph true dt lo hi = Ok d ->
  sample_count wl dt (ld_wavelength d) N -> (2 <= N)%nat ->
  exists a b, let ts := map (sample_time dt N) (seq 0 N) in nearest ts lo a /\ nearest ts hi b /\ ld_time d = slice ts a b.
Proof. intros (A & P & Li & Lp & Hdt) H. apply (times wl A P int ph dt lo hi d Li Lp Hdt H). Qed.
Lemma c59_centre wl int dt lo hi d N : spectrum_ok wl int None dt -> long_spectral wl int None true dt lo hi = Ok d ->
  sample_count wl dt (ld_wavelength d) N -> (2 <= N)%nat ->
  (exists q v, (q < N)%nat /\ spectrum_value wl int (sample_freqs (c_light / ld_wavelength d) dt N q) v /\ 0 < v) ->
  In (sample_time dt N (N / 2)) (ld_time d) -> long_evaluate d (sample_time dt N (N / 2)) = Ok (RtoC 1).
Proof.
  intros (A & P & Li & Lp & Hdt) H HC H2 (q & v & Hq & Hv & Hp) Hin.
  destruct (facts wl A P int None dt lo hi d Li Lp Hdt H N HC) as (I & Ph & ta & HN & _ & HS & _). specialize (HS H2).
  assert (HI : 0 < I q).
  { replace (I q) with v; [exact Hp|]. apply (spectrum_value_unique wl A P int _ _ _ ltac:(destruct HC as (a & _ & L & _); lia) Hv). apply HS, Hq. }
  destruct (synth wl A P int None dt lo hi d Li Lp Hdt H N I Ph HC HS (ex_intro _ q (conj Hq HI)) H2) as (K & _ & _ & _ & K4 & K5).
  rewrite (K5 (N / 2)%nat) by (try exact Hin; apply Nat.div_lt; lia). f_equal. apply K4. intros p Hp'. apply (HS p Hp').
Qed.
Lemma c60_synthesis wl int ph dt lo hi d N I P : spectrum_ok wl int ph dt -> long_spectral wl int ph true dt lo hi = Ok d ->
  sample_count wl dt (ld_wavelength d) N -> (2 <= N)%nat ->
  (forall q, (q < N)%nat -> spectrum_value wl int (sample_freqs (c_light / ld_wavelength d) dt N q) (I q) /\
     match ph with Some p => spectrum_value wl p (sample_freqs (c_light / ld_wavelength d) dt N q) (P q) | None => P q = 0 end) ->
  (exists q, (q < N)%nat /\ 0 < I q) ->
  let E := fun k => synthesis N I P (mirrored_freqs (c_light / ld_wavelength d) dt N) (c_light / ld_wavelength d) ((INR k - INR (N / 2)) * dt) in
  exists K,
    (forall k, (k < N)%nat -> Cmod (Cmult K (E k)) <= 1) /\ (exists k, (k < N)%nat /\ Cmod (Cmult K (E k)) = 1) /\
    (exists r, 0 <= r /\ Cmult K (E (N / 2)%nat) = RtoC r) /\
    forall k, (k < N)%nat -> In (sample_time dt N k) (ld_time d) -> long_evaluate d (sample_time dt N k) = Ok (Cmult K (E k)).
Proof.
  intros (A & Pw & Li & Lp & Hdt) H HC H2 HS HI E.
  destruct (synth wl A Pw int ph dt lo hi d Li Lp Hdt H N I P HC HS HI H2) as (K & K1 & K2 & K3 & _ & K5). exists K. auto.
Qed.
(** The constructor succeeds. *)
Lemma seq_res_ok {A} (l : list (res A)) : (forall x, In x l -> exists a, x = Ok a) -> exists r, seq_res l = Ok r.
Proof.
  induction l as [|x l IH]; intros H; [exists []; reflexivity|]. destruct (H x (or_introl eq_refl)) as (a & ->). destruct IH as (r & E); [intros; apply H; right; assumption|].
  exists (a :: r). cbn. rewrite E. reflexivity.
Qed.
Lemma interp0_ok xp fp t : xp <> [] -> length xp = length fp -> exists v, np_interp0 xp fp t = Ok v.
Proof. intros Hne L. unfold np_interp0, np_interp_with. destruct xp; [congruence|]. rewrite L, Nat.eqb_refl. eexists; reflexivity. Qed.
Lemma c59_constructs wl int ph dt lo hi N : spectrum_ok wl int ph dt -> sample_count wl dt (weighted_mean wl int) N -> (0 < N)%nat ->
  exists d, long_spectral wl int ph true dt lo hi = Ok d.
Proof.
  intros (A & P & Li & Lp & Hdt) (a & Ha & La & HC) HN.
  destruct (spectral_asc wl A P int ph dt lo hi Li) as [E|(e & L1 & _)]; [|lia]. rewrite E. unfold spectral_core. rewrite (mean_eq wl int Li). cbn zeta.
  destruct wl as [|w0 wl'] eqn:Ew; [cbn in La; lia|]. rewrite <- Ew in *. assert (Hne : wl <> []) by (rewrite Ew; discriminate). 
  rewrite (nearest_unique _ _ _ _ (nearest_argmin wl (weighted_mean wl int) Hne) Ha). rewrite (proj2 (Nat.ltb_lt _ _) La).
  pose proof (c_div_lt _ _ (P a ltac:(lia)) (ascending_nth wl A a (S a) ltac:(lia))) as G. rewrite (Rabs_pos_eq (c_light / vget wl a - c_light / vget wl (S a))) by lra.
  set (x := 1 / dt / (c_light / vget wl a - c_light / vget wl (S a))) in *.
  assert (F : Rfloor x = Z.of_nat N).
  { pose proof (Rfloor_bounds x) as B. rewrite INR_IZR_INZ in HC. assert (Rfloor x < Z.of_nat N + 1)%Z by (apply lt_IZR; rewrite plus_IZR; lra).
    assert (Z.of_nat N < Rfloor x + 1)%Z by (apply lt_IZR; rewrite plus_IZR; lra). lia. }
  assert (Hx : 0 <= x) by (apply (Rle_trans _ (INR N)); [apply pos_INR|apply HC]).
  unfold py_int. rewrite (proj2 (Rleb_true 0 x) Hx), F. destruct (Z.leb_spec (Z.of_nat N) 0) as [Q|Q]; [lia|].
  unfold spectral_field. cbn zeta. set (fx := map (fun w => c_light / w) (rev wl)). set (fr := linspace _ _ _).
  assert (Lx : length fx = length wl) by (unfold fx; rewrite map_length, rev_length; reflexivity).
  assert (Nx : fx <> []) by (intros Q'; rewrite Q' in Lx; cbn in Lx; lia).
  destruct (seq_res_ok (map (np_interp0 fx (rev int)) fr)) as (fi & ->).
  { intros y Hy. apply in_map_iff in Hy. destruct Hy as (f & <- & _). apply interp0_ok; [exact Nx|rewrite rev_length; lia]. }
  cbn [bind]. set (pp := match ph with Some p => p | None => map (fun _ => 0) wl end).
  assert (Lpp : length pp = length wl) by (apply phase_list_length, Lp).
  destruct (seq_res_ok (map (np_interp0 fx (rev pp)) fr)) as (fp & ->).
  { intros y Hy. apply in_map_iff in Hy. destruct Hy as (f & <- & _). apply interp0_ok; [exact Nx|rewrite rev_length; lia]. }
  cbn [bind]. rewrite Nat2Z.id. unfold crop_data. destruct (linspace (- dt * INR N / 2) (dt * INR N / 2 - dt) N) eqn:El; [|eexists; reflexivity].
  pose proof (linspace_length (- dt * INR N / 2) (dt * INR N / 2 - dt) N) as Q2. rewrite El in Q2. cbn in Q2. lia.
Qed.

(** ** A concrete spectrum: three lines at the frequencies 3, 2 and 1 *)
Definition ex_wl : list R := [c_light / 3; c_light / 2; c_light].
Definition ex_int : list R := [3; 0; 1].
Definition ex_I (q : nat) : R := match q with 1%nat => 2 / 3 | 2%nat => 2 | _ => 0 end.
Lemma ex_ok : spectrum_ok ex_wl ex_int None (/ 4).
Proof.
  pose proof c_light_pos. unfold ex_wl, ex_int. split; [|split; [|split; [|split]]].
  - apply ascending_iff. cbn [length]. intros i Hi. destruct i as [|[|i]]; [unfold vget; cbn [nth]; lra|unfold vget; cbn [nth]; lra|lia].
  - cbn [length]. intros i Hi. destruct i as [|[|[|i]]]; unfold vget; cbn [nth]; lra || lia.
  - reflexivity.
  - discriminate.
  - lra.
Qed.
Lemma ex_mean : weighted_mean ex_wl ex_int = c_light / 2.
Proof. unfold weighted_mean, ex_wl, ex_int, vget. cbn [length rsum nth]. field. Qed.
Lemma c_over_3 : c_light / (c_light / 3) = 3. Proof. pose proof c_light_pos. field. lra. Qed.
Lemma c_over_2 : c_light / (c_light / 2) = 2. Proof. pose proof c_light_pos. field. lra. Qed.
Lemma c_over_1 : c_light / c_light = 1. Proof. pose proof c_light_pos. field. lra. Qed.
Lemma ex_count : sample_count ex_wl (/ 4) (c_light / 2) 4.
Proof.
  pose proof c_light_pos as Hc. exists 1%nat. split; [|split].
  - unfold nearest, ex_wl, vget. cbn [length]. split; [lia|]. split.
    + intros q Hq. cbn [nth]. replace (c_light / 2 - c_light / 2) with 0 by ring. rewrite Rabs_R0. apply Rabs_pos.
    + intros q Hq. destruct q; [|lia]. cbn [nth]. replace (c_light / 2 - c_light / 2) with 0 by ring. rewrite Rabs_R0. apply Rabs_pos_lt. lra.
  - cbn. lia.
  - unfold ex_wl, vget. cbn [nth]. rewrite c_over_2, c_over_1. simpl INR. replace (1 / / 4 / (2 - 1)) with 4 by field. lra.
Qed.
Lemma ex_freq q : sample_freqs 2 (/ 4) 4 q = INR q * (4 / 3).
Proof. unfold sample_freqs, coord. simpl (INR 4). field. Qed.
Lemma ex_values q : (q < 4)%nat -> spectrum_value ex_wl ex_int (sample_freqs 2 (/ 4) 4 q) (ex_I q).
Proof.
  intros Hq. rewrite ex_freq. unfold spectrum_value, ex_wl, ex_int. cbn [length last]. 
  change (vget [c_light / 3; c_light / 2; c_light] 0) with (c_light / 3). rewrite c_over_3, c_over_1.
  assert (E : (q = 0 \/ q = 1 \/ q = 2 \/ q = 3)%nat) by lia.
  destruct E as [-> | [-> | [-> | -> ]]]; simpl INR; cbn [ex_I]; (split; [intros; lra|split; [intros; lra|]]);
    intros i Hi; destruct i as [|[|i]]; try lia; unfold vget; cbn [nth]; rewrite ?c_over_3, ?c_over_2, ?c_over_1; intros; lra.
Qed.
Lemma cis_quarter : cis (PI / 2) = (0, 1).
Proof. unfold cis. rewrite cos_PI2, sin_PI2. reflexivity. Qed.
Lemma ex_profile : exists d, long_spectral ex_wl ex_int None true (/ 4) (- / 2) (/ 4) = Ok d /\
  ld_wavelength d = c_light / 2 /\ In 0 (ld_time d) /\ In (- / 4) (ld_time d) /\
  exists r, 0 < r /\ long_evaluate d 0 = Ok (RtoC (r * (sqrt 2 + sqrt (2 / 3)))) /\ long_evaluate d (- / 4) = Ok (r * sqrt 2, r * sqrt (2 / 3)).
Proof.
  destruct (c59_constructs ex_wl ex_int None (/ 4) (- / 2) (/ 4) 4 ex_ok) as (d & H); [rewrite ex_mean; exact ex_count|lia|].
  exists d. split; [exact H|]. pose proof ex_ok as (A & P & Li & Lp & Hdt). pose proof (cwl_eq _ A P _ _ _ _ _ d Li Lp Hdt H) as Ec. rewrite ex_mean in Ec. split; [exact Ec|].
  assert (HC : sample_count ex_wl (/ 4) (ld_wavelength d) 4) by (rewrite Ec; exact ex_count).
  assert (T0 : sample_time (/ 4) 4 2 = 0) by (unfold sample_time; simpl INR; lra).
  assert (T1 : sample_time (/ 4) 4 1 = - / 4) by (unfold sample_time; simpl INR; lra).
  assert (Tl : ld_time d = [- / 2; - / 4; 0]).
  { destruct (c59_times _ _ _ _ _ _ d 4 ex_ok H HC ltac:(lia)) as (a & b & Ha & Hb & E). cbn zeta in *.
    set (ts := map (sample_time (/ 4) 4) (seq 0 4)) in *. assert (Ets : ts = [- / 2; - / 4; 0; / 4]).
    { unfold ts, sample_time. cbn [map seq]. simpl INR. repeat f_equal; lra. }
    assert (At : ascending ts = true).
    { rewrite Ets. apply ascending_iff. cbn [length]. intros i Hi. destruct i as [|[|[|i]]]; unfold vget; cbn [nth]; lra || lia. }
    pose proof (nearest_node ts 0 At ltac:(rewrite Ets; cbn; lia)) as N0. pose proof (nearest_node ts 3 At ltac:(rewrite Ets; cbn; lia)) as N3.
    assert (V0 : vget ts 0 = - / 2) by (rewrite Ets; reflexivity). assert (V3 : vget ts 3 = / 4) by (rewrite Ets; reflexivity).
    rewrite V0 in N0. rewrite V3 in N3. rewrite E, (nearest_unique _ _ _ _ Ha N0), (nearest_unique _ _ _ _ Hb N3), Ets. reflexivity. }
  assert (I0 : In 0 (ld_time d)) by (rewrite Tl; cbn; tauto). assert (I1 : In (- / 4) (ld_time d)) by (rewrite Tl; cbn; tauto).
  split; [exact I0|]. split; [exact I1|].
  assert (F0 : c_light / ld_wavelength d = 2) by (rewrite Ec; apply c_over_2).
  destruct (c60_synthesis ex_wl ex_int None (/ 4) (- / 2) (/ 4) d 4 ex_I (fun _ => 0) ex_ok H HC ltac:(lia)) as (K & K1 & K2 & (r & Hr & K3) & K4).
  - intros q Hq. rewrite F0. split; [apply ex_values, Hq|reflexivity].
  - exists 2%nat. split; [lia|]. cbn. lra.
  - rewrite F0 in *. pose (E := fun k : nat => synthesis 4 ex_I (fun _ => 0) (mirrored_freqs 2 (/ 4) 4) 2 ((INR k - INR (4 / 2)) * / 4)). change (Cmult K (E 2%nat) = RtoC r) in K3.
    assert (E2 : E 2%nat = RtoC (sqrt 2 + sqrt (2 / 3))).
    { unfold E, synthesis, mirrored_freqs. cbn [csum Nat.div Nat.divmod fst ex_I]. simpl INR. rewrite sqrt_0.
      rewrite Ropp_0, cis_0. replace (1 + 1 - (1 + 1)) with 0 by ring. rewrite Rmult_0_l, !Rmult_0_r, Ropp_0, cis_0. rewrite RtoC_plus. ring. }
    assert (E1 : E 1%nat = (sqrt 2, sqrt (2 / 3))).
    { unfold E, synthesis, mirrored_freqs. cbn [csum Nat.div Nat.divmod fst ex_I]. simpl INR. rewrite sqrt_0.
      rewrite Ropp_0, cis_0.
      replace (- (2 * PI * (2 - (1 - (1 + 1)) / ((1 + 1 + 1 + 1) * / 4) - 2) * ((1 - (1 + 1)) * / 4))) with (PI / 2) by field.
      replace (- (2 * PI * (2 - (1 + 1 - (1 + 1)) / ((1 + 1 + 1 + 1) * / 4) - 2) * ((1 - (1 + 1)) * / 4))) with 0 by field.
      rewrite cis_quarter, cis_0. apply injective_projections; cbn; ring. }
    assert (Hpos : 0 < sqrt 2 + sqrt (2 / 3)) by (pose proof (sqrt_lt_R0 2 ltac:(lra)); pose proof (sqrt_lt_R0 (2 / 3) ltac:(lra)); lra).
    assert (EK : K = RtoC (r / (sqrt 2 + sqrt (2 / 3)))).
    { rewrite E2 in K3. unfold Rdiv. rewrite RtoC_mult, <- K3. rewrite <- Cmult_assoc, <- RtoC_mult, Rinv_r by lra. ring. }
    assert (Hr0 : 0 < r).
    { destruct (Rle_lt_or_eq_dec _ _ Hr) as [L|L]; [exact L|]. exfalso. destruct K2 as (k & Hk & Ek). rewrite EK, <- L in Ek.
      unfold Rdiv in Ek. rewrite Rmult_0_l, Cmult_0_l, Cmod_0 in Ek. lra. }
    exists (r / (sqrt 2 + sqrt (2 / 3))). split; [apply Rdiv_lt_0_compat; assumption|]. split.
    + pose proof (K4 2%nat ltac:(lia)) as Q. rewrite T0 in Q. rewrite (Q I0). f_equal. change (Cmult K (E 2%nat) = RtoC (r / (sqrt 2 + sqrt (2 / 3)) * (sqrt 2 + sqrt (2 / 3)))).
      rewrite E2, EK, <- RtoC_mult. reflexivity.
    + pose proof (K4 1%nat ltac:(lia)) as Q. rewrite T1 in Q. rewrite (Q I1). f_equal. change (Cmult K (E 1%nat) = (r / (sqrt 2 + sqrt (2 / 3)) * sqrt 2, r / (sqrt 2 + sqrt (2 / 3)) * sqrt (2 / 3))).
      rewrite E1, EK. apply injective_projections; cbn; ring.
Qed.
(** C60 fails: neither at the sampled frequencies, nor at those of the discrete transform, is the profile the
    superposition of the measured waves. *)
Lemma c60_refuted : exists d, long_spectral ex_wl ex_int None true (/ 4) (- / 2) (/ 4) = Ok d /\
  sample_count ex_wl (/ 4) (ld_wavelength d) 4 /\
  (forall q, (q < 4)%nat -> spectrum_value ex_wl ex_int (sample_freqs (c_light / ld_wavelength d) (/ 4) 4 q) (ex_I q)) /\
  ~ (exists K, forall k, (k < 4)%nat -> In (sample_time (/ 4) 4 k) (ld_time d) -> long_evaluate d (sample_time (/ 4) 4 k) =
       Ok (Cmult K (synthesis 4 ex_I (fun _ => 0) (sample_freqs (c_light / ld_wavelength d) (/ 4) 4) (c_light / ld_wavelength d) (sample_time (/ 4) 4 k)))) /\
  ~ (exists K, forall k, (k < 4)%nat -> In (sample_time (/ 4) 4 k) (ld_time d) -> long_evaluate d (sample_time (/ 4) 4 k) =
       Ok (Cmult K (synthesis 4 ex_I (fun _ => 0) (fun q => c_light / ld_wavelength d + (INR q - 2) / (4 * / 4)) (c_light / ld_wavelength d) (sample_time (/ 4) 4 k)))).
Proof.
  destruct ex_profile as (d & H & Ec & I0 & I1 & r & Hr & V0 & V1). exists d. assert (F0 : c_light / ld_wavelength d = 2) by (rewrite Ec; apply c_over_2).
  split; [exact H|]. split; [rewrite Ec; exact ex_count|]. rewrite F0. split; [exact ex_values|].
  assert (T0 : sample_time (/ 4) 4 2 = 0) by (unfold sample_time; simpl INR; lra).
  assert (T1 : sample_time (/ 4) 4 1 = - / 4) by (unfold sample_time; simpl INR; lra).
  pose proof (sqrt_lt_R0 2 ltac:(lra)) as S2. pose proof (sqrt_lt_R0 (2 / 3) ltac:(lra)) as S3. pose proof (sqrt_lt_1 (2 / 3) 2 ltac:(lra) ltac:(lra) ltac:(lra)) as S4.
  assert (G : forall f z, (synthesis 4 ex_I (fun _ => 0) f 2 (- / 4) = z) -> Im z < 0 \/ Re z <> sqrt 2 ->
    ~ (exists K, forall k, (k < 4)%nat -> In (sample_time (/ 4) 4 k) (ld_time d) -> long_evaluate d (sample_time (/ 4) 4 k) =
       Ok (Cmult K (synthesis 4 ex_I (fun _ => 0) f 2 (sample_time (/ 4) 4 k))))).
  { intros f z Ez Hz (K & HK). pose proof (HK 2%nat ltac:(lia)) as Q0. pose proof (HK 1%nat ltac:(lia)) as Q1. rewrite T0 in Q0. rewrite T1 in Q1. specialize (Q0 I0). specialize (Q1 I1).
    rewrite V0 in Q0. rewrite V1, Ez in Q1. apply Ok_inj in Q0. apply Ok_inj in Q1.
    assert (Z0 : synthesis 4 ex_I (fun _ => 0) f 2 0 = RtoC (sqrt 2 + sqrt (2 / 3))).
    { unfold synthesis. cbn [csum ex_I]. rewrite sqrt_0, Ropp_0, cis_0, !Rmult_0_r, Ropp_0, cis_0, RtoC_plus. ring. }
    rewrite Z0 in Q0. assert (EK : K = RtoC r).
    { rewrite RtoC_mult in Q0. assert (N0 : RtoC (sqrt 2 + sqrt (2 / 3)) <> RtoC 0) by (apply RtoC_neq0; lra).
      transitivity (Cdiv (Cmult K (RtoC (sqrt 2 + sqrt (2 / 3)))) (RtoC (sqrt 2 + sqrt (2 / 3)))); [field; exact N0|]. rewrite <- Q0. field. exact N0. }
    rewrite EK in Q1. pose proof (f_equal (@fst R R) Q1) as R1. pose proof (f_equal (@snd R R) Q1) as R2. unfold Re, Im in Hz. cbn in R1, R2, Hz. destruct Hz as [Hz|Hz]; nra. }
  split.
  - apply (G _ (sqrt (2 / 3) * (1 / 2) + sqrt 2 * (1 / 2), - (sqrt (2 / 3) * (sqrt 3 / 2)) + sqrt 2 * (sqrt 3 / 2))).
    + unfold synthesis. cbn [csum ex_I]. rewrite sqrt_0, Ropp_0, cis_0, !ex_freq. simpl INR.
      replace (- (2 * PI * (1 * (4 / 3) - 2) * - / 4)) with (- (PI / 3)) by field. replace (- (2 * PI * ((1 + 1) * (4 / 3) - 2) * - / 4)) with (PI / 3) by field.
      unfold cis. rewrite (cos_neg (PI / 3)), (sin_neg (PI / 3)), cos_PI3, sin_PI3. apply injective_projections; cbn; ring.
    + right. cbn. lra.
  - apply (G _ (sqrt 2, - sqrt (2 / 3))).
    + unfold synthesis. cbn [csum ex_I]. rewrite sqrt_0, Ropp_0, cis_0. simpl INR.
      replace (- (2 * PI * (2 + (1 - 2) / (4 * / 4) - 2) * - / 4)) with (- (PI / 2)) by field. replace (- (2 * PI * (2 + (1 + 1 - 2) / (4 * / 4) - 2) * - / 4)) with 0 by field.
      rewrite (cis_opp (PI / 2)), cis_quarter, cis_0. apply injective_projections; cbn; ring.
    + left. cbn. lra.
Qed.
