(** Proofs of C36 (direct conversion from the vector potential) and of C31 (show for xyt lasers). *)
From Coquelicot Require Import Coquelicot.
From Verif Require Import PyBase CSum NumPy NpMath NpMathProofs GridModel GridSpec GridProofs GridObs LaserSpec EnergyModel LaserModel OpticsModel LaserOps LaserInv LaserInitProofs LaserStepProofs HistoryProofs AnalysisModel AnalysisSpec PlotProofs FrequencyProofs VecPotSpec.
Open Scope R_scope.

Lemma Rabs_def2' a b : Rabs a <= b -> - b <= a <= b.
Proof. apply Rabs_le_between. Qed.
(** Taylor expansion to second order on either side of a point. *)
Lemma taylor_right f M x d : 0 < d -> thrice f M ->
  Rabs (f (x + d) - (f x + d * Derive f x + d ^ 2 / 2 * Derive_n f 2 x)) <= M * d ^ 3 / 6.
Proof.
  intros Hd [Hs Hb]. destruct (Taylor_Lagrange f 2 x (x + d)) as (z & _ & E); [lra|intros t _ k Hk; apply Hs; lia|].
  rewrite E. cbn [sum_f_R0]. replace (x + d - x) with d by ring.
  replace (d ^ 0 / INR (fact 0) * Derive_n f 0 x + d ^ 1 / INR (fact 1) * Derive_n f 1 x + d ^ 2 / INR (fact 2) * Derive_n f 2 x + d ^ 3 / INR (fact 3) * Derive_n f 3 z - (f x + d * Derive f x + d ^ 2 / 2 * Derive_n f 2 x))
    with (d ^ 3 / 6 * Derive_n f 3 z) by (cbn -[pow Derive_n]; change (Derive_n f 1 x) with (Derive f x); change (Derive_n f 0 x) with (f x); field).
  rewrite Rabs_mult. assert (0 < d ^ 3) by (apply pow_lt; exact Hd). rewrite (Rabs_pos_eq (d ^ 3 / 6)) by lra.
  pose proof (Hb z). replace (M * d ^ 3 / 6) with (d ^ 3 / 6 * M) by field. apply Rmult_le_compat_l; lra.
Qed.
Lemma thrice_opp f M : thrice f M -> thrice (fun x => f (- x)) M.
Proof.
  intros [Hs Hb]. assert (L : forall x, locally (- x) (fun y => forall k, (k <= 3)%nat -> ex_derive_n f k y)) by (intros x; apply filter_forall; intros y k Hk; apply Hs, Hk).
  split.
  - intros k Hk x. apply ex_derive_n_comp_opp. generalize (L x). apply filter_imp. intros y H j Hj. apply H. lia.
  - intros x. rewrite Derive_n_comp_opp by apply L. rewrite Rabs_mult. replace (Rabs ((-1) ^ 3)) with 1; [rewrite Rmult_1_l; apply Hb|].
    replace ((-1) ^ 3) with (- (1)) by ring. rewrite Rabs_Ropp, Rabs_R1. reflexivity.
Qed.
Lemma taylor_left f M x d : 0 < d -> thrice f M ->
  Rabs (f (x - d) - (f x - d * Derive f x + d ^ 2 / 2 * Derive_n f 2 x)) <= M * d ^ 3 / 6.
Proof.
  intros Hd H. pose proof (taylor_right (fun y => f (- y)) M (- x) d Hd (thrice_opp f M H)) as T. cbn beta in T.
  destruct H as [Hs Hb]. assert (L : forall n x, (n <= 3)%nat -> locally (- x) (fun y => forall k, (k <= n)%nat -> ex_derive_n f k y)) by (intros n y Hn; apply filter_forall; intros z k Hk; apply Hs; lia).
  change (Derive (fun y => f (- y)) (- x)) with (Derive_n (fun y => f (- y)) 1 (- x)) in T.
  rewrite !Derive_n_comp_opp in T by (apply L; lia). rewrite Ropp_involutive in T. replace (- (- x + d)) with (x - d) in T by ring.
  change (Derive_n f 1 x) with (Derive f x) in T.
  replace (f x + d * ((-1) ^ 1 * Derive f x) + d ^ 2 / 2 * ((-1) ^ 2 * Derive_n f 2 x)) with (f x - d * Derive f x + d ^ 2 / 2 * Derive_n f 2 x) in T by field. exact T.
Qed.
Lemma gradient_smooth f M n x h k : thrice f M -> 0 < h -> (3 <= n)%nat -> (k < n)%nat ->
  (forall q, (S q < n)%nat -> x (S q) - x q = h) -> Rabs (gradient2 lin3R n (fun q => f (x q)) x k - Derive f (x k)) <= M * h ^ 2.
Proof.
  intros Hf Hh Hn Hk Hx. assert (P2 : 0 < h ^ 2) by (apply pow_lt; exact Hh).
  assert (M0 : 0 <= M) by (destruct Hf as [_ Hb]; pose proof (Hb 0); pose proof (Rabs_pos (Derive_n f 3 0)); lra).
  assert (Mh : 0 <= M * h ^ 2) by (apply Rmult_le_pos; lra).
  unfold gradient2, lin3R. destruct (Nat.eqb_spec k 0) as [->|K0].
  - pose proof (Hx 0%nat ltac:(lia)) as A. pose proof (Hx 1%nat ltac:(lia)) as B. cbn zeta. rewrite A, B.
    pose proof (taylor_right f M (x 0%nat) h Hh Hf) as T1. pose proof (taylor_right f M (x 0%nat) (2 * h) ltac:(lra) Hf) as T2.
    replace (x 1%nat) with (x 0%nat + h) by lra. replace (x 2%nat) with (x 0%nat + 2 * h) by lra.
    set (F := f (x 0%nat)) in *. set (D := Derive f (x 0%nat)) in *. set (D2 := Derive_n f 2 (x 0%nat)) in *.
    set (e1 := f (x 0%nat + h) - _) in T1. set (e2 := f (x 0%nat + 2 * h) - _) in T2.
    replace (f (x 0%nat + h)) with (e1 + (F + h * D + h ^ 2 / 2 * D2)) by (unfold e1; ring).
    replace (f (x 0%nat + 2 * h)) with (e2 + (F + 2 * h * D + (2 * h) ^ 2 / 2 * D2)) by (unfold e2; ring). clearbody e1 e2.
    replace (- (2 * h + h) / (h * (h + h)) * F + (h + h) / (h * h) * (e1 + (F + h * D + h ^ 2 / 2 * D2)) + - h / (h * (h + h)) * (e2 + (F + 2 * h * D + (2 * h) ^ 2 / 2 * D2)) - D) with (/ h * (2 * e1 - e2 / 2)) by (field; lra).
    rewrite Rabs_mult, Rabs_inv, (Rabs_pos_eq h) by lra. apply Rmult_le_reg_l with h; [exact Hh|]. rewrite <- Rmult_assoc, Rinv_r, Rmult_1_l by lra.
    apply Rabs_le. apply Rabs_def2' in T1. apply Rabs_def2' in T2. replace ((2 * h) ^ 3) with (8 * (h * h ^ 2)) in T2 by ring. replace (h ^ 3) with (h * h ^ 2) in T1 by ring.
    replace (h * (M * h ^ 2)) with (M * (h * h ^ 2)) by ring. set (u := M * (h * h ^ 2)). replace (M * (8 * (h * h ^ 2)) / 6) with (8 * u / 6) in T2 by (unfold u; field). change (M * (h * h ^ 2)) with u in T1. lra.
  - destruct (Nat.eqb_spec k (n - 1)) as [->|K1].
    + pose proof (Hx (n - 3)%nat ltac:(lia)) as A. pose proof (Hx (n - 2)%nat ltac:(lia)) as B.
      replace (S (n - 3)) with (n - 2)%nat in A by lia. replace (S (n - 2)) with (n - 1)%nat in B by lia. cbn zeta. rewrite A, B.
      pose proof (taylor_left f M (x (n - 1)%nat) h Hh Hf) as T1. pose proof (taylor_left f M (x (n - 1)%nat) (2 * h) ltac:(lra) Hf) as T2.
      replace (x (n - 2)%nat) with (x (n - 1)%nat - h) by lra. replace (x (n - 3)%nat) with (x (n - 1)%nat - 2 * h) by lra.
      set (X := x (n - 1)%nat) in *. set (F := f X) in *. set (D := Derive f X) in *. set (D2 := Derive_n f 2 X) in *.
      set (e1 := f (X - h) - _) in T1. set (e2 := f (X - 2 * h) - _) in T2.
      replace (f (X - h)) with (e1 + (F - h * D + h ^ 2 / 2 * D2)) by (unfold e1; ring).
      replace (f (X - 2 * h)) with (e2 + (F - 2 * h * D + (2 * h) ^ 2 / 2 * D2)) by (unfold e2; ring). clearbody e1 e2.
      replace (h / (h * (h + h)) * (e2 + (F - 2 * h * D + (2 * h) ^ 2 / 2 * D2)) + - (h + h) / (h * h) * (e1 + (F - h * D + h ^ 2 / 2 * D2)) + (2 * h + h) / (h * (h + h)) * F - D) with (/ h * (e2 / 2 - 2 * e1)) by (field; lra).
      rewrite Rabs_mult, Rabs_inv, (Rabs_pos_eq h) by lra. apply Rmult_le_reg_l with h; [exact Hh|]. rewrite <- Rmult_assoc, Rinv_r, Rmult_1_l by lra.
      apply Rabs_le. apply Rabs_def2' in T1. apply Rabs_def2' in T2. replace ((2 * h) ^ 3) with (8 * (h * h ^ 2)) in T2 by ring. replace (h ^ 3) with (h * h ^ 2) in T1 by ring.
      replace (h * (M * h ^ 2)) with (M * (h * h ^ 2)) by ring. set (u := M * (h * h ^ 2)). replace (M * (8 * (h * h ^ 2)) / 6) with (8 * u / 6) in T2 by (unfold u; field). change (M * (h * h ^ 2)) with u in T1. lra.
    + pose proof (Hx (k - 1)%nat ltac:(lia)) as A. pose proof (Hx k ltac:(lia)) as B. replace (S (k - 1)) with k in A by lia. cbn zeta. rewrite A, B.
      pose proof (taylor_left f M (x k) h Hh Hf) as T1. pose proof (taylor_right f M (x k) h Hh Hf) as T2.
      replace (x (k - 1)%nat) with (x k - h) by lra. replace (x (S k)) with (x k + h) by lra.
      set (X := x k) in *. set (F := f X) in *. set (D := Derive f X) in *. set (D2 := Derive_n f 2 X) in *.
      set (e1 := f (X - h) - _) in T1. set (e2 := f (X + h) - _) in T2.
      replace (f (X - h)) with (e1 + (F - h * D + h ^ 2 / 2 * D2)) by (unfold e1; ring).
      replace (f (X + h)) with (e2 + (F + h * D + h ^ 2 / 2 * D2)) by (unfold e2; ring). clearbody e1 e2.
      replace (- h / (h * (h + h)) * (e1 + (F - h * D + h ^ 2 / 2 * D2)) + (h - h) / (h * h) * F + h / (h * (h + h)) * (e2 + (F + h * D + h ^ 2 / 2 * D2)) - D) with (/ h * (e2 / 2 - e1 / 2)) by (field; lra).
      rewrite Rabs_mult, Rabs_inv, (Rabs_pos_eq h) by lra. apply Rmult_le_reg_l with h; [exact Hh|]. rewrite <- Rmult_assoc, Rinv_r, Rmult_1_l by lra.
      apply Rabs_le. apply Rabs_def2' in T1. apply Rabs_def2' in T2. replace (h ^ 3) with (h * h ^ 2) in T1, T2 by ring.
      replace (h * (M * h ^ 2)) with (M * (h * h ^ 2)) by ring. set (u := M * (h * h ^ 2)). change (M * (h * h ^ 2)) with u in T1, T2.
      assert (0 <= u) by (unfold u; replace (M * (h * h ^ 2)) with (h * (M * h ^ 2)) by ring; apply Rmult_le_pos; lra). lra.
Qed.
Lemma gradient2_split n (f : nat -> C) x k : gradient2 lin3C n f x k = (gradient2 lin3R n (fun q => Re (f q)) x k, gradient2 lin3R n (fun q => Im (f q)) x k).
Proof.
  unfold gradient2, lin3C, lin3R. destruct (Nat.eqb k 0); [|destruct (Nat.eqb k (n - 1))].
  all: cbn zeta; unfold Cplus, Cmult, RtoC, Re, Im; cbn [fst snd]; f_equal; ring.
Qed.
Lemma c36_direct g f w0 h ar ai M i j k :
  tread g = Ok f -> g_isenv g = true -> (3 <= dim2 f)%nat -> (k < dim2 f)%nat -> 0 < h ->
  (forall q, (S q < dim2 f)%nat -> vget (time_axis g) (S q) - vget (time_axis g) q = h) ->
  thrice ar M -> thrice ai M ->
  (forall q, (q < dim2 f)%nat -> at3 f i j q = (ar (vget (time_axis g) q), ai (vget (time_axis g) q))) ->
  exists E ed er, snd (vector_potential_to_field g w0 true) = Ok E /\ shp E = shp f /\
    at3 E i j k = Cmult (RtoC (m_e * c_light / e_charge)) (Cplus ed er) /\ Rabs (Re er) <= M * h ^ 2 /\ Rabs (Im er) <= M * h ^ 2 /\
    minus_derivative (fun t => Cmult (ar t, ai t) (cis (- (w0 * t)))) (vget (time_axis g) k) (Cmult ed (cis (- (w0 * vget (time_axis g) k)))).
Proof.
  intros Hf He Hn Hk Hh Hx Hr Hi Ha.
  assert (V : exists E, snd (vector_potential_to_field g w0 true) = Ok E /\ shp E = shp f /\ at3 E i j k =
     Cmult (RtoC (m_e * c_light / e_charge)) (Cplus (Copp (gradient2 lin3C (dim2 f) (fun q => at3 f i j q) (fun q => vget (time_axis g) q) k)) (Cmult (Cmult Ci (RtoC w0)) (at3 f i j k)))).
  { unfold vector_potential_to_field. rewrite He. cbn [negb]. change (snd (get_temporal_field g)) with (tread g). rewrite Hf.
    destruct (Nat.ltb_spec (dim2 f) 3); [lia|]. eexists. cbn [snd]. split; [reflexivity|]. split; reflexivity. }
  destruct V as (E & HE & HS & HV). rewrite gradient2_split in HV. rewrite Ha in HV by exact Hk.
  set (tk := vget (time_axis g) k) in *. set (t := fun q => vget (time_axis g) q) in *.
  assert (G : forall (p : C -> R) a, (forall q, (q < dim2 f)%nat -> p (at3 f i j q) = a (t q)) -> thrice a M ->
    Rabs (gradient2 lin3R (dim2 f) (fun q => p (at3 f i j q)) t k - Derive a tk) <= M * h ^ 2).
  { intros p a Hp Hthr. rewrite (gradient_ext (dim2 f) (fun q => p (at3 f i j q)) (fun q => a (t q)) t k) by assumption. apply gradient_smooth; assumption. }
  pose proof (G Re ar ltac:(intros q Hq; rewrite Ha by exact Hq; reflexivity) Hr) as Gr.
  pose proof (G Im ai ltac:(intros q Hq; rewrite Ha by exact Hq; reflexivity) Hi) as Gi.
  set (gr := gradient2 lin3R (dim2 f) (fun q => Re (at3 f i j q)) t k) in *. set (gi := gradient2 lin3R (dim2 f) (fun q => Im (at3 f i j q)) t k) in *. clearbody gr gi.
  exists E, (- Derive ar tk - w0 * ai tk, - Derive ai tk + w0 * ar tk), (- (gr - Derive ar tk), - (gi - Derive ai tk)).
  split; [exact HE|]. split; [exact HS|]. split.
  { rewrite HV. f_equal. unfold Cplus, Copp, Cmult, Ci, RtoC. cbn [fst snd]. f_equal; ring. }
  cbn [Re Im fst snd]. rewrite !Rabs_Ropp. split; [exact Gr|]. split; [exact Gi|].
  assert (Dr : is_derive ar tk (Derive ar tk)) by (apply Derive_correct; apply (proj1 Hr 1%nat); lia).
  assert (Di : is_derive ai tk (Derive ai tk)) by (apply Derive_correct; apply (proj1 Hi 1%nat); lia).
  set (dr := Derive ar tk) in *. set (di := Derive ai tk) in *. clearbody dr di.
  unfold minus_derivative. cbn [Re Im Cmult cis fst snd]. split.
  - apply (is_derive_ext (fun t => ar t * cos (- (w0 * t)) - ai t * sin (- (w0 * t)))); [intros; reflexivity|].
    auto_derive; [split; [exists dr; exact Dr|split; [exists di; exact Di|exact I]]|].
    replace (Derive (fun x => ar x) tk) with dr by (symmetry; exact (is_derive_unique _ _ _ Dr)).
    replace (Derive (fun x => ai x) tk) with di by (symmetry; exact (is_derive_unique _ _ _ Di)). ring.
  - apply (is_derive_ext (fun t => ar t * sin (- (w0 * t)) + ai t * cos (- (w0 * t)))); [intros; reflexivity|].
    auto_derive; [split; [exists dr; exact Dr|split; [exists di; exact Di|exact I]]|].
    replace (Derive (fun x => ar x) tk) with dr by (symmetry; exact (is_derive_unique _ _ _ Dr)).
    replace (Derive (fun x => ai x) tk) with di by (symmetry; exact (is_derive_unique _ _ _ Di)). ring.
Qed.

Lemma show_xyt S L : reachable S L -> l_dim L = Xyt ->
  exists a n0 n1 nt im,
    snd (get_temporal_field (l_grid L)) = Ok a /\ shp a = [n0; n1; nt] /\ length (nth 1 (g_axes (l_grid L)) []) = n1 /\
    snd (show_image L) = Ok (im, [lastR (g_lo (l_grid L)); lastR (g_hi (l_grid L)); vget (g_lo (l_grid L)) 0; vget (g_hi (l_grid L)) 0]) /\
    shp im = [n0; nt] /\ exists q, (2 * q = n1 \/ 2 * q + 1 = n1)%nat /\ forall i k, at3 im i k 0 = RtoC (Cmod (at3 a i q k)).
Proof.
  intros HR Hd. destruct (reachable_Inv S L HR) as (n0 & n1 & nt & HI).
  destruct (xyt_view L n0 n1 nt HI Hd) as (a & Ha & Hsh & Hn0 & Hn1 & Hnt & Henv & Hta).
  assert (Hd0 : dim0 a = n0) by (unfold dim0; rewrite Hsh; reflexivity).
  assert (Hd1 : dim1 a = n1) by (unfold dim1; rewrite Hsh; reflexivity).
  assert (Hd2 : dim2 a = nt) by (unfold dim2; rewrite Hsh; reflexivity).
  destruct (get_t_meta (l_grid L)) as (E1&E2&E3&E4&E5&E6&E7&E8&E9&E10).
  exists a, n0, n1, nt. unfold show_image, with_field. cbn [snd fst]. change (snd (get_temporal_field (l_grid L))) with (tread (l_grid L)). rewrite Ha, Hd.
  eexists. split; [reflexivity|]. split; [exact Hsh|]. split; [apply (gs_xyt _ _ _ _ _ (i_shape _ _ _ _ HI)); rewrite Hd; discriminate|].
  split; [unfold full_extent; rewrite E1, E2; reflexivity|]. split; [cbn [shp]; rewrite Hd0, Hd2; reflexivity|].
  exists (n1 / 2)%nat. split; [|intros i k; cbn [at3]; rewrite Hd1; reflexivity].
  pose proof (Nat.div_mod n1 2 ltac:(lia)). pose proof (Nat.mod_upper_bound n1 2 ltac:(lia)). lia.
Qed.
Lemma coord_centre lo hi n q : (2 <= n)%nat -> lo < hi -> (2 * q = n \/ 2 * q + 1 = n)%nat -> Rabs (coord lo hi n q - (lo + hi) / 2) <= spacing lo hi n / 2.
Proof.
  intros Hn Hl Hq. unfold coord, spacing. assert (N : 0 < INR n - 1) by (apply le_INR in Hn; cbn in Hn; lra).
  set (d := (hi - lo) / (INR n - 1)). assert (Hdp : 0 < d) by (apply Rdiv_lt_0_compat; lra).
  replace ((lo + hi) / 2) with (lo + (INR n - 1) / 2 * d) by (unfold d; field; lra).
  replace (lo + INR q * d - (lo + (INR n - 1) / 2 * d)) with ((INR q - (INR n - 1) / 2) * d) by ring.
  rewrite Rabs_mult, (Rabs_pos_eq d) by lra. replace (d / 2) with (/ 2 * d) by field. apply Rmult_le_compat_r; [lra|]. apply Rabs_le.
  destruct Hq as [H|H]; rewrite <- H; rewrite ?plus_INR, mult_INR; cbn [INR]; lra.
Qed.
Lemma show_centre lo hi npts p nm nte L q : laser_init Xyt lo hi npts p nm nte = Ok L ->
  let n1 := nth 1 npts 0%nat in vget lo 1 < vget hi 1 -> (2 * q = n1 \/ 2 * q + 1 = n1)%nat ->
  Rabs (vget (nth 1 (g_axes (l_grid L)) []) q - (vget lo 1 + vget hi 1) / 2) <= spacing (vget lo 1) (vget hi 1) n1 / 2.
Proof.
  intros HL n1 Hl Hq. destruct (laser_init_Inv _ _ _ _ _ _ _ _ HL) as (g & m0 & m1 & mt & Hg & Hmt & D1 & _ & _ & _ & _ & _ & GS & _).
  destruct Hmt as (Elo&Ehi&_&Eax&_). rewrite Eax.
  destruct (grid_init_axes _ _ _ _ _ _ _ Hg) as (_ & _ & _ & _ & Hax). destruct (Hax 1%nat ltac:(cbn; lia)) as (n & Hn & Hlen & _).
  assert (En : n = n1) by (unfold n1; symmetry; apply nth_error_nth, Hn). clearbody n1. rewrite En in Hn, Hlen. clear En n.
  pose proof (gs_pos _ _ _ _ _ GS) as (_ & P1 & _). destruct (gs_xyt _ _ _ _ _ GS ltac:(discriminate)) as [_ X]. cbn zeta in *.
  assert (N2 : (2 <= n1)%nat) by lia.
  change (vget (nth 1 (g_axes g) []) q) with (axis_at g 1 q). rewrite (axis_coord _ _ _ _ _ _ _ 1 n1 q Hg) by first [exact Hn | lia | cbn; lia]. apply coord_centre; assumption.
Qed.
Lemma thrice_square : thrice (fun t => t ^ 2) 0.
Proof.
  assert (D1 : forall x, is_derive (fun t => t ^ 2) x (2 * x)) by (intros x; auto_derive; [exact I|ring]).
  assert (E1 : forall x, Derive_n (fun t => t ^ 2) 1 x = 2 * x) by (intros x; apply is_derive_unique, D1).
  assert (D2 : forall x, is_derive (Derive_n (fun t => t ^ 2) 1) x 2).
  { intros x. apply (is_derive_ext (fun t => 2 * t)); [intros; symmetry; apply E1|]. auto_derive; [exact I|ring]. }
  assert (E2 : forall x, Derive_n (fun t => t ^ 2) 2 x = 2) by (intros x; apply (is_derive_unique (Derive_n (fun t => t ^ 2) 1)), D2).
  assert (D3 : forall x, is_derive (Derive_n (fun t => t ^ 2) 2) x 0).
  { intros x. apply (is_derive_ext (fun t => 2)); [intros; symmetry; apply E2|]. auto_derive; [exact I|ring]. }
  split.
  - intros [|[|[|[|k]]]] Hk x; [exact I|exists (2 * x); apply D1|exists 2; apply D2|exists 0; apply D3|lia].
  - intros x. replace (Derive_n (fun t => t ^ 2) 3 x) with 0; [rewrite Rabs_R0; lra|]. symmetry. apply (is_derive_unique (Derive_n (fun t => t ^ 2) 2)), D3.
Qed.
