From Coq Require Import FunctionalExtensionality.
From Verif Require Import PyBase CSum NpFFT NumPy GridModel GridSpec GridProofs GridObs EnergyModel EnergyProofs LaserSpec LaserModel LaserOps LaserInv LaserStepProofs PropagateProofs HistoryProofs LaserInitProofs LtiSpec LtiMain AnalysisModel MirrorProofs ScaleProofs TransSpec.
Open Scope R_scope.

Notation tg := transpose_grid.
Notation ta := transpose_arr.
Lemma swap_swap {A} (l : list A) : swap12 (swap12 l) = l.
Proof. destruct l as [|a [|b l]]; reflexivity. Qed.
Lemma ta_ta a : ta (ta a) = a.
Proof. unfold transpose_arr. cbn [shp dty at3]. rewrite swap_swap. destruct a; reflexivity. Qed.
Lemma tg_tg g : tg (tg g) = g.
Proof. unfold transpose_grid. cbn [g_lo g_hi g_npoints g_axes g_dx g_nmodes g_modes g_shape g_isenv g_dtype g_tf g_tv g_sf g_sv]. rewrite !swap_swap, !ta_ta. destruct g; reflexivity. Qed.
Lemma shape_swap s t : shape_eqb (swap12 s) (swap12 t) = shape_eqb s t.
Proof.
  destruct (shape_eqb s t) eqn:E.
  - apply shape_eqb_true in E. rewrite E. apply shape_eqb_refl.
  - apply shape_eqb_false. apply shape_eqb_false in E. intros H. apply E. rewrite <- (swap_swap s), H. apply swap_swap.
Qed.
Lemma dim2_ta a : dim2 (ta a) = dim2 a.
Proof. unfold dim2. cbn [transpose_arr shp]. destruct (shp a) as [|x [|y l]]; reflexivity. Qed.
Lemma fft_ta a : np_fft_last (ta a) = ta (np_fft_last a).
Proof. unfold np_fft_last. rewrite dim2_ta. reflexivity. Qed.
Lemma ifft_ta a : np_ifft_last (ta a) = ta (np_ifft_last a).
Proof. unfold np_ifft_last. rewrite dim2_ta. reflexivity. Qed.

(** ** Grid methods *)
Definition tp {A} (f : A -> A) (r : grid * res A) : grid * res A := (tg (fst r), mapres f (snd r)).
Definition tu (r : grid * res unit) : grid * res unit := (tg (fst r), snd r).
Lemma get_t_tg g : get_temporal_field (tg g) = tp ta (get_temporal_field g).
Proof.
  unfold get_temporal_field, tp. cbn [transpose_grid g_tv g_sv]. destruct (g_tv g); [reflexivity|]. destruct (g_sv g); [|reflexivity].
  cbn [fst snd mapres]. unfold spectral2temporal_fft. cbn [transpose_grid g_sf]. 
  rewrite fft_ta. reflexivity.
Qed.
Lemma get_s_tg g : get_spectral_field (tg g) = tp ta (get_spectral_field g).
Proof.
  unfold get_spectral_field, tp. cbn [transpose_grid g_tv g_sv g_isenv]. destruct (negb (g_isenv g)); [reflexivity|]. destruct (g_sv g); [reflexivity|].
  destruct (g_tv g); [|reflexivity]. cbn [fst snd mapres]. unfold temporal2spectral_fft. cbn [transpose_grid g_tf]. 
  rewrite ifft_ta. reflexivity.
Qed.
Lemma set_t_tg g a : set_temporal_field (tg g) (ta a) = tu (set_temporal_field g a).
Proof. unfold set_temporal_field, tu. cbn [transpose_grid transpose_arr g_tf g_dtype shp dty]. rewrite shape_swap. destruct (negb _); [reflexivity|]. destruct (negb _); reflexivity. Qed.
Lemma set_s_tg g a : set_spectral_field (tg g) (ta a) = tu (set_spectral_field g a).
Proof. unfold set_spectral_field, tu. cbn [transpose_grid transpose_arr g_sf shp dty]. rewrite shape_swap. destruct (negb _); [reflexivity|]. destruct (negb _); reflexivity. Qed.

(** ** Well-formed three-dimensional grids *)
Record three (g : grid) : Prop := mkThree {
  th_lo : length (g_lo g) = 3%nat; th_hi : length (g_hi g) = 3%nat; th_axes : length (g_axes g) = 3%nat; th_dx : length (g_dx g) = 3%nat;
  th_shape : length (g_shape g) = 3%nat; th_wf : Wf g
}.
Lemma three_of L n0 n1 nt : Inv L n0 n1 nt -> l_dim L = Xyt -> three (l_grid L).
Proof.
  intros HI Hd. pose proof (i_shape _ _ _ _ HI) as GS. pose proof (i_coh _ _ _ _ HI) as HG. constructor.
  - rewrite (gs_lo _ _ _ _ _ GS), Hd. reflexivity.
  - rewrite (gs_hi _ _ _ _ _ GS), Hd. reflexivity.
  - rewrite (gs_axes _ _ _ _ _ GS), Hd. reflexivity.
  - rewrite (gs_dx _ _ _ _ _ GS), Hd. reflexivity.
  - rewrite (gs_shape _ _ _ _ _ GS). reflexivity.
  - exact (proj1 HG).
Qed.
Lemma three_meta g g' : three g -> Wf g' -> same_meta g g' -> three g'.
Proof. intros [A B C D E F] HW (M1 & M2 & M3 & M4 & M5 & M6 & M7 & M8 & _). constructor; congruence. Qed.
Lemma len3 {A} (l : list A) : length l = 3%nat -> exists a b c, l = [a; b; c].
Proof. destruct l as [|a [|b [|c [|d l]]]]; try discriminate. eauto. Qed.
Lemma last_sw {A} (l : list A) d : length l = 3%nat -> last (swap12 l) d = last l d.
Proof. intros H. destruct (len3 l H) as (a & b & c & ->). reflexivity. Qed.
Lemma set_last_sw {A} (l : list A) v : length l = 3%nat -> set_last (swap12 l) v = swap12 (set_last l v).
Proof. intros H. destruct (len3 l H) as (a & b & c & ->). reflexivity. Qed.
Lemma nth0_sw {A} (l : list A) d : length l = 3%nat -> nth 0 (swap12 l) d = nth 1 l d.
Proof. intros H. destruct (len3 l H) as (a & b & c & ->). reflexivity. Qed.
Lemma nth1_sw {A} (l : list A) d : length l = 3%nat -> nth 1 (swap12 l) d = nth 0 l d.
Proof. intros H. destruct (len3 l H) as (a & b & c & ->). reflexivity. Qed.
Lemma dims_ta a : length (shp a) = 3%nat -> dim0 (ta a) = dim1 a /\ dim1 (ta a) = dim0 a.
Proof. intros H. unfold dim0, dim1. cbn [transpose_arr shp]. destruct (len3 _ H) as (x & y & z & ->). split; reflexivity. Qed.
Lemma time_axis_tg g : three g -> time_axis (tg g) = time_axis g.
Proof. intros H. unfold time_axis. cbn [transpose_grid g_axes]. apply last_sw, H. Qed.
Lemma read_rank g a : three g -> snd (get_temporal_field g) = Ok a -> length (shp a) = 3%nat.
Proof. intros H Ha. destruct (tread_shape _ _ (th_wf _ H) Ha) as (-> & _). apply (th_shape _ H). Qed.
Lemma three_t g : three g -> three (fst (get_temporal_field g)).
Proof. intros H. apply (three_meta g); [exact H | apply get_t_Wf, H | apply get_t_meta]. Qed.
Lemma three_s g : three g -> three (fst (get_spectral_field g)).
Proof. intros H. apply (three_meta g); [exact H | apply get_s_Wf, H | apply get_s_meta]. Qed.
Lemma three_set_t g a : three g -> three (fst (set_temporal_field g a)).
Proof. intros H. apply (three_meta g); [exact H | apply set_t_Wf, H | apply set_t_meta]. Qed.
Lemma three_set_s g a : three g -> three (fst (set_spectral_field g a)).
Proof. intros H. apply (three_meta g); [exact H | apply set_s_Wf, H | apply set_s_meta]. Qed.

(** ** Energy and normalization *)
Lemma rsum3_swap n0 n1 n2 f : rsum3 n0 n1 n2 f = rsum3 n1 n0 n2 (fun i j k => f j i k).
Proof. unfold rsum3. apply (rsum_swap n0 n1 (fun i j => rsum n2 (fun k => f i j k))). Qed.
Lemma cell_tg g j : three g -> cell_volume Xyt (tg g) j = cell_volume Xyt g j.
Proof.
  intros H. cbn [cell_volume]. unfold cell_volume_xyt, vget, lastR. cbn [transpose_grid g_dx]. rewrite nth0_sw, nth1_sw, last_sw by apply H. ring.
Qed.
Lemma energy_tg g a : three g -> length (shp a) = 3%nat -> energy_of Xyt (tg g) (ta a) = energy_of Xyt g a.
Proof.
  intros H Ha. unfold energy_of. cbn [transpose_grid g_isenv]. change (g_isenv (tg g)) with (g_isenv g). destruct (dims_ta a Ha) as (-> & ->). rewrite dim2_ta.
  assert (E : rsum3 (dim1 a) (dim0 a) (dim2 a) (fun i j k => cell_volume Xyt (tg g) j * eps0 * Cmod (at3 (ta a) i j k) ^ 2) =
              rsum3 (dim0 a) (dim1 a) (dim2 a) (fun i j k => cell_volume Xyt g j * eps0 * Cmod (at3 a i j k) ^ 2)).
  { rewrite rsum3_swap. apply rsum3_ext. intros i j k _ _ _. rewrite cell_tg by exact H. reflexivity. }
  rewrite E. reflexivity.
Qed.
Lemma compute_tg g : three g -> compute_laser_energy Xyt (tg g) = (tg (fst (compute_laser_energy Xyt g)), snd (compute_laser_energy Xyt g)).
Proof.
  intros H. unfold compute_laser_energy. rewrite get_t_tg. unfold tp. cbn [fst snd]. destruct (snd (get_temporal_field g)) as [a|e] eqn:E; [|reflexivity].
  cbn [fst snd mapres]. rewrite energy_tg; [reflexivity | apply three_t, H | apply (read_rank g a H E)].
Qed.
Lemma flat3_swap n0 n1 n2 (f : nat -> nat -> nat -> R) : rmaxl (flat3 n0 n1 n2 f) = rmaxl (flat3 n1 n0 n2 (fun i j k => f j i k)).
Proof.
  apply rmaxl_same. intros x. split; intros Hx; apply (proj1 (EnergyProofs.in_flat3 _ _ _ _ _)) in Hx; destruct Hx as (i & j & k & Hi & Hj & Hk & ->); apply (proj2 (EnergyProofs.in_flat3 _ _ _ _ _)); exists j, i, k; auto.
Qed.
Lemma norm_tg v k g : three g -> normalize_grid Xyt v k (tg g) = tu (normalize_grid Xyt v k g).
Proof.
  intros H. destruct k; cbn [normalize_grid]; [| | |reflexivity]; (destruct v as [v|]; [|reflexivity]).
  - cbn [normalize_energy]. rewrite compute_tg by exact H. cbn [fst snd].
    destruct (snd (compute_laser_energy Xyt g)) as [c|e]; [|reflexivity]. destruct (Reqb c 0); [reflexivity|].
    rewrite get_t_tg. unfold tp at 1 2 3. cbn [fst snd]. destruct (snd (get_temporal_field (fst (compute_laser_energy Xyt g)))); [|reflexivity].
    cbn [mapres fst tp]. exact (set_t_tg _ (scale_arr _ _)).
  - cbn [normalize_peak_field_amplitude]. rewrite get_t_tg. unfold tp at 1 2 3 4. cbn [fst snd].
    destruct (snd (get_temporal_field g)) as [a|e] eqn:E; [|reflexivity]. cbn [mapres fst tp]. cbn zeta.
    assert (M : abs_max (ta a) = abs_max a).
    { unfold abs_max. destruct (dims_ta a (read_rank g a H E)) as (-> & ->). rewrite dim2_ta. rewrite flat3_swap. reflexivity. }
    rewrite M. destruct (Reqb _ 0); [reflexivity|]. exact (set_t_tg _ (scale_arr _ _)).
  - cbn [normalize_peak_intensity]. rewrite get_t_tg. unfold tp at 1 2 3 4. cbn [fst snd].
    destruct (snd (get_temporal_field g)) as [a|e] eqn:E; [|reflexivity]. cbn [mapres fst tp]. cbn zeta.
    destruct (dims_ta a (read_rank g a H E)) as (-> & ->). rewrite dim2_ta. rewrite (flat3_swap (dim1 a)). cbn [transpose_arr at3].
    destruct (Reqb _ 0); [reflexivity|]. exact (set_t_tg _ (np_float_scalar _)).
Qed.

(** ** Lasers *)
Definition tprop (p : prop_attr) : prop_attr :=
  match p with PropRt l => PropRt l | PropXyt p => PropXyt (mkFft2Prop (fp_y p) (fp_x p) (fp_k p) (fp_backend p)) end.
Definition tl (L : laser) : laser := mkLaser (l_dim L) (tg (l_grid L)) (transpose_profile (l_prof L)) (l_iter L) (l_omega L) (option_map tprop (l_prop L)).
Definition tlp (r : laser * res unit) : laser * res unit := (tl (fst r), snd r).

Section Laser.
Variable L : laser.
Hypothesis Hd : l_dim L = Xyt.
Hypothesis H3 : three (l_grid L).
Lemma axis_at_tg g i : three g -> axis_at (tg g) 0 i = axis_at g 1 i /\ axis_at (tg g) 1 i = axis_at g 0 i.
Proof. intros H. unfold axis_at. cbn [transpose_grid g_axes]. rewrite nth0_sw, nth1_sw by apply H. split; reflexivity. Qed.
Lemma optics_tl e : apply_optics (tl L) (fun x y w w0 => e y x w w0) = tlp (apply_optics L e).
Proof.
  unfold apply_optics. cbn [tl l_grid]. rewrite get_s_tg. unfold tp. cbn [fst snd]. destruct (snd (get_spectral_field (l_grid L))) as [a|x]; [|reflexivity].
  cbn [mapres].
  assert (E : forall i j k, optic_factor (tl L) (fun x y w w0 => e y x w w0) i j k = optic_factor L e j i k).
  { intros i j k. unfold optic_factor. cbn [tl l_grid l_omega l_dim l_prof transpose_profile p_omega0]. rewrite Hd.
    destruct (axis_at_tg (l_grid L) i H3) as (-> & _). destruct (axis_at_tg (l_grid L) j H3) as (_ & ->). reflexivity. }
  assert (F : mkArr (shp (ta a)) (dty (ta a)) (fun i j k => Cmult (at3 (ta a) i j k) (optic_factor (tl L) (fun x y w w0 => e y x w w0) i j k)) =
              ta (mkArr (shp a) (dty a) (fun i j k => Cmult (at3 a i j k) (optic_factor L e i j k)))).
  { unfold transpose_arr. cbn [shp dty at3]. f_equal. apply functional_extensionality; intros i. apply functional_extensionality; intros j. apply functional_extensionality; intros k.
    rewrite E. reflexivity. }
  rewrite F, set_s_tg. reflexivity.
Qed.
Lemma absorb_tg nr g : three g -> absorb_boundary Xyt nr (tg g) = tu (absorb_boundary Xyt nr g).
Proof.
  intros H. unfold absorb_boundary. destruct nr as [[z|]|]; try reflexivity. destruct (Z.leb z 0); [reflexivity|]. rewrite get_t_tg. unfold tp at 1 2 3 4. cbn [fst snd].
  destruct (snd (get_temporal_field g)) as [a|e] eqn:E; [|reflexivity]. cbn [mapres]. unfold absorb_field.
  destruct (dims_ta a (read_rank g a H E)) as (-> & ->).
  destruct (Nat.ltb (dim1 a) (Z.to_nat z)) eqn:E1, (Nat.ltb (dim0 a) (Z.to_nat z)) eqn:E0; try reflexivity.
  match goal with |- set_temporal_field _ ?b = _ => 
    replace b with (ta (mkArr (shp a) (dty a) (fun i j k => Cmult (Cmult (Cmult (Cmult (at3 a i j k) (RtoC (absorb_hi (Z.to_nat z) (dim0 a) i))) (RtoC (absorb_lo (Z.to_nat z) i)))
                   (RtoC (absorb_hi (Z.to_nat z) (dim1 a) j))) (RtoC (absorb_lo (Z.to_nat z) j))))) end; [apply set_t_tg|].
  unfold transpose_arr. cbn [shp dty at3]. f_equal. apply functional_extensionality; intros i. apply functional_extensionality; intros j. apply functional_extensionality; intros k. ring.
Qed.
Lemma shift_tg g d : three g -> shift_domain (tg g) d = tg (shift_domain g d).
Proof.
  intros H. unfold shift_domain. rewrite time_axis_tg by exact H. cbn [transpose_grid g_lo g_hi g_axes]. unfold lastR. rewrite !last_sw, !set_last_sw by apply H. reflexivity.
Qed.
End Laser.
Lemma finish_tl L d a : three (l_grid L) -> finish (tl L) d (ta a) = tlp (finish L d a).
Proof.
  intros H. unfold finish. change (apply_phase (l_omega (tl L)) (p_omega0 (l_prof (tl L))) d (ta a)) with (ta (apply_phase (l_omega L) (p_omega0 (l_prof L)) d a)).
  cbn [tl l_grid]. rewrite set_s_tg. unfold tu. cbn [fst snd]. destruct (snd (set_spectral_field (l_grid L) _)); [|reflexivity].
  rewrite shift_tg by (apply three_set_s, H). reflexivity.
Qed.
Lemma build_tg g om b : three g -> build_xyt (tg g) om b = mkFft2Prop (fp_y (build_xyt g om b)) (fp_x (build_xyt g om b)) (fp_k (build_xyt g om b)) (fp_backend (build_xyt g om b)).
Proof.
  intros H. unfold build_xyt, vget. cbn [transpose_grid g_lo g_hi g_shape fp_x fp_y fp_k fp_backend]. rewrite !nth0_sw, !nth1_sw by apply H. reflexivity.
Qed.
Section Solver.
Variable S : solvers.
Hypothesis HS : transpose_solver S.
Lemma absorb_three nr g : CohG g -> three g -> three (fst (absorb_boundary Xyt nr g)).
Proof. intros HG H. destruct (absorb_boundary_steps Xyt nr g HG) as (AG & AM & _). apply (three_meta g); [exact H | exact (proj1 AG) | exact AM]. Qed.
Lemma propagate_tl L d nr ng b : l_dim L = Xyt -> CohG (l_grid L) -> three (l_grid L) -> propagate S (tl L) d nr ng b = tlp (propagate S L d nr ng b).
Proof.
  intros Hd HG H3. unfold propagate. cbn [tl l_grid l_dim l_prop l_omega]. change (g_isenv (tg (l_grid L))) with (g_isenv (l_grid L)).
  destruct (negb (g_isenv (l_grid L))); [reflexivity|]. rewrite Hd, absorb_tg by exact H3. unfold tu. cbn [fst snd].
  destruct (snd (absorb_boundary Xyt nr (l_grid L))) as [u|e]; [|reflexivity].
  pose proof (three_s _ (absorb_three nr _ HG H3)) as H3'.
  rewrite !get_s_tg. unfold tp. cbn [fst snd].
  destruct (snd (get_spectral_field (fst (absorb_boundary Xyt nr (l_grid L))))) as [a|e]; [|reflexivity]. cbn [mapres].
  set (g1 := fst (get_spectral_field (fst (absorb_boundary Xyt nr (l_grid L))))) in *.
  set (P := match l_prop L with Some (PropXyt p) => p | _ => build_xyt (l_grid (set_grid L g1)) (l_omega L) b end).
  assert (HX : match l_prop (tl L) with Some (PropXyt p) => p | _ => build_xyt (l_grid (set_grid (tl L) (tg g1))) (l_omega (tl L)) b end =
     mkFft2Prop (fp_y P) (fp_x P) (fp_k P) (fp_backend P)).
  { unfold P. cbn [tl l_prop l_omega set_grid l_grid]. destruct (l_prop L) as [[l|p]|]; cbn [option_map tprop]; try (apply build_tg; exact H3'). reflexivity. }
  cbn [tl l_prop l_omega set_grid l_grid] in HX |- *. rewrite HX.
  rewrite <- (finish_tl (set_prop (set_grid L g1) (Some (PropXyt P))) d) by exact H3'.
  unfold transpose_arr at 2. cbn [shp dty at3]. unfold set_prop, set_grid, tl. cbn [l_dim l_grid l_prof l_iter l_omega l_prop option_map tprop]. f_equal.
  unfold transpose_arr. cbn [shp dty at3]. f_equal.
  apply functional_extensionality; intros i. apply functional_extensionality; intros j. apply functional_extensionality; intros k.
  exact (HS P (fun kk ii jj => at3 a ii jj kk) d k i j).
Qed.
Lemma write_tl L w : write_to_file (tl L) (fun n g a => w n (tg g) (ta a)) = tlp (write_to_file L w).
Proof.
  unfold write_to_file. cbn [tl l_grid]. rewrite get_t_tg. unfold tp. cbn [fst snd]. destruct (snd (get_temporal_field (l_grid L))) as [a|e]; [|reflexivity].
  cbn [mapres]. rewrite tg_tg, ta_ta. cbn [l_iter]. destruct (w _ _ _); reflexivity.
Qed.
Lemma lstep_tl L n0 n1 nt o : Inv L n0 n1 nt -> l_dim L = Xyt -> lstep S (tl L) (transpose_op o) = tlp (lstep S L o).
Proof.
  intros HI Hd. pose proof (three_of L n0 n1 nt HI Hd) as H3. destruct o as [d nr ng b|e|v k|w]; cbn [lstep transpose_op].
  - apply propagate_tl; [exact Hd | apply (i_coh _ _ _ _ HI) | exact H3].
  - apply optics_tl; assumption.
  - unfold normalize. cbn [tl l_dim l_grid]. rewrite Hd, norm_tg by exact H3. reflexivity.
  - apply write_tl.
Qed.
Lemma run_tl h : forall L n0 n1 nt, Inv L n0 n1 nt -> l_dim L = Xyt ->
  lrun S (tl L) (map transpose_op h) = tl (lrun S L h) /\ outcomes S (tl L) (map transpose_op h) = outcomes S L h /\
  Inv (lrun S L h) n0 n1 nt /\ l_dim (lrun S L h) = Xyt.
Proof.
  induction h as [|o h IH]; intros L n0 n1 nt HI Hd; [split; [reflexivity|]; split; [reflexivity|]; split; assumption|]. cbn [map lrun outcomes].
  destruct (step_plain S L n0 n1 nt o HI (or_introl Hd)) as (HI' & _ & Hd' & _).
  rewrite (lstep_tl L n0 n1 nt o HI Hd). cbn [tlp fst snd].
  destruct (IH (fst (lstep S L o)) n0 n1 nt HI' ltac:(congruence)) as (I1 & I2 & I3 & I4). split; [exact I1|]. split; [|split; assumption]. rewrite I2. f_equal. destruct o; reflexivity.
Qed.
End Solver.

(** ** Construction *)
Lemma build_axes_sw lo hi np r : length lo = 3%nat -> length hi = 3%nat -> length np = 3%nat -> build_axes 3 0 lo hi np = Ok r ->
  build_axes 3 0 (swap12 lo) (swap12 hi) (swap12 np) = Ok (swap12 (fst r), swap12 (snd r)) /\ length (fst r) = 3%nat /\ length (snd r) = 3%nat.
Proof.
  intros H1 H2 H4. destruct (len3 lo H1) as (l0 & l1 & l2 & ->). destruct (len3 hi H2) as (h0 & h1 & h2 & ->). destruct (len3 np H4) as (m0 & m1 & m2 & ->).
  unfold build_axes, vget. cbn [nth swap12].
  change (nth_error [m0; m1; m2] 0) with (Some m0). change (nth_error [m0; m1; m2] 1) with (Some m1). change (nth_error [m0; m1; m2] 2) with (Some m2).
  change (nth_error [m1; m0; m2] 0) with (Some m1). change (nth_error [m1; m0; m2] 1) with (Some m0). change (nth_error [m1; m0; m2] 2) with (Some m2).
  cbv beta iota zeta. set (A0 := linspace l0 h0 m0). set (A1 := linspace l1 h1 m1). set (A2 := linspace l2 h2 m2).
  destruct (nth_error A0 1); [|discriminate]. destruct (nth_error A1 1); [|cbn [bind]; discriminate].
  destruct (nth_error A2 1); [|cbn [bind]; discriminate]. cbn [bind fst snd]. intros E. injection E as <-. cbn [fst snd swap12]. repeat split.
Qed.
Lemma grid_init_sw lo hi np nm b g : length np = 3%nat -> grid_init Xyt lo hi np nm b = Ok g ->
  grid_init Xyt (swap12 lo) (swap12 hi) (swap12 np) nm b = Ok (tg g) /\ length (g_dx g) = 3%nat /\ length (g_axes g) = 3%nat.
Proof.
  intros Hnp. unfold grid_init. cbn [pyassert bind]. destruct (Nat.eqb_spec (length lo) 3) as [E1|]; [|discriminate]. destruct (Nat.eqb_spec (length hi) 3) as [E2|]; [|discriminate].
  cbn [pyassert bind]. destruct (build_axes 3 0 lo hi np) as [r|e] eqn:E; [|discriminate].
  assert (X : length (swap12 lo) = 3%nat /\ length (swap12 hi) = 3%nat).
  { destruct (len3 lo E1) as (l0 & l1 & l2 & ->). destruct (len3 hi E2) as (h0 & h1 & h2 & ->). split; reflexivity. }
  destruct X as (-> & ->). cbn [Nat.eqb pyassert bind]. destruct (build_axes_sw lo hi np r E1 E2 Hnp E) as (-> & Q1 & Q2). cbn [bind fst snd]. intros G. injection G as <-.
  split; [reflexivity|]. split; assumption.
Qed.
Lemma laser_init_sw lo hi np p nm nte L : laser_init Xyt lo hi np p nm nte = Ok L ->
  laser_init Xyt (swap12 lo) (swap12 hi) (swap12 np) (transpose_profile p) nm nte = Ok (tl L).
Proof.
  intros H. destruct (laser_init_Inv _ _ _ _ _ _ _ _ H) as (g & n0 & n1 & nt & Hg & A2 & _ & _ & _ & _ & _ & _ & A9 & HI).
  assert (Hnp : length np = 3%nat).
  { pose proof (gs_shape _ _ _ _ _ A9) as Hs. destruct (grid_init_axes _ _ _ _ _ _ _ Hg) as (_ & _ & _ & _).
    unfold grid_init in Hg. cbn [pyassert bind] in Hg. destruct (Nat.eqb (length lo) 3); [|discriminate]. destruct (Nat.eqb (length hi) 3); [|discriminate]. cbn [pyassert bind] in Hg.
    destruct (build_axes 3 0 lo hi np); [|discriminate]. cbn [bind] in Hg. injection Hg as <-. cbn [g_shape] in Hs. rewrite Hs. reflexivity. }
  destruct (grid_init_sw lo hi np (Some nm) true g Hnp Hg) as (Hg' & Hdx & Hax).
  unfold laser_init in *. rewrite Hg in H. rewrite Hg'. cbn [bind] in *.
  assert (Es : sample_xyt (tg g) (transpose_profile p) = ta (sample_xyt g p)).
  { unfold sample_xyt, transpose_arr. cbn [transpose_grid g_axes shp dty at3 swap12 transpose_profile p_dtype p_eval]. destruct (len3 _ Hax) as (x & y & t & Ex).
    change (mkGrid _ _ _ _ _ _ _ _ _ _ _ _ _ _) with (tg g). unfold axis_at. cbn [transpose_grid g_axes]. rewrite Ex. reflexivity. }
  rewrite Es, set_t_tg. unfold tu. cbn [fst snd]. destruct (snd (set_temporal_field g (sample_xyt g p))); [|discriminate].
  assert (Ew : forall h w, three h -> omega_axis (tg h) w = omega_axis h w).
  { intros h w Hh. unfold omega_axis, lastR, lastN. cbn [transpose_grid g_shape g_dx]. rewrite !last_sw by apply Hh. reflexivity. }
  assert (W3 : three (fst (set_temporal_field g (sample_xyt g p)))).
  { apply three_set_t. constructor; try (rewrite ?(gs_lo _ _ _ _ _ A9), ?(gs_hi _ _ _ _ _ A9), ?(gs_axes _ _ _ _ _ A9), ?(gs_dx _ _ _ _ _ A9), ?(gs_shape _ _ _ _ _ A9); reflexivity).
    exact (proj1 (grid_init_CohG _ _ _ _ _ _ Hg)). }
  set (g1 := fst (set_temporal_field g (sample_xyt g p))) in *.
  unfold init_normalize in *. cbn [l_prof transpose_profile p_energy l_dim l_grid] in *. destruct (p_energy p) as [v|].
  - change (normalize_energy Xyt v (tg g1)) with (normalize_grid Xyt v KEnergy (tg g1)). rewrite norm_tg by exact W3. unfold tu. cbn [fst snd]. change (normalize_grid Xyt v KEnergy g1) with (normalize_energy Xyt v g1).
    destruct (snd (normalize_energy Xyt v g1)); [|discriminate]. injection H as <-. unfold tl, set_grid. cbn [fst snd l_dim l_grid l_prof l_iter l_omega l_prop option_map transpose_profile p_omega0]. rewrite Ew by exact W3. reflexivity.
  - injection H as <-. unfold tl. cbn [l_dim l_grid l_prof l_iter l_omega l_prop option_map transpose_profile p_omega0]. rewrite Ew by exact W3. reflexivity.
Qed.

(** ** What the user reads *)
Lemma duration_tg g : three g -> snd (get_duration Xyt (tg g)) = snd (get_duration Xyt g).
Proof.
  intros H. unfold get_duration, with_field. rewrite get_t_tg. unfold tp. cbn [fst snd]. destruct (snd (get_temporal_field g)) as [a|e] eqn:E; [|reflexivity].
  cbn [mapres fst snd]. pose proof (three_t g H) as H'. rewrite dim2_ta, time_axis_tg by exact H'.
  assert (W : duration_weight Xyt (tg (fst (get_temporal_field g))) (ta a) = duration_weight Xyt (fst (get_temporal_field g)) a).
  { apply functional_extensionality; intros k. unfold duration_weight. destruct (dims_ta a (read_rank g a H E)) as (-> & ->). rewrite rsum_swap.
    apply rsum_ext. intros i _. apply rsum_ext. intros j _. rewrite cell_tg by exact H'. reflexivity. }
  rewrite W. reflexivity.
Qed.
Lemma spectrum_tg g w : three g -> snd (get_spectrum_sum Xyt (tg g) w) = snd (get_spectrum_sum Xyt g w).
Proof.
  intros H. unfold get_spectrum_sum, with_field. rewrite get_t_tg. unfold tp. cbn [fst snd]. destruct (snd (get_temporal_field g)) as [a|e] eqn:E; [|reflexivity].
  cbn [mapres fst snd]. pose proof (three_t g H) as H'. set (g' := fst (get_temporal_field g)) in *.
  assert (W : forall w0, spectrum_pairs Xyt (tg g') (ta a) w0 = spectrum_pairs Xyt g' a w0).
  { intros w0. unfold spectrum_pairs. rewrite dim2_ta, time_axis_tg by exact H'. apply map_ext. intros k. f_equal.
    - unfold lastN. cbn [transpose_grid g_shape]. rewrite last_sw by apply H'. reflexivity.
    - pose proof (cell_tg g' 0 H') as V. cbn [cell_volume] in V. unfold spectrum_sum. rewrite V. unfold lastR. cbn [transpose_grid g_dx]. rewrite last_sw by apply H'.
      destruct (dims_ta a (read_rank g a H E)) as (-> & ->). rewrite rsum_swap. apply rsum_ext. intros i _. apply rsum_ext. intros j _.
      unfold spectrum_density, spectrum_raw. rewrite dim2_ta. reflexivity. }
  destruct w; [rewrite W|]; reflexivity.
Qed.
(** The image of a slice (without its extent, which the code always takes from the first axis: C32). *)
Definition image (r : res (option (ndarray * list R))) : res (option ndarray) := mapres (option_map fst) r.
Lemma full_field_tl L theta s : l_dim L = Xyt -> three (l_grid L) ->
  image (snd (get_full_field (tl L) theta s SliceX)) = image (snd (get_full_field L theta s SliceY)) /\
  image (snd (get_full_field (tl L) theta s SliceY)) = image (snd (get_full_field L theta s SliceX)).
Proof.
  intros Hd H. unfold get_full_field, with_field. cbn [snd tl l_grid]. rewrite get_t_tg. unfold tp. cbn [fst snd]. pose proof (three_t _ H) as H'.
  destruct (snd (get_temporal_field (l_grid L))) as [a|e] eqn:E; [|split; reflexivity].
  cbn [mapres fst snd]. set (g := fst (get_temporal_field (l_grid L))) in *. unfold full_field. cbn [l_dim l_prof tl transpose_profile p_omega0]. rewrite Hd.
  change (g_isenv (tg g)) with (g_isenv g). destruct (negb (g_isenv g)); [split; reflexivity|].
  destruct (dims_ta a (read_rank _ a H E)) as (-> & ->). rewrite dim2_ta, time_axis_tg by exact H'.
  split; (destruct (py_index _ _); reflexivity).
Qed.
