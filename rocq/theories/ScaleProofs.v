From Coq Require Import FunctionalExtensionality.
From Verif Require Import PyBase CSum NpFFT NumPy GridModel GridSpec EnergyModel EnergyProofs LaserSpec LaserModel LaserOps LtiSpec AnalysisModel ScaleSpec.
Open Scope R_scope.

Section Scale.
Variable s : R.
Hypothesis Hs : 0 < s.
Let s0 : s <> 0. Proof. apply Rgt_not_eq, Hs. Qed.
Notation sg := (scale_grid s).
Notation ms := (map (Rmult s)).

Lemma mul_div x : s * x / s = x. Proof. field. apply s0. Qed.
Lemma div_mul x : s * (x / s) = x. Proof. field. apply s0. Qed.
Lemma vget_ms l i : vget (ms l) i = s * vget l i.
Proof. unfold vget. rewrite <- (Rmult_0_r s) at 1. apply map_nth. Qed.
Lemma vget_div l i : vget (map (fun w => w / s) l) i = vget l i / s.
Proof. unfold vget. replace 0 with (0 / s) at 1 by (unfold Rdiv; ring). apply (map_nth (fun w => w / s)). Qed.
Lemma last_map {A B} (f : A -> B) l d : last (map f l) (f d) = f (last l d).
Proof. induction l as [|a [|b l] IH]; [reflexivity|reflexivity|]. change (last (map f (b :: l)) (f d) = f (last (b :: l) d)). exact IH. Qed.
Lemma lastR_ms l : lastR (ms l) = s * lastR l.
Proof. unfold lastR. rewrite <- (Rmult_0_r s) at 1. apply last_map. Qed.
Lemma removelast_map {A B} (f : A -> B) l : removelast (map f l) = map f (removelast l).
Proof. induction l as [|a [|b l] IH]; [reflexivity|reflexivity|]. change (f a :: removelast (map f (b :: l)) = f a :: map f (removelast (b :: l))). rewrite IH. reflexivity. Qed.
Lemma set_last_ms l v : set_last (ms l) (s * v) = ms (set_last l v).
Proof. unfold set_last. rewrite removelast_map, map_app. reflexivity. Qed.
Lemma axes_nth l q : nth q (map ms l) [] = ms (nth q l []).
Proof. change (@nil R) with (ms []) at 1. apply map_nth. Qed.
Lemma time_axis_sg g : time_axis (sg g) = ms (time_axis g).
Proof. unfold time_axis. cbn [scale_grid g_axes]. change (@nil R) with (ms []) at 1. apply last_map. Qed.
Lemma axis_at_sg g q i : axis_at (sg g) q i = s * axis_at g q i.
Proof. unfold axis_at. cbn [scale_grid g_axes]. rewrite axes_nth. apply vget_ms. Qed.

(** ** Grid methods *)
Definition sp {A} (r : grid * A) : grid * A := (sg (fst r), snd r).
Lemma get_t_sg g : get_temporal_field (sg g) = sp (get_temporal_field g).
Proof. unfold get_temporal_field, sp. cbn [scale_grid g_tv g_sv g_tf]. destruct (g_tv g); [reflexivity|]. destruct (g_sv g); reflexivity. Qed.
Lemma get_s_sg g : get_spectral_field (sg g) = sp (get_spectral_field g).
Proof. unfold get_spectral_field, sp. cbn [scale_grid g_tv g_sv g_sf g_isenv]. destruct (g_isenv g); [|reflexivity]. cbn [negb]. destruct (g_sv g); [reflexivity|]. destruct (g_tv g); reflexivity. Qed.
Lemma set_t_sg g a : set_temporal_field (sg g) a = sp (set_temporal_field g a).
Proof. unfold set_temporal_field, sp. cbn [scale_grid g_tf g_dtype]. destruct (negb _); [reflexivity|]. destruct (negb _); reflexivity. Qed.
Lemma set_s_sg g a : set_spectral_field (sg g) a = sp (set_spectral_field g a).
Proof. unfold set_spectral_field, sp. cbn [scale_grid g_sf]. destruct (negb _); [reflexivity|]. destruct (negb _); reflexivity. Qed.

(** ** Energy and normalization *)
Lemma cell_sg d g j : cell_volume d (sg g) j = s ^ 3 * cell_volume d g j.
Proof.
  destruct d; cbn [cell_volume]; unfold cell_volume_rt, cell_volume_xyt; cbn [scale_grid g_dx g_axes]; rewrite ?axes_nth, !vget_ms, lastR_ms; ring.
Qed.
Lemma energy_sg d g a : energy_of d (sg g) a = s ^ 3 * energy_of d g a.
Proof.
  unfold energy_of. cbn [scale_grid g_isenv].
  assert (E : rsum3 (dim0 a) (dim1 a) (dim2 a) (fun i j k => cell_volume d (sg g) j * eps0 * Cmod (at3 a i j k) ^ 2) =
              s ^ 3 * rsum3 (dim0 a) (dim1 a) (dim2 a) (fun i j k => cell_volume d g j * eps0 * Cmod (at3 a i j k) ^ 2)).
  { unfold rsum3. rewrite <- rsum_scal_l. apply rsum_ext. intros i _. rewrite <- rsum_scal_l. apply rsum_ext. intros j _. rewrite <- rsum_scal_l. apply rsum_ext. intros k _.
    rewrite cell_sg. ring. }
  rewrite E. destruct (g_isenv g); ring.
Qed.
Definition mapres {A B} (f : A -> B) (r : res A) : res B := match r with Ok a => Ok (f a) | Err e => Err e end.
Lemma compute_sg d g : compute_laser_energy d (sg g) = (sg (fst (compute_laser_energy d g)), mapres (Rmult (s ^ 3)) (snd (compute_laser_energy d g))).
Proof.
  unfold compute_laser_energy. rewrite get_t_sg. unfold sp. cbn [fst snd]. destruct (snd (get_temporal_field g)); [|reflexivity].
  cbn [fst snd mapres]. rewrite energy_sg. reflexivity.
Qed.
Lemma s3_pos : 0 < s ^ 3. Proof. apply pow_lt, Hs. Qed.
Lemma norm_energy_sg d v g : normalize_energy d (option_map (Rmult (s ^ 3)) v) (sg g) = sp (normalize_energy d v g).
Proof.
  pose proof s3_pos as P. destruct v as [v|]; [|reflexivity]. cbn [option_map normalize_energy]. rewrite compute_sg. cbn [fst snd].
  destruct (snd (compute_laser_energy d g)) as [c|e]; [|reflexivity]. cbn [mapres].
  assert (E : Reqb (s ^ 3 * c) 0 = Reqb c 0).
  { unfold Reqb. destruct (Req_EM_T (s ^ 3 * c) 0) as [H|H], (Req_EM_T c 0) as [H'|H']; try reflexivity; exfalso.
    - apply Rmult_integral in H. destruct H; [lra|contradiction].
    - apply H. rewrite H'. ring. }
  rewrite E. destruct (Reqb c 0) eqn:Ec; [reflexivity|]. rewrite get_t_sg. unfold sp at 1 2 3. cbn [fst snd].
  destruct (snd (get_temporal_field (fst (compute_laser_energy d g)))); [|reflexivity].
  replace (s ^ 3 * v / (s ^ 3 * c)) with (v / c).
  - apply set_t_sg.
  - assert (c <> 0) by (intros ->; unfold Reqb in Ec; destruct (Req_EM_T 0 0); [discriminate|contradiction]). field. split; [assumption|apply s0].
Qed.
Definition scale_value (v : option R) (k : norm_kind) : option R := match k with KEnergy => option_map (Rmult (s ^ 3)) v | _ => v end.
Lemma norm_sg d v k g : normalize_grid d (scale_value v k) k (sg g) = sp (normalize_grid d v k g).
Proof.
  destruct k; cbn [normalize_grid scale_value].
  - apply norm_energy_sg.
  - destruct v as [v|]; [|reflexivity]. cbn [normalize_peak_field_amplitude]. rewrite get_t_sg. unfold sp at 1 2 3 4. cbn [fst snd].
    destruct (snd (get_temporal_field g)); [|reflexivity]. cbn zeta. destruct (Reqb _ 0); [reflexivity|]. apply set_t_sg.
  - destruct v as [v|]; [|reflexivity]. cbn [normalize_peak_intensity]. rewrite get_t_sg. unfold sp at 1 2 3 4. cbn [fst snd].
    destruct (snd (get_temporal_field g)); [|reflexivity]. cbn zeta. destruct (Reqb _ 0); [reflexivity|]. apply set_t_sg.
  - reflexivity.
Qed.

(** ** Lasers *)
Definition scale_attr (p : prop_attr) : prop_attr := match p with PropRt l => PropRt (map (scale_rt_prop s) l) | PropXyt p => PropXyt (scale_fft2_prop s p) end.
Definition sl (L : laser) : laser :=
  mkLaser (l_dim L) (sg (l_grid L)) (scale_profile s (l_prof L)) (l_iter L) (map (fun w => w / s) (l_omega L)) (option_map scale_attr (l_prop L)).
Definition slp {A} (r : laser * A) : laser * A := (sl (fst r), snd r).
Lemma set_grid_sl L g : set_grid (sl L) (sg g) = sl (set_grid L g). Proof. reflexivity. Qed.
Lemma set_prop_sl L p : set_prop (sl L) (option_map scale_attr p) = sl (set_prop L p). Proof. reflexivity. Qed.

Lemma optics_sl L e : apply_optics (sl L) (scale_optic s e) = slp (apply_optics L e).
Proof.
  unfold apply_optics. cbn [sl l_grid]. rewrite get_s_sg. unfold sp. cbn [fst snd]. destruct (snd (get_spectral_field (l_grid L))) as [a|x]; [|reflexivity].
  assert (E : optic_factor (sl L) (scale_optic s e) = optic_factor L e).
  { apply functional_extensionality; intros i. apply functional_extensionality; intros j. apply functional_extensionality; intros k.
    unfold optic_factor. cbn [sl l_grid l_omega l_dim l_prof scale_profile p_omega0]. rewrite !axis_at_sg, vget_div. unfold scale_optic.
    destruct (l_dim L); rewrite ?mul_div, ?div_mul; try reflexivity. f_equal. unfold Rdiv. ring. }
  rewrite E, set_s_sg. reflexivity.
Qed.
Lemma absorb_sl d nr g : absorb_boundary d nr (sg g) = sp (absorb_boundary d nr g).
Proof.
  unfold absorb_boundary. destruct nr as [[z|]|]; try reflexivity. destruct (Z.leb z 0); [reflexivity|]. rewrite get_t_sg. unfold sp at 1 2 3 4. cbn [fst snd].
  destruct (snd (get_temporal_field g)); [|reflexivity]. destruct (absorb_field _ _ _); [|reflexivity]. apply set_t_sg.
Qed.
Lemma shift_sg g d : shift_domain (sg g) (s * d) = sg (shift_domain g d).
Proof.
  unfold shift_domain. rewrite time_axis_sg. cbn [scale_grid g_lo g_hi g_axes]. rewrite !lastR_ms.
  replace (s * d / c_light) with (s * (d / c_light)) by (unfold Rdiv; ring). rewrite <- !Rmult_plus_distr_l, !set_last_ms.
  assert (E : map (fun t => t + s * (d / c_light)) (ms (time_axis g)) = ms (map (fun t => t + d / c_light) (time_axis g))).
  { rewrite !map_map. apply map_ext. intros t. ring. }
  rewrite E. unfold scale_grid, with_domain; cbn. f_equal. unfold set_last. rewrite removelast_map, map_app. reflexivity.
Qed.
Lemma phase_sl L d a : apply_phase (l_omega (sl L)) (p_omega0 (l_prof (sl L))) (s * d) a = apply_phase (l_omega L) (p_omega0 (l_prof L)) d a.
Proof.
  unfold apply_phase. f_equal. apply functional_extensionality; intros i. apply functional_extensionality; intros j. apply functional_extensionality; intros k.
  f_equal. unfold time_phase. cbn [sl l_omega l_prof scale_profile p_omega0]. rewrite vget_div. f_equal. f_equal.
  replace ((vget (l_omega L) k / s - p_omega0 (l_prof L) / s) * (s * d / c_light)) with ((vget (l_omega L) k - p_omega0 (l_prof L)) * (d / c_light) * (s * / s)) by (unfold Rdiv; ring).
  rewrite Rinv_r by apply s0. ring.
Qed.
Lemma finish_sl L d a : finish (sl L) (s * d) a = slp (finish L d a).
Proof.
  unfold finish. rewrite phase_sl. cbn [sl l_grid]. rewrite set_s_sg. unfold sp. cbn [fst snd].
  destruct (snd (set_spectral_field (l_grid L) _)); [|reflexivity]. rewrite shift_sg. reflexivity.
Qed.
Lemma overwrite_sg gn g : overwrite_time (sg gn) (sg g) = sg (overwrite_time gn g).
Proof.
  unfold overwrite_time. rewrite time_axis_sg. cbn [scale_grid g_lo g_hi g_axes]. rewrite !lastR_ms, !set_last_ms.
  unfold scale_grid, with_domain; cbn. f_equal. unfold set_last. rewrite removelast_map, map_app. reflexivity.
Qed.
Lemma map_kc om : map (fun w => w / c_light) (map (fun w => w / s) om) = map (fun k => k / s) (map (fun w => w / c_light) om).
Proof. rewrite !map_map. apply map_ext. intros w. unfold Rdiv. ring. Qed.
Lemma build_rt_sl r om rn modes b : build_rt (ms r) (map (fun w => w / s) om) (option_map ms rn) modes b = map (scale_rt_prop s) (build_rt r om rn modes b).
Proof. unfold build_rt. rewrite map_kc. rewrite (map_map _ (scale_rt_prop s)). reflexivity. Qed.
Lemma build_xyt_sl g om b : build_xyt (sg g) (map (fun w => w / s) om) b = scale_fft2_prop s (build_xyt g om b).
Proof.
  unfold build_xyt, scale_fft2_prop. cbn [scale_grid g_lo g_hi g_shape fp_x fp_y fp_k fp_backend fst snd]. rewrite !vget_ms, map_kc.
  f_equal; f_equal; ring.
Qed.
Section Solver.
Variable S : solvers.
Hypothesis HS : scale_free S.
Lemma step_mode_sl ps a d : step_mode S (map (scale_rt_prop s) ps) a (s * d) = step_mode S ps a d.
Proof.
  apply functional_extensionality; intros i. apply functional_extensionality; intros j. apply functional_extensionality; intros k.
  unfold step_mode. rewrite nth_error_map. destruct (nth_error ps i) as [p|]; [|reflexivity]. cbn [option_map]. apply (proj1 (HS s Hs)).
Qed.
Lemma propagate_sl L d nr ng b : propagate S (sl L) (s * d) nr (option_map sg ng) b = slp (propagate S L d nr ng b).
Proof.
  unfold propagate. cbn [sl l_grid l_dim l_prop l_omega]. change (g_isenv (sg (l_grid L))) with (g_isenv (l_grid L)).
  destruct (negb (g_isenv (l_grid L))); [reflexivity|]. rewrite absorb_sl. unfold sp. cbn [fst snd].
  destruct (snd (absorb_boundary (l_dim L) nr (l_grid L))) as [u|e]; [|reflexivity].
  rewrite !get_s_sg. unfold sp. cbn [fst snd].
  destruct (snd (get_spectral_field (fst (absorb_boundary (l_dim L) nr (l_grid L))))) as [a|e]; [|reflexivity].
  set (g1 := fst (get_spectral_field (fst (absorb_boundary (l_dim L) nr (l_grid L))))).
  assert (HX : let p := match l_prop (sl L) with Some (PropXyt p) => p | _ => build_xyt (l_grid (set_grid (sl L) (sg g1))) (l_omega (sl L)) b end in
     p = scale_fft2_prop s (match l_prop L with Some (PropXyt p) => p | _ => build_xyt (l_grid (set_grid L g1)) (l_omega L) b end)).
  { cbn zeta. cbn [sl l_prop l_omega set_grid l_grid]. destruct (l_prop L) as [[l|p]|]; cbn [option_map scale_attr]; try apply build_xyt_sl. reflexivity. }
  assert (HXYT : forall P : fft2_prop, finish (set_prop (set_grid (sl L) (sg g1)) (Some (PropXyt (scale_fft2_prop s P)))) (s * d)
      (mkArr (shp a) (dty a) (fun i j k => step_xyt S (scale_fft2_prop s P) (fun kk ii jj => at3 a ii jj kk) (s * d) k i j)) =
      slp (finish (set_prop (set_grid L g1) (Some (PropXyt P))) d (mkArr (shp a) (dty a) (fun i j k => step_xyt S P (fun kk ii jj => at3 a ii jj kk) d k i j)))).
  { intros P.
    assert (E : (fun i j k => step_xyt S (scale_fft2_prop s P) (fun kk ii jj => at3 a ii jj kk) (s * d) k i j) = (fun i j k => step_xyt S P (fun kk ii jj => at3 a ii jj kk) d k i j)).
    { apply functional_extensionality; intros i. apply functional_extensionality; intros j. apply functional_extensionality; intros k. apply (proj2 (HS s Hs)). }
    rewrite E. apply (finish_sl (set_prop (set_grid L g1) (Some (PropXyt P)))). }
  cbn zeta in HX. cbn [sl l_prop l_omega set_grid l_grid] in HX.
  destruct (l_dim L) eqn:Hd.
  - clear HX HXYT. destruct ng as [gn|]; cbn [option_map].
    + cbn [set_grid l_grid]. rewrite overwrite_sg. set (g2 := overwrite_time gn g1). change (g_modes (sg g2)) with (g_modes g2).
      destruct (g_modes g2) as [modes|]; [|reflexivity].
      cbn [scale_grid g_axes g_npoints]. rewrite !axes_nth, map_length. change (@Some (list R) (ms (nth 0 (g_axes g2) []))) with (option_map ms (Some (nth 0 (g_axes g2) []))).
      rewrite build_rt_sl. destruct (negb _); [reflexivity|]. destruct (Nat.ltb (dim0 a) (length modes)); [reflexivity|].
      rewrite step_mode_sl. apply (finish_sl (set_prop (set_prop (set_grid (set_grid L g1) g2) _) None)).
    + change (g_modes (l_grid (set_grid (sl L) (sg g1)))) with (g_modes (l_grid (set_grid L g1))). destruct (g_modes (l_grid (set_grid L g1))) as [modes|]; [|reflexivity].
      cbn [set_grid l_grid scale_grid g_axes]. rewrite axes_nth.
      assert (E : match option_map scale_attr (l_prop L) with Some (PropRt l) => l | Some (PropXyt _) => [] | None => build_rt (ms (nth 0 (g_axes g1) [])) (map (fun w => w / s) (l_omega L)) None modes b end =
         map (scale_rt_prop s) match l_prop L with Some (PropRt l) => l | Some (PropXyt _) => [] | None => build_rt (nth 0 (g_axes g1) []) (l_omega L) None modes b end).
      { destruct (l_prop L) as [[l|p]|]; cbn [option_map scale_attr]; try reflexivity. apply (build_rt_sl _ _ None). }
      rewrite E. set (ps := match l_prop L with Some (PropRt l) => l | Some (PropXyt _) => [] | None => _ end). rewrite map_length.
      destruct (Nat.ltb (length ps) (length modes)); [reflexivity|]. rewrite step_mode_sl. apply (finish_sl (set_prop (set_grid L g1) (Some (PropRt ps)))).
  - cbn [sl l_prop l_omega set_grid l_grid]. rewrite HX. apply HXYT.
  - cbn [sl l_prop l_omega set_grid l_grid]. rewrite HX. apply HXYT.
Qed.
Lemma unscale g : scale_grid (/ s) (sg g) = g.
Proof.
  assert (E : forall l, map (Rmult (/ s)) (ms l) = l).
  { intros l. rewrite map_map. rewrite <- (map_id l) at 2. apply map_ext. intros x. rewrite <- Rmult_assoc, Rinv_l by apply s0. ring. }
  assert (E2 : forall l, map (map (Rmult (/ s))) (map ms l) = l).
  { intros l. rewrite map_map. rewrite <- (map_id l) at 2. apply map_ext. exact E. }
  unfold scale_grid. cbn. rewrite !E, E2. destruct g; reflexivity.
Qed.
Lemma write_sl L w : write_to_file (sl L) (fun n g a => w n (scale_grid (/ s) g) a) = slp (write_to_file L w).
Proof.
  unfold write_to_file. cbn [sl l_grid]. rewrite get_t_sg. unfold sp. cbn [fst snd]. destruct (snd (get_temporal_field (l_grid L))) as [a|e]; [|reflexivity].
  rewrite unscale. cbn [l_iter]. destruct (w _ _ _); reflexivity.
Qed.
Lemma lstep_sl L o : lstep S (sl L) (scale_op s o) = slp (lstep S L o).
Proof.
  destruct o as [d nr ng b|e|v k|w].
  - apply propagate_sl.
  - apply optics_sl.
  - assert (E : scale_op s (OpNormalize v k) = OpNormalize (scale_value v k) k) by (destruct k; reflexivity).
    rewrite E. cbn [lstep]. unfold normalize. cbn [sl l_dim l_grid]. rewrite norm_sg. reflexivity.
  - apply write_sl.
Qed.
Lemma run_sl h : forall L, lrun S (sl L) (map (scale_op s) h) = sl (lrun S L h) /\ outcomes S (sl L) (map (scale_op s) h) = outcomes S L h.
Proof.
  induction h as [|o h IH]; intros L; [split; reflexivity|]. cbn [map lrun outcomes]. rewrite lstep_sl. cbn [slp fst snd].
  destruct (IH (fst (lstep S L o))) as (I1 & I2). split; [exact I1|]. rewrite I2. f_equal. destruct o as [| |v k|]; try reflexivity. destruct k; reflexivity.
Qed.
End Solver.

(** ** Construction *)
Lemma linspace_ms a b n : linspace (s * a) (s * b) n = ms (linspace a b n).
Proof.
  destruct n as [|[|n]]; [reflexivity|reflexivity|]. unfold linspace. rewrite map_map. apply map_ext. intros i. unfold Rdiv. ring.
Qed.
Lemma build_axes_ms lo hi np nd : forall i, build_axes nd i (ms lo) (ms hi) np = mapres (fun r => (map ms (fst r), ms (snd r))) (build_axes nd i lo hi np).
Proof.
  induction nd as [|nd IH]; intros i; [reflexivity|]. cbn [build_axes]. destruct (nth_error np i) as [n|]; [|reflexivity].
  rewrite !vget_ms, linspace_ms, nth_error_map. destruct (nth_error (linspace (vget lo i) (vget hi i) n) 1) as [a1|]; [|reflexivity].
  cbn [option_map]. rewrite IH. destruct (build_axes nd (Datatypes.S i) lo hi np) as [r|e]; [|reflexivity].
  cbn [mapres bind fst snd map]. rewrite vget_ms, <- Rmult_minus_distr_l. reflexivity.
Qed.
Lemma grid_init_ms d lo hi np nm b : grid_init d (ms lo) (ms hi) np nm b = mapres sg (grid_init d lo hi np nm b).
Proof.
  unfold grid_init. rewrite !map_length, build_axes_ms.
  destruct (pyassert _) as [u|]; [|reflexivity]. cbn [bind].
  destruct (pyassert (Nat.eqb (length lo) _)) as [u1|]; [|reflexivity]. cbn [bind]. destruct (pyassert (Nat.eqb (length hi) _)) as [u2|]; [|reflexivity]. cbn [bind].
  destruct (build_axes _ 0 lo hi np) as [r|]; [|reflexivity]. cbn [bind mapres fst snd].
  destruct d; try reflexivity. destruct nm as [M|]; [|reflexivity]. destruct (Z.ltb _ _); reflexivity.
Qed.
Lemma omega_sg g w : omega_axis (sg g) (w / s) = map (fun w => w / s) (omega_axis g w).
Proof.
  unfold omega_axis. rewrite map_map. cbn [scale_grid g_shape g_dx]. apply map_ext. intros k. rewrite lastR_ms. unfold fftfreq.
  unfold Rdiv. rewrite !Rinv_mult. ring.
Qed.
Lemma sample_xyt_sg g p : sample_xyt (sg g) (scale_profile s p) = sample_xyt g p.
Proof.
  unfold sample_xyt. cbn [scale_grid g_axes scale_profile p_dtype p_eval]. rewrite !axes_nth, !map_length. f_equal.
  apply functional_extensionality; intros i. apply functional_extensionality; intros j. apply functional_extensionality; intros k.
  change (mkGrid _ _ _ _ _ _ _ _ _ _ _ _ _ _) with (sg g). rewrite !axis_at_sg, !mul_div. reflexivity.
Qed.
Lemma sample_rt_sg g p n : sample_rt (sg g) (scale_profile s p) n = sample_rt g p n.
Proof.
  unfold sample_rt. cbn [scale_grid g_axes scale_profile p_dtype p_eval]. rewrite !axes_nth, !map_length. f_equal.
  apply functional_extensionality; intros i. apply functional_extensionality; intros j. apply functional_extensionality; intros k. cbn zeta.
  change (mkGrid _ _ _ _ _ _ _ _ _ _ _ _ _ _) with (sg g). rewrite !axis_at_sg, !Rmult_assoc, !mul_div. reflexivity.
Qed.
Lemma init_norm_sl L : init_normalize (sl L) = mapres sl (init_normalize L).
Proof.
  unfold init_normalize. cbn [sl l_prof scale_profile p_energy l_dim l_grid]. destruct (p_energy (l_prof L)) as [v|]; [|reflexivity]. cbn [option_map].
  rewrite norm_energy_sg. unfold sp. cbn [fst snd]. destruct (snd (normalize_energy (l_dim L) v (l_grid L))); reflexivity.
Qed.
Lemma laser_init_sl d lo hi np p nm nte : laser_init d (ms lo) (ms hi) np (scale_profile s p) nm nte = mapres sl (laser_init d lo hi np p nm nte).
Proof.
  unfold laser_init. rewrite grid_init_ms. destruct (grid_init d lo hi np (Some nm) true) as [g|]; [|reflexivity]. cbn [bind mapres].
  assert (E : forall g', mkLaser d (sg g') (scale_profile s p) 0%nat (omega_axis (sg g') (p_omega0 (scale_profile s p))) None = sl (mkLaser d g' p 0%nat (omega_axis g' (p_omega0 p)) None)).
  { intros g'. unfold sl. cbn [l_dim l_grid l_prof l_iter l_omega l_prop option_map scale_profile p_omega0]. rewrite omega_sg. reflexivity. }
  destruct d; [| |reflexivity].
  - destruct (Z.ltb _ _); [reflexivity|]. rewrite sample_rt_sg, set_t_sg. unfold sp. cbn [fst snd]. destruct (snd (set_temporal_field _ _)); [|reflexivity].
    rewrite E. apply init_norm_sl.
  - rewrite sample_xyt_sg, set_t_sg. unfold sp. cbn [fst snd]. destruct (snd (set_temporal_field _ _)); [|reflexivity]. rewrite E. apply init_norm_sl.
Qed.

(** ** What the user reads *)
Lemma with_field_sg {A B} g (F : grid -> ndarray -> res A) (q : A -> B) (F2 : grid -> ndarray -> res B) :
  (forall g f, F2 (sg g) f = mapres q (F g f)) -> with_field (sg g) F2 = (sg (fst (with_field g F)), mapres q (snd (with_field g F))).
Proof.
  intros H. unfold with_field. rewrite get_t_sg. unfold sp. cbn [fst snd]. destruct (snd (get_temporal_field g)); [|reflexivity].
  cbn [fst snd]. rewrite H. reflexivity.
Qed.
Lemma average1_scal n v w v' w' a : 0 < a -> forall c, (forall k, v' k = c * v k) -> (forall k, w' k = a * w k) -> average1 n v' w' = mapres (Rmult c) (average1 n v w).
Proof.
  intros Ha c Hv Hw. unfold average1.
  assert (E1 : rsum n w' = a * rsum n w) by (rewrite <- rsum_scal_l; apply rsum_ext; intros k _; apply Hw).
  assert (E2 : rsum n (fun k => v' k * w' k) = a * (c * rsum n (fun k => v k * w k))).
  { rewrite <- !rsum_scal_l. apply rsum_ext. intros k _. rewrite Hv, Hw. ring. }
  rewrite E1, E2. unfold Reqb. destruct (Req_EM_T (rsum n w) 0) as [H|H].
  - destruct (Req_EM_T (a * rsum n w) 0) as [H'|H']; [reflexivity|]. exfalso. apply H'. rewrite H. ring.
  - destruct (Req_EM_T (a * rsum n w) 0) as [H'|H'].
    + exfalso. apply Rmult_integral in H'. destruct H'; [lra|contradiction].
    + cbn [mapres]. f_equal. field. split; [exact H|lra].
Qed.
Lemma duration_sg d g : snd (get_duration d (sg g)) = mapres (Rmult s) (snd (get_duration d g)).
Proof.
  unfold get_duration. erewrite with_field_sg with (q := Rmult s); [reflexivity|].
  intros g' f. unfold weighted_std.
  assert (W : forall k, duration_weight d (sg g') f k = s ^ 3 * duration_weight d g' f k).
  { intros k. unfold duration_weight. rewrite <- rsum_scal_l. apply rsum_ext. intros i _. rewrite <- rsum_scal_l. apply rsum_ext. intros j _. rewrite cell_sg. ring. }
  rewrite (average1_scal (dim2 f) (fun k => vget (time_axis g') k) (duration_weight d g' f) _ _ (s ^ 3) s3_pos s).
  2: { intros k. rewrite time_axis_sg. apply vget_ms. }
  2: exact W.
  destruct (average1 (dim2 f) (fun k => vget (time_axis g') k) (duration_weight d g' f)) as [m|e]; [|reflexivity]. cbn [mapres bind].
  rewrite (average1_scal (dim2 f) (fun k => (vget (time_axis g') k - m) ^ 2) (duration_weight d g' f) _ _ (s ^ 3) s3_pos (s ^ 2)).
  2: { intros k. rewrite time_axis_sg, vget_ms. ring. }
  2: exact W.
  destruct (average1 (dim2 f) (fun k => (vget (time_axis g') k - m) ^ 2) (duration_weight d g' f)) as [v|e]; [|reflexivity]. cbn [mapres bind]. f_equal.
  rewrite sqrt_mult_alt by (apply pow2_ge_0). rewrite sqrt_pow2 by lra. reflexivity.
Qed.
Definition spec_pair (x : R * R) : R * R := (fst x / s, s ^ 4 * snd x).
Lemma Rleb_div a b : Rleb (a / s) (b / s) = Rleb a b.
Proof.
  assert (P : 0 < / s) by (apply Rinv_0_lt_compat, Hs). unfold Rleb. destruct (Rle_dec (a / s) (b / s)) as [H|H], (Rle_dec a b) as [H'|H']; try reflexivity; exfalso.
  - apply H'. apply (Rmult_le_reg_r (/ s)); assumption.
  - apply H. apply Rmult_le_compat_r; [lra|assumption].
Qed.
Lemma insert_sp x l : insert_om (spec_pair x) (map spec_pair l) = map spec_pair (insert_om x l).
Proof. induction l as [|y l IH]; [reflexivity|]. cbn [map insert_om]. unfold spec_pair at 1 2. cbn [fst]. rewrite Rleb_div. destruct (Rleb (fst x) (fst y)); [reflexivity|]. cbn [map]. rewrite <- IH. reflexivity. Qed.
Lemma sort_sp l : sort_om (map spec_pair l) = map spec_pair (sort_om l).
Proof. induction l as [|y l IH]; [reflexivity|]. cbn [map sort_om]. rewrite IH. apply insert_sp. Qed.
Lemma filter_sp l : filter (fun x => Rleb 0 (fst x)) (map spec_pair l) = map spec_pair (filter (fun x => Rleb 0 (fst x)) l).
Proof.
  induction l as [|y l IH]; [reflexivity|]. cbn [map filter]. unfold spec_pair at 1. cbn [fst]. replace 0 with (0 / s) at 1 by (unfold Rdiv; ring). rewrite Rleb_div, IH.
  destruct (Rleb 0 (fst y)); reflexivity.
Qed.
Lemma spectrum_sum_sg d g f k : spectrum_sum d (sg g) f k = s ^ 4 * spectrum_sum d g f k.
Proof.
  assert (D : forall i j, spectrum_density f (lastR (g_dx (sg g))) i j k = s ^ 2 * spectrum_density f (lastR (g_dx g)) i j k).
  { intros i j. unfold spectrum_density. cbn [scale_grid g_dx]. rewrite lastR_ms.
    assert (E : Cmod (spectrum_raw f (s * lastR (g_dx g)) i j k) = s * Cmod (spectrum_raw f (lastR (g_dx g)) i j k)).
    { unfold spectrum_raw. rewrite RtoC_mult, (Cmult_comm (RtoC s)), Cmult_assoc, Cmod_mult, Cmod_R, Rabs_pos_eq by lra. ring. }
    rewrite E. unfold Rdiv. ring. }
  assert (V : forall v, s ^ 3 * v / (s * lastR (g_dx g) * c_light) = s ^ 2 * (v / (lastR (g_dx g) * c_light))).
  { intros v. unfold Rdiv. rewrite !Rinv_mult. replace (s ^ 3 * v * (/ s * / lastR (g_dx g) * / c_light)) with (s * / s * (s ^ 2 * (v * (/ lastR (g_dx g) * / c_light)))) by ring.
    rewrite Rinv_r by apply s0. ring. }
  unfold spectrum_sum. cbn zeta. destruct d.
  - rewrite <- rsum_scal_l. apply rsum_ext. intros j _. rewrite D. rewrite (cell_sg Rt g j : cell_volume_rt (sg g) j = s ^ 3 * cell_volume_rt g j).
    cbn [scale_grid g_dx]. rewrite lastR_ms. unfold Rdiv in *. rewrite !Rmult_assoc. rewrite <- (Rmult_assoc (s ^ 3)).
    rewrite (Rmult_assoc (s ^ 3)). rewrite <- (Rmult_assoc s). rewrite <- (Rmult_assoc (s ^ 3)). rewrite V. ring.
  - rewrite <- rsum_scal_l. apply rsum_ext. intros i _. rewrite <- rsum_scal_l. apply rsum_ext. intros j _. rewrite D. rewrite (cell_sg Xyt g j : cell_volume_xyt (sg g) = s ^ 3 * cell_volume_xyt g).
    cbn [scale_grid g_dx]. rewrite lastR_ms. unfold Rdiv in *. rewrite !Rmult_assoc. rewrite <- (Rmult_assoc (s ^ 3)).
    rewrite (Rmult_assoc (s ^ 3)). rewrite <- (Rmult_assoc s). rewrite <- (Rmult_assoc (s ^ 3)). rewrite V. ring.
  - rewrite <- rsum_scal_l. apply rsum_ext. intros j _. rewrite D. rewrite (cell_sg Rt g j : cell_volume_rt (sg g) j = s ^ 3 * cell_volume_rt g j).
    cbn [scale_grid g_dx]. rewrite lastR_ms. unfold Rdiv in *. rewrite !Rmult_assoc. rewrite <- (Rmult_assoc (s ^ 3)).
    rewrite (Rmult_assoc (s ^ 3)). rewrite <- (Rmult_assoc s). rewrite <- (Rmult_assoc (s ^ 3)). rewrite V. ring.
Qed.
Lemma spectrum_sg d g w : snd (get_spectrum_sum d (sg g) (Some (w / s))) = mapres (map spec_pair) (snd (get_spectrum_sum d g (Some w))).
Proof.
  unfold get_spectrum_sum. erewrite with_field_sg with (q := map spec_pair); [reflexivity|].
  intros g' f. cbn [mapres]. f_equal.
  assert (E : spectrum_pairs d (sg g') f (w / s) = map spec_pair (spectrum_pairs d g' f w)).
  { unfold spectrum_pairs. cbn zeta. rewrite map_map. apply map_ext. intros k. unfold spec_pair. cbn [fst snd]. rewrite spectrum_sum_sg. f_equal.
    rewrite time_axis_sg, !vget_ms. cbn [scale_grid g_shape]. unfold fftfreq. rewrite <- Rmult_minus_distr_l. unfold Rdiv. rewrite !Rinv_mult. ring. }
  rewrite E, sort_sp, filter_sp. reflexivity.
Qed.
Lemma carrier_sg w0 x z : with_carrier (w0 / s) (s * x) z = with_carrier w0 x z.
Proof.
  unfold with_carrier. replace (w0 / s * (s * x)) with (w0 * x * (s * / s)) by (unfold Rdiv; ring). rewrite Rinv_r by apply s0. rewrite Rmult_1_r. reflexivity.
Qed.
Lemma extent_sg d g : full_extent d (sg g) = ms (full_extent d g).
Proof. destruct d; cbn [full_extent map scale_grid g_lo g_hi]; rewrite ?lastR_ms, ?vget_ms; repeat f_equal; ring. Qed.
Definition scale_image (r : option (ndarray * list R)) : option (ndarray * list R) := option_map (fun x => (fst x, ms (snd x))) r.
Lemma full_field_sl L theta sl' sa : snd (get_full_field (sl L) theta sl' sa) = mapres scale_image (snd (get_full_field L theta sl' sa)).
Proof.
  unfold get_full_field. cbn [snd sl l_grid]. erewrite with_field_sg with (q := scale_image); [reflexivity|].
  intros g f. unfold full_field. change (g_isenv (sg g)) with (g_isenv g). destruct (negb (g_isenv g)); [reflexivity|]. cbn [sl l_dim l_prof scale_profile p_omega0].
  change (g_modes (sg g)) with (g_modes g).
  assert (F : forall (P : nat -> nat -> C), (fun p k (_ : nat) => with_carrier (p_omega0 (l_prof L) / s) (vget (time_axis (sg g)) k) (P p k)) = (fun p k (_ : nat) => with_carrier (p_omega0 (l_prof L)) (vget (time_axis g) k) (P p k))).
  { intros P. apply functional_extensionality; intros p. apply functional_extensionality; intros k. apply functional_extensionality; intros q. rewrite time_axis_sg, vget_ms, carrier_sg. reflexivity. }
  destruct (l_dim L).
  - destruct (g_modes g); [|reflexivity]. cbn zeta. rewrite F, extent_sg. reflexivity.
  - destruct sa; [destruct (py_index _ _); [|reflexivity]|destruct (py_index _ _); [|reflexivity]|reflexivity]; cbn zeta.
    + rewrite (F (fun p k => at3 f n p k)), extent_sg. reflexivity.
    + rewrite (F (fun p k => at3 f p n k)), extent_sg. reflexivity.
  - destruct sa; [destruct (py_index _ _); [|reflexivity]|destruct (py_index _ _); [|reflexivity]|reflexivity]; cbn zeta.
    + rewrite (F (fun p k => at3 f n p k)), extent_sg. reflexivity.
    + rewrite (F (fun p k => at3 f p n k)), extent_sg. reflexivity.
Qed.
End Scale.
