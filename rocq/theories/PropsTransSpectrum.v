(** C106, continued: get_spectrum with all its options under the exchange of x and y. *)
From Coq Require Import FunctionalExtensionality.
From Verif Require Import PyBase CSum NumPy GridModel GridSpec GridObs EnergyModel LaserSpec LaserModel LaserOps LaserInv HistoryProofs LaserInitProofs LaserExamples WaveSolver AnalysisModel DataModel SpectrumModel ScaleProofs TransSpec TransProofs TransWave FrequencyProofs PropsTrans.
Open Scope R_scope.

(** A 1-D spectrum as it is; a spectrum per transverse point with x and y exchanged. *)
Definition transpose_spectrum (r : res (spout * list R)) : res (spout * list R) :=
  match r with
  | Ok (Sp3 a, om) => Ok (Sp3 (transpose_arr a), om)
  | r => r
  end.
Lemma gspectrum_tg g range bins w m : three g -> snd (get_spectrum Xyt (tg g) range bins w m) = transpose_spectrum (snd (get_spectrum Xyt g range bins w m)).
Proof.
  intros H. unfold get_spectrum, with_field. rewrite get_t_tg. unfold tp. cbn [fst snd]. destruct (snd (get_temporal_field g)) as [a|e] eqn:E; [|reflexivity].
  cbn [mapres fst snd]. pose proof (three_t g H) as H'. set (g' := fst (get_temporal_field g)) in *.
  assert (Fr : forall k, spectrum_freq (tg g') k = spectrum_freq g' k).
  { intros k. unfold spectrum_freq. rewrite time_axis_tg by exact H'. unfold lastN. cbn [transpose_grid g_shape]. rewrite last_sw by apply H'. reflexivity. }
  assert (Dz : lastR (g_dx (tg g')) = lastR (g_dx g')) by (unfold lastR; cbn [transpose_grid g_dx]; rewrite last_sw by apply H'; reflexivity).
  assert (Ke : forall w0, kept_env (tg g') (ta a) w0 = kept_env g' a w0).
  { intros w0. unfold kept_env. rewrite dim2_ta. f_equal. f_equal. apply map_ext. intros k. rewrite Fr. reflexivity. }
  assert (Kr : kept_real (tg g') (ta a) = kept_real g' a).
  { unfold kept_real. rewrite dim2_ta. apply map_ext. intros k. rewrite Fr. reflexivity. }
  assert (Raw : forall i j k, sp_raw (tg g') (ta a) i j k = sp_raw g' a j i k).
  { intros i j k. unfold sp_raw. rewrite Dz, dim2_ta. reflexivity. }
  assert (Den : forall i j k, sp_density (tg g') (ta a) i j k = sp_density g' a j i k) by (intros i j k; unfold sp_density; rewrite Raw; reflexivity).
  pose proof (cell_tg g' 0 H') as V. cbn [cell_volume] in V.
  destruct (dims_ta a (read_rank g a H E)) as (D0 & D1).
  assert (Val : forall kept, sp_values Xyt (tg g') (ta a) m kept =
    match sp_values Xyt g' a m kept with Sp3 b => Sp3 (transpose_arr b) | v => v end).
  { intros kept. unfold sp_values. rewrite Dz, D0, D1. destruct m.
    - f_equal. apply map_ext. intros k. rewrite rsum_swap. apply rsum_ext. intros i _. apply rsum_ext. intros j _. rewrite Den, V. reflexivity.
    - f_equal. apply map_ext. intros k. apply Den.
    - unfold transpose_arr. cbn [shp dty at3 swap12]. f_equal. f_equal. apply functional_extensionality. intros i. apply functional_extensionality. intros j. apply functional_extensionality. intros q. apply Raw.
    - unfold transpose_arr. cbn [shp dty at3 swap12]. f_equal. f_equal. apply functional_extensionality. intros i. apply functional_extensionality. intros j. apply functional_extensionality. intros q. rewrite Den. reflexivity. }
  assert (Rg : forall kept om, sp_range range bins (sp_values Xyt (tg g') (ta a) m kept) om = transpose_spectrum (sp_range range bins (sp_values Xyt g' a m kept) om)).
  { intros kept om. rewrite Val. destruct (sp_values Xyt g' a m kept) as [l|b]; unfold sp_range.
    - destruct range as [[a0 b0]|]; [|reflexivity]. destruct (seq_res _); reflexivity.
    - destruct range as [[a0 b0]|]; reflexivity. }
  change (g_isenv (tg g')) with (g_isenv g'). rewrite Kr. destruct (g_isenv g'); [destruct w as [w0|]; [rewrite Ke|reflexivity]|]; cbn [bind]; apply Rg.
Qed.

Theorem C106_spectrum :
  forall S lx ly lt hx hy ht nx ny nt p nm nte L h, transpose_solver S ->
  laser_init Xyt [lx; ly; lt] [hx; hy; ht] [nx; ny; nt] p nm nte = Ok L ->
  exists L', laser_init Xyt [ly; lx; lt] [hy; hx; ht] [ny; nx; nt] (transpose_profile p) nm nte = Ok L' /\
  forall range bins w m, snd (get_spectrum Xyt (l_grid (lrun S L' (map transpose_op h))) range bins w m) =
    transpose_spectrum (snd (get_spectrum Xyt (l_grid (lrun S L h)) range bins w m)).
Proof.
  intros S lx ly lt hx hy ht nx ny nt p nm nte L h HS H. exists (tl L). split; [exact (laser_init_sw _ _ _ _ _ _ _ H)|].
  destruct (laser_init_Inv _ _ _ _ _ _ _ _ H) as (g & n0 & n1 & nt' & Hg & A2 & A3 & _ & _ & _ & _ & _ & A9 & HI).
  destruct (run_tl S HS h L n0 n1 nt' HI A3) as (E & _ & I' & D'). rewrite E. intros range bins w m. exact (gspectrum_tg _ range bins w m (three_of _ _ _ _ I' D')).
Qed.
Print Assumptions C106_spectrum.

(** The lasers of [C106_nonvacuous]: a tilted elliptic pulse on an oblong box; a raw spectrum does differ by the exchange in
    general (the shapes are 4 x 3 and 3 x 4). *)
Example C106_spectrum_nonvacuous : exists L L',
  laser_init Xyt [-1;-2;-3] [1;2;4] [4;3;5]%nat (ex_prof (Some (Some 3))) 1 None = Ok L /\
  laser_init Xyt [-2;-1;-3] [2;1;4] [3;4;5]%nat (transpose_profile (ex_prof (Some (Some 3)))) 1 None = Ok L' /\
  exists a om a' om', snd (get_spectrum Xyt (l_grid L) None 7 (Some 1) MRaw) = Ok (Sp3 a, om) /\
    snd (get_spectrum Xyt (l_grid L') None 7 (Some 1) MRaw) = Ok (Sp3 a', om') /\ dim0 a = 4%nat /\ dim0 a' = 3%nat /\ om' = om /\
    forall i j k, at3 a' j i k = at3 a i j k.
Proof.
  destruct (ex_xyt (Some (Some 3)) ltac:(cbn; lra)) as (L & HL).
  destruct (C106_spectrum (wave_solvers 1) _ _ _ _ _ _ _ _ _ _ _ _ L [] (wave_solvers_transpose 1) HL) as (L' & HL' & HS).
  exists L, L'. split; [exact HL|]. split; [exact HL'|]. cbn [lrun map] in HS.
  destruct (laser_init_Inv _ _ _ _ _ _ _ _ HL) as (g & n0 & n1 & nt' & Hg & A2 & A3 & _ & _ & _ & _ & _ & A9 & HI).
  destruct (LtiMain.Inv_reads _ _ _ _ HI) as (f & _ & F1 & F2 & _).
  assert (Hs : g_shape g = [4;3;5]%nat).
  { unfold grid_init in Hg. cbn [pyassert bind length Nat.eqb] in Hg. destruct (build_axes 3 0 _ _ _); [|discriminate]. cbn [bind] in Hg. injection Hg as <-. reflexivity. }
  pose proof (gs_shape _ _ _ _ _ A9) as Hs'. rewrite Hs in Hs'. injection Hs' as <- <- <-.
  assert (R1 : exists om, snd (get_spectrum Xyt (l_grid L) None 7 (Some 1) MRaw) = Ok (Sp3 (mkArr [4;3;length om]%nat Complex128
      (fun i j q => sp_raw (fst (get_temporal_field (l_grid L))) f i j (nth q (map snd (if g_isenv (fst (get_temporal_field (l_grid L))) then kept_env (fst (get_temporal_field (l_grid L))) f 1 else kept_real (fst (get_temporal_field (l_grid L))) f)) 0%nat))), om)).
  { unfold get_spectrum. rewrite (with_field_snd _ _ f F1). unfold sp_values, dim0, dim1. rewrite F2. cbn [nth].
    destruct (g_isenv (fst (get_temporal_field (l_grid L)))); cbn [bind sp_range]; eexists; do 2 f_equal; rewrite !map_length; reflexivity. }
  destruct R1 as (om & R1). specialize (HS None 7%nat (Some 1) MRaw). rewrite R1 in HS. cbn [transpose_spectrum] in HS.
  do 4 eexists. split; [exact R1|]. split; [exact HS|]. split; [reflexivity|]. split; [reflexivity|]. split; reflexivity.
Qed.
