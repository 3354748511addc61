(** C106: x and y are treated alike: exchanging them in the constructor arguments, the profile and the optical elements
    exchanges them in every result, after every history of a Cartesian laser. *)
From Coq Require Import FunctionalExtensionality.
From Verif Require Import PyBase CSum NumPy GridModel GridSpec EnergyModel LaserSpec LaserModel LaserOps LaserInv HistoryProofs LaserInitProofs LaserExamples LtiSpec WaveSolver AnalysisModel ScaleProofs TransSpec TransProofs TransWave.
Open Scope R_scope.

Theorem C106_transpose :
  forall S lx ly lt hx hy ht nx ny nt p nm nte L h, transpose_solver S ->
  laser_init Xyt [lx; ly; lt] [hx; hy; ht] [nx; ny; nt] p nm nte = Ok L ->
  exists L', laser_init Xyt [ly; lx; lt] [hy; hx; ht] [ny; nx; nt] (transpose_profile p) nm nte = Ok L' /\
  let K := lrun S L h in let K' := lrun S L' (map transpose_op h) in
  outcomes S L' (map transpose_op h) = outcomes S L h /\
  (exists ax ay at', g_axes (l_grid K) = [ax; ay; at'] /\ g_axes (l_grid K') = [ay; ax; at']) /\
  snd (compute_laser_energy Xyt (l_grid K')) = snd (compute_laser_energy Xyt (l_grid K)) /\
  snd (get_duration Xyt (l_grid K')) = snd (get_duration Xyt (l_grid K)) /\
  (forall w, snd (get_spectrum_sum Xyt (l_grid K') w) = snd (get_spectrum_sum Xyt (l_grid K) w)) /\
  (exists f f', snd (get_temporal_field (l_grid K)) = Ok f /\ shp f = [nx; ny; nt] /\
    snd (get_temporal_field (l_grid K')) = Ok f' /\ shp f' = [ny; nx; nt] /\ forall i j k, at3 f' j i k = at3 f i j k) /\
  (forall theta s e, snd (get_full_field K' theta s SliceX) = Err e <-> snd (get_full_field K theta s SliceY) = Err e) /\
  (forall theta s img e, snd (get_full_field K theta s SliceY) = Ok (Some (img, e)) ->
     exists e', snd (get_full_field K' theta s SliceX) = Ok (Some (img, e'))).
Proof.
  intros S lx ly lt hx hy ht nx ny nt p nm nte L h HS H. exists (tl L). split; [exact (laser_init_sw _ _ _ _ _ _ _ H)|].
  destruct (laser_init_Inv _ _ _ _ _ _ _ _ H) as (g & n0 & n1 & nt' & Hg & A2 & A3 & _ & _ & _ & _ & _ & A9 & HI).
  assert (Hs : g_shape g = [nx; ny; nt]).
  { unfold grid_init in Hg. cbn [pyassert bind length Nat.eqb] in Hg. destruct (build_axes 3 0 _ _ _); [|discriminate]. cbn [bind] in Hg. injection Hg as <-. reflexivity. }
  pose proof (gs_shape _ _ _ _ _ A9) as Hs'. rewrite Hs in Hs'. injection Hs' as <- <- <-.
  destruct (run_tl S HS h L nx ny nt HI A3) as (E & O & I' & D'). cbn zeta. rewrite E, O. clear E.
  pose proof (three_of _ _ _ _ I' D') as H3. cbn [tl l_grid].
  split; [reflexivity|]. split.
  { destruct (len3 _ (th_axes _ H3)) as (a & b & c & Ex). exists a, b, c. split; [exact Ex|]. cbn [transpose_grid g_axes]. rewrite Ex. reflexivity. }
  rewrite (compute_tg _ H3), (duration_tg _ H3). split; [reflexivity|]. split; [reflexivity|]. split; [intros w; apply (spectrum_tg _ w H3)|]. split.
  { destruct (LtiMain.Inv_reads _ _ _ _ I') as (f & _ & F1 & F2 & _). exists f, (transpose_arr f). split; [exact F1|]. split; [exact F2|].
    rewrite get_t_tg. unfold tp. cbn [snd]. unfold GridObs.tread in F1. rewrite F1. split; [reflexivity|]. split; [cbn [transpose_arr shp]; rewrite F2; reflexivity|]. reflexivity. }
  assert (X : forall theta s, image (snd (get_full_field (tl (lrun S L h)) theta s SliceX)) = image (snd (get_full_field (lrun S L h) theta s SliceY)))
    by (intros theta s; exact (proj1 (full_field_tl (lrun S L h) theta s D' H3))).
  change (mkLaser (l_dim (lrun S L h)) _ _ _ _ _) with (tl (lrun S L h)) in *. split.
  - intros theta s e. specialize (X theta s). unfold image in X.
    destruct (snd (get_full_field (tl (lrun S L h)) theta s SliceX)), (snd (get_full_field (lrun S L h) theta s SliceY)); cbn [mapres] in X; split; congruence.
  - intros theta s img e Hi. specialize (X theta s). rewrite Hi in X. unfold image in X. cbn [mapres option_map fst] in X.
    destruct (snd (get_full_field (tl (lrun S L h)) theta s SliceX)) as [[[img' e']|]|]; cbn [mapres option_map fst] in X; [|discriminate|discriminate].
    injection X as ->. exists e'. reflexivity.
Qed.
Print Assumptions C106_transpose.

(** A pulse symmetric under exchange of x and y, on a square grid, through elements symmetric under the exchange, stays so. *)
Theorem C106_symmetric :
  forall S l lt h0 ht n nt p nm nte L h, transpose_solver S ->
  (forall x y t, p_eval p y x t = p_eval p x y t) ->
  (forall e x y w w0, In (OpOptics e) h -> e y x w w0 = e x y w w0) -> (forall w, ~ In (OpWrite w) h) ->
  laser_init Xyt [l; l; lt] [h0; h0; ht] [n; n; nt] p nm nte = Ok L ->
  exists f, snd (get_temporal_field (l_grid (lrun S L h))) = Ok f /\ shp f = [n; n; nt] /\ forall i j k, at3 f j i k = at3 f i j k.
Proof.
  intros S l lt h0 ht n nt p nm nte L h HS Hp Ho Hw H.
  assert (E : map transpose_op h = h).
  { rewrite <- (map_id h) at 2. apply map_ext_in. intros [d0 nr ng b|e|v kd|w] Hin; cbn [transpose_op]; try reflexivity; [|destruct (Hw w Hin)]. f_equal.
    apply functional_extensionality. intros x. apply functional_extensionality. intros y. apply functional_extensionality. intros w.
    apply functional_extensionality. intros w0. apply Ho, Hin. }
  assert (Ep : transpose_profile p = p).
  { destruct p as [w0 l0 pol en dt ev]. unfold transpose_profile. cbn in *. f_equal.
    apply functional_extensionality. intros x. apply functional_extensionality. intros y. apply functional_extensionality. intros t. apply Hp. }
  destruct (C106_transpose S l l lt h0 h0 ht n n nt p nm nte L h HS H) as (L' & H' & _ & _ & _ & _ & _ & (f & f' & F1 & F2 & F3 & _ & F5) & _).
  rewrite Ep, H in H'. injection H' as <-. rewrite E, F1 in F3. injection F3 as <-. exists f. split; [exact F1|]. split; [exact F2|]. exact F5.
Qed.
Print Assumptions C106_symmetric.

(** The exact angular-spectrum method is such a solver. *)
Theorem C106_solver : forall kr0, transpose_solver (wave_solvers kr0).
Proof. exact wave_solvers_transpose. Qed.
Print Assumptions C106_solver.

(** A tilted elliptic pulse on an oblong box, a cylindrical lens, absorbing layers, failing calls; and a symmetric pulse. *)
Definition c106_history : list lop :=
  [OpOptics (fun x y w w0 => cis (- w * x ^ 2 + y)); OpNormalize (Some 3) KField; OpPropagate 3 (Some (PyInt 1)) None 0%nat;
   OpNormalize (Some 3) KIntensity; OpPropagate 1 (Some (PyInt 9)) None 0%nat; OpNormalize (Some 2) KEnergy; OpPropagate (-1) None None 1%nat].
Definition c106_round : profile :=
  mkProfile (2 * PI * c_light) 1 (RtoC 1, RtoC 0) (Some (Some 3)) Complex128
    (fun x y t => Cmult (RtoC (exp (- (x ^ 2 + y ^ 2 + t ^ 2)))) (cis (x * y + t))).
Example C106_nonvacuous : transpose_solver (wave_solvers 1) /\
  (exists L, laser_init Xyt [-1;-2;-3] [1;2;4] [4;3;5]%nat (ex_prof (Some (Some 3))) 1 None = Ok L /\ length (outcomes (wave_solvers 1) L c106_history) = 7%nat) /\
  p_eval (transpose_profile (ex_prof None)) 1 0 0 <> p_eval (ex_prof None) 1 0 0 /\
  (exists L, laser_init Xyt [-1;-1;-3] [1;1;4] [4;4;5]%nat c106_round 1 None = Ok L) /\
  (forall x y t, p_eval c106_round y x t = p_eval c106_round x y t).
Proof.
  split; [apply wave_solvers_transpose|]. split.
  { destruct (ex_xyt (Some (Some 3)) ltac:(cbn; lra)) as (L & HL). exists L. split; [exact HL | reflexivity]. }
  split. { intros H. apply (f_equal Cmod) in H. unfold ex_prof, transpose_profile in H. cbn [p_eval] in H.
    rewrite !Cmod_mult, !Cmod_cis, !Cmod_R, !Rmult_1_r, !Rabs_pos_eq in H by (apply Rlt_le, exp_pos). apply exp_inv in H. lra. }
  split. { apply xyt_construct_ok; simpl; try lia; try lra; try reflexivity. }
  intros x y t. cbn [p_eval c106_round]. f_equal; [f_equal; f_equal; ring | f_equal; ring].
Qed.
