(** Properties C70-C72: get_spectrum. *)
From Coq Require Import Sorting.Sorted.
From Verif Require Import PyBase CSum NumPy GridModel GridSpec GridProofs LaserSpec EnergyModel LaserModel OpticsModel LaserOps AnalysisModel
  AnalysisSpec HistoryProofs LaserExamples SpectrumModel FullSpectrumSpec FullSpectrumProofs.
Open Scope R_scope.

(** The theorems below apply to every grid and every laser ([sampled] holds): a grid after any sequence of
    its methods, once a field has been set ... *)
Theorem C70_grids :
  forall d lo hi np nm b g0 h f,
  grid_init d lo hi np nm b = Ok g0 -> length np = ndims_of d ->
  let q := (ndims_of d - 1)%nat in
  nth q lo 0 < nth q hi 0 ->
  snd (get_temporal_field (grun5 g0 h)) = Ok f ->
  sampled (grun5 g0 h) f (nth q np 0%nat) (spacing (nth q lo 0) (nth q hi 0) (nth q np 0%nat)).
Proof. exact c70_sampled. Qed.
Print Assumptions C70_grids.
(** ... and a laser after any history. *)
Theorem C70_lasers :
  forall S d lo hi np p nm nte L0 h,
  laser_init d lo hi np p nm nte = Ok L0 -> length np = ndims_of d -> (d = Xyt \/ Forall no_resample h) ->
  let q := (ndims_of d - 1)%nat in
  nth q lo 0 < nth q hi 0 ->
  exists f, g_isenv (l_grid (lrun S L0 h)) = true /\
    sampled (l_grid (lrun S L0 h)) f (nth q np 0%nat) (spacing (nth q lo 0) (nth q hi 0) (nth q np 0%nat)).
Proof. exact c70_sampled_laser. Qed.
Print Assumptions C70_lasers.
(** C70, envelopes: every method returns the amplitudes at all non-negative frequencies of the discrete spectrum, in increasing order. *)
Theorem C70_envelope_partial :
  forall d g f N dt w0,
  sampled g f N dt -> g_isenv g = true ->
  exists om, StronglySorted Rlt om /\
    (forall w, In w om <-> 0 <= w /\ dft_freq N dt (w0 - w)) /\
    forall m bins, exists v, snd (get_spectrum d g None bins (Some w0) m) = Ok (v, om) /\
      is_spectrum d g f m (fun i j w => Cmult (RtoC (/ 2)) (fourier N dt (at3 f i j) (w - w0))) om v.
Proof. exact c70_env. Qed.
Print Assumptions C70_envelope_partial.
Theorem C70_omega0_required :
  forall d g f r bins m,
  snd (get_temporal_field g) = Ok f -> g_isenv g = true -> snd (get_spectrum d g r bins None m) = Err AssertionError.
Proof. exact c70_env_no_omega0. Qed.
Print Assumptions C70_omega0_required.
(** C70, real fields: the frequencies 2 pi q / (N dt), q < N/2 (rounded down). *)
Theorem C70_real :
  forall d g f N dt o,
  sampled g f N dt -> g_isenv g = false ->
  exists om, om = map (fun q => 2 * PI * INR q / (INR N * dt)) (seq 0 (N / 2)) /\
    forall m bins, exists v, snd (get_spectrum d g None bins o m) = Ok (v, om) /\
      is_spectrum d g f m (fun i j w => fourier N dt (at3 f i j) (- w)) om v.
Proof. exact c70_real. Qed.
Print Assumptions C70_real.
(** C70: the call of C33 is the default call. *)
Theorem C70_default :
  forall d g o bins,
  g_isenv g = true ->
  fst (get_spectrum d g None bins o MSum) = fst (get_spectrum_sum d g o) /\
  snd (get_spectrum d g None bins o MSum) = bind (snd (get_spectrum_sum d g o)) (fun l => Ok (Sp1 (map snd l), map fst l)).
Proof. exact c70_default. Qed.
Print Assumptions C70_default.
(** C70: reading a spectrum does not change the grid. *)
Theorem C70_read_only :
  forall d g r bins o m, same_contents g (fst (get_spectrum d g r bins o m)).
Proof. exact c70_frame. Qed.
Print Assumptions C70_read_only.
(** C70: the Fourier sum of the electric field Re(env exp(-i w0 t)) with exp(-i w t) (the documented convention)
    is the complex conjugate of the raw spectrum of the envelope, plus the counter-rotating term. *)
Theorem C70_convention_partial :
  forall N dt (x : nat -> C) w0 w,
  fourier N dt (fun n => RtoC (Re (Cmult (x n) (cis (- (w0 * (INR n * dt))))))) (- w) =
  Cplus (Cconj (Cmult (RtoC (/ 2)) (fourier N dt x (w - w0)))) (Cmult (RtoC (/ 2)) (fourier N dt x (- w - w0))).
Proof. exact c70_convention. Qed.
Print Assumptions C70_convention_partial.
(** REFUTED: the raw spectrum of an envelope is not the documented transform of the field it represents. *)
Theorem C70_raw_refuted :
  exists g f om a q, sampled g f 4 1 /\ g_isenv g = true /\
  snd (get_spectrum Xyt g None 20 (Some (PI / 2)) MRaw) = Ok (Sp3 a, om) /\ (q < length om)%nat /\
  at3 a 0%nat 0%nat q <> fourier 4 1 (fun n => RtoC (Re (Cmult (at3 f 0%nat 0%nat n) (cis (- (PI / 2 * (INR n * 1))))))) (- nth q om 0).
Proof. exact c70_raw_refuted. Qed.
Print Assumptions C70_raw_refuted.
Example C70_nonvacuous : (exists g f, sampled g f 4 1 /\ g_isenv g = true /\ at3 f 0 0 0 <> RtoC 0) /\
  (exists g f, sampled g f 2 1 /\ g_isenv g = false /\ at3 f 0 0 0 <> RtoC 0) /\
  (exists S L0 h, laser_init Xyt [-1;-2;-3] [1;2;4] [4;3;5]%nat (ex_prof None) 1 None = Ok L0 /\ exists f, sampled (l_grid (lrun S L0 h)) f 5 (spacing (-3) 4 5)).
Proof.
  split; [|split].
  - destruct spw_env_grid as (g0 & _ & He & f & Hs & _ & Hf). do 2 eexists. split; [exact Hs|]. split; [exact He|]. rewrite Hf. intros Q. injection Q. lra.
  - destruct spw_real_grid as (g0 & _ & He & _ & _ & f & Hs & _ & Hf). do 2 eexists. split; [exact Hs|]. split; [exact He|]. rewrite Hf. intros Q. injection Q. lra.
  - destruct (ex_xyt None I) as (L & HL). exists id_solvers, L, []. split; [exact HL|].
    destruct (c70_sampled_laser id_solvers Xyt _ _ _ _ _ _ _ [] HL eq_refl (or_introl eq_refl)) as (f & _ & Hs); [simpl; lra|]. exists f. exact Hs.
Qed.

(** C71: the spectrum of a real field (xyt, or rt with one mode) times the frequency step adds up to the energy, plus half the
    zero-frequency term, minus half (N even) or all (N odd) of the term at the first frequency left out. *)
Theorem C71_energy_partial :
  forall d g f N dt e bins o, sampled g f N dt -> g_isenv g = false ->
  let n0 := nth 0 (shp f) 0%nat in let n1 := nth 1 (shp f) 0%nat in
  (forall i j k, (i < n0)%nat -> (j < n1)%nat -> (k < N)%nat -> Im (at3 f i j k) = 0) -> (d = Xyt \/ n0 = 1%nat) ->
  snd (compute_laser_energy d g) = Ok e ->
  let dw := 2 * PI / (INR N * dt) in
  let W w := rsum n0 (fun i => rsum n1 (fun j => area d g j * density (fourier N dt (at3 f i j) (- w)))) in
  exists l om, snd (get_spectrum d g None bins o MSum) = Ok (Sp1 l, om) /\
    fold_right Rplus 0 l * dw = e + dw / 2 * W 0 - (if Nat.even N then / 2 else 1) * dw * W (INR (N / 2) * dw).
Proof. exact c71. Qed.
Print Assumptions C71_energy_partial.
(** REFUTED in general: a constant real field has a spectrum with twice its energy. *)
Theorem C71_refuted :
  exists g f e l om, sampled g f 2 1 /\ g_isenv g = false /\ (forall i j k, Im (at3 f i j k) = 0) /\
  snd (compute_laser_energy Xyt g) = Ok e /\ snd (get_spectrum Xyt g None 20 None MSum) = Ok (Sp1 l, om) /\
  fold_right Rplus 0 l * (2 * PI / (INR 2 * 1)) = 2 * e /\ 0 < e.
Proof. exact c71_refuted. Qed.
Print Assumptions C71_refuted.
Example C71_nonvacuous : exists g f e, sampled g f 2 1 /\ g_isenv g = false /\ (forall i j k, Im (at3 f i j k) = 0) /\
  snd (compute_laser_energy Xyt g) = Ok e /\ 0 < e.
Proof. destruct c71_refuted as (g & f & e & l & om & H1 & H2 & H3 & H4 & H5 & H6 & H7). exists g, f, e. auto. Qed.

(** C72: with a frequency range, the 1-D spectra are the piecewise linear interpolation of the unrestricted ones, continued
    by their end values. *)
Theorem C72_range :
  forall d g f N dt o m bins a b l om, sampled g f N dt -> snd (get_spectrum d g None bins o m) = Ok (Sp1 l, om) -> om <> [] ->
  exists r, snd (get_spectrum d g (Some (a, b)) bins o m) = Ok (Sp1 r, linspace a b bins) /\ length r = bins /\
    forall q, (q < bins)%nat -> let w := nth q (linspace a b bins) 0 in
      (w <= nth 0 om 0 -> nth q r 0 = nth 0 l 0) /\
      (nth (length om - 1) om 0 <= w -> nth q r 0 = nth (length om - 1) l 0) /\
      (forall i, (S i < length om)%nat -> nth i om 0 <= w <= nth (S i) om 0 ->
         nth q r 0 = nth i l 0 + (nth (S i) l 0 - nth i l 0) * ((w - nth i om 0) / (nth (S i) om 0 - nth i om 0))).
Proof. exact c72. Qed.
Print Assumptions C72_range.
Theorem C72_points :
  forall a b n q, (2 <= n)%nat -> (q < n)%nat -> nth q (linspace a b n) 0 = a + INR q * ((b - a) / (INR n - 1)).
Proof. exact c72_points. Qed.
Print Assumptions C72_points.
(** C72: the range is ignored by "raw" (and by unknown methods), and no kept frequency is an error. *)
Theorem C72_raw :
  forall d g o m bins r v om, snd (get_spectrum d g None bins o m) = Ok (v, om) -> m = MRaw \/ m = MOther ->
  snd (get_spectrum d g (Some r) bins o m) = Ok (v, om).
Proof. exact c72_raw. Qed.
Print Assumptions C72_raw.
Theorem C72_empty :
  forall d g o m bins a b l, snd (get_spectrum d g None bins o m) = Ok (Sp1 l, []) -> (0 < bins)%nat ->
  snd (get_spectrum d g (Some (a, b)) bins o m) = Err ValueError.
Proof. exact c72_empty. Qed.
Print Assumptions C72_empty.
Example C72_nonvacuous : exists g f l om, sampled g f 4 1 /\ snd (get_spectrum Xyt g None 20 (Some (PI / 2)) MSum) = Ok (Sp1 l, om) /\ om <> [].
Proof.
  destruct spw_env_grid as (g0 & _ & He & f & Hs & _ & Hf). exists (grun5 g0 [Call (SetT spw_env)]), f.
  destruct (c70_env Xyt _ f 4 1 (PI / 2) Hs He) as (om & _ & HI & HR). destruct (HR MSum 20%nat) as (v & Hv & Hsp).
  destruct v as [l|a]; [|contradiction]. exists l, om. split; [exact Hs|]. split; [exact Hv|]. intros ->.
  apply (HI (PI / 2)). pose proof PI_RGT_0. split; [lra|]. exists 0%Z. split; [simpl; lia|]. simpl. field.
Qed.
