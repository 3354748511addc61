(** Property theorems C27-C29 (openPMD output and input). *)
From Verif Require Import PyBase CSum NumPy NpMath GridModel GridSpec LaserSpec EnergyModel LaserModel LaserOps
  LaserInv LaserInitProofs HistoryProofs LaserExamples FromArrayModel AnalysisModel OpenPMDModel OpenPMDProofs.
Open Scope R_scope.

(** C27.  After any history without resampling: the mesh written carries the right axes, and its real
    modes are the reconstructed field at every angle; the written data determines every component. *)
Theorem C27_same_field :
  forall S d lo hi n1 nt p nm nte L0 h,
  d = Rt ->
  laser_init d lo hi [n1; nt] p nm nte = Ok L0 -> Forall no_resample h ->
  let L := lrun S L0 h in
  exists M a m,
    nm = Z.of_nat M /\ (1 <= M)%nat /\
    snd (get_temporal_field (l_grid L)) = Ok a /\ shp a = [(2 * M - 1)%nat; n1; nt] /\
    snd (build_mesh (l_dim L) (l_grid L) (p_lambda0 p) (p_pol p) false) = Ok m /\
    ms_geom m = Rt /\ ms_labels m = [AxT; AxR] /\ ms_omega m = 2 * PI * c_light / p_lambda0 p /\
    ms_pol m = p_pol p /\ ms_vec m = false /\
    ms_offset m = [nth 1 lo 0 + travelled S L0 h / c_light; nth 0 lo 0] /\
    ms_spacing m = [spacing (nth 1 lo 0) (nth 1 hi 0) nt; spacing (nth 0 lo 0) (nth 0 hi 0) n1] /\
    shp (ms_data m) = [(2 * M - 1)%nat; nt; n1] /\
    (forall r t theta, recon M (comp M a r t) theta =
       Cplus (at3 (ms_data m) 0 t r) (csum (M - 1) (fun q =>
         Cplus (Cmult (RtoC (cos (INR (Datatypes.S q) * theta))) (at3 (ms_data m) (2 * Datatypes.S q - 1) t r))
               (Cmult (RtoC (sin (INR (Datatypes.S q) * theta))) (at3 (ms_data m) (2 * Datatypes.S q) t r))))) /\
    (forall r t, comp M a r t 0 = at3 (ms_data m) 0 t r) /\
    (forall r t q, (1 <= q < M)%nat ->
       comp M a r t (Z.of_nat q) = Cmult (RtoC (/ 2)) (Cplus (at3 (ms_data m) (2 * q - 1) t r) (Cmult Ci (at3 (ms_data m) (2 * q) t r))) /\
       comp M a r t (- Z.of_nat q) = Cmult (RtoC (/ 2)) (Cminus (at3 (ms_data m) (2 * q - 1) t r) (Cmult Ci (at3 (ms_data m) (2 * q) t r)))).
Proof. exact c27. Qed.
Print Assumptions C27_same_field.
(** The same identity for whatever rt grid is written (resampled ones included). *)
Theorem C27_any_grid :
  forall g lam pol M a m, g_nmodes g = Some M -> (1 <= M)%nat ->
  snd (get_temporal_field g) = Ok a -> dim0 a = (2 * M - 1)%nat -> dty a = Complex128 ->
  snd (build_mesh Rt g lam pol false) = Ok m ->
  forall r t theta, recon M (comp M a r t) theta =
    Cplus (at3 (ms_data m) 0 t r) (csum (M - 1) (fun q =>
      Cplus (Cmult (RtoC (cos (INR (S q) * theta))) (at3 (ms_data m) (2 * S q - 1) t r))
            (Cmult (RtoC (sin (INR (S q) * theta))) (at3 (ms_data m) (2 * S q) t r)))).
Proof. exact c27_any_grid. Qed.
Print Assumptions C27_any_grid.
(** The same claim is false for a real field (is_envelope=False) on an rt grid: the sine components
    are imaginary combinations, and storing them in the real output array drops them.  Here a nonzero
    real field is written as zeros. *)
Theorem C27_real_grid_refuted : exists g0 g a m,
  grid_init Rt [0;-3] [2;4] [4;5]%nat (Some 2%Z) false = Ok g0 /\
  set_temporal_field g0 ex_odd = (g, Ok tt) /\ snd (get_temporal_field g) = Ok a /\
  arr_eq a (mkArr [3;4;5]%nat Float64 (fun q _ _ => match q with 1%nat => RtoC 1 | 2%nat => RtoC (-1) | _ => RtoC 0 end)) /\
  snd (build_mesh Rt g 1 (RtoC 1, RtoC 0) false) = Ok m /\
  shp (ms_data m) = [3;5;4]%nat /\ (forall q t r, (q < 3)%nat -> at3 (ms_data m) q t r = RtoC 0).
Proof. exact c27_real_lost. Qed.
Print Assumptions C27_real_grid_refuted.
(** A vortex (m = 1 only): written data is not zero, so the identity is not 0 = 0. *)
Example C27_nonvacuous : exists L0 M a m,
  laser_init Rt [0;-3] [2;4] [4;5]%nat ex_vortex 2 None = Ok L0 /\
  snd (get_temporal_field (l_grid L0)) = Ok a /\
  snd (build_mesh (l_dim L0) (l_grid L0) (p_lambda0 ex_vortex) (p_pol ex_vortex) false) = Ok m /\ M = 2%nat /\
  at3 (ms_data m) 1 0 3 = RtoC 2 /\ at3 (ms_data m) 2 0 3 = Copp (Cmult Ci (RtoC 2)).
Proof. exact c27_example. Qed.

(** C28 *)
Theorem C28_roundtrip :
  forall S lo hi n0 n1 nt p nm nte L0 h pol nm' nte' ,
  laser_init Xyt lo hi [n0;n1;nt] p nm nte = Ok L0 ->
  nth 0 lo 0 < nth 0 hi 0 -> nth 1 lo 0 < nth 1 hi 0 -> nth 2 lo 0 < nth 2 hi 0 -> p_lambda0 p <> 0 ->
  let L := lrun S L0 h in
  exists m p' L' a b,
    snd (build_mesh (l_dim L) (l_grid L) (p_lambda0 p) (p_pol p) false) = Ok m /\
    from_openpmd_xyt m pol = Ok p' /\ p_lambda0 p' = p_lambda0 p /\
    laser_init Xyt (g_lo (l_grid L)) (g_hi (l_grid L)) (g_npoints (l_grid L)) p' nm' nte' = Ok L' /\
    snd (get_temporal_field (l_grid L)) = Ok a /\ snd (get_temporal_field (l_grid L')) = Ok b /\
    arr_eq a b.
Proof. exact c28. Qed.
Print Assumptions C28_roundtrip.
Example C28_nonvacuous : exists L0, laser_init Xyt [-1;-2;-3] [1;2;4] [4;3;5]%nat (ex_prof None) 1 None = Ok L0 /\
  nth 0 [-1;-2;-3] 0 < nth 0 [1;2;4] 0 /\ nth 1 [-1;-2;-3] 0 < nth 1 [1;2;4] 0 /\ nth 2 [-1;-2;-3] 0 < nth 2 [1;2;4] 0 /\
  p_lambda0 (ex_prof None) <> 0 /\ (forall x y t, p_eval (ex_prof None) x y t <> RtoC 0).
Proof.
  destruct (ex_xyt None I) as (L & HL). exists L. split; [exact HL|]. simpl nth.
  repeat (split; [lra|]). split; [simpl; lra|]. apply ex_prof_neq0.
Qed.

(** C29: Cartesian data, complete. *)
Theorem C29_xyt :
  forall l tr isz a md nx ny nl,
  order3 l tr isz -> md_labels md = l ->
  shp a = (if tr then [nl; ny; nx] else [nx; ny; nl]) ->
  exists b t, reorder_array_xyt a md = Ok (b, [md_axis md AxX; md_axis md AxY; t]) /\ shp b = [nx; ny; nl] /\
    (isz = false -> t = md_axis md AxT /\ forall i j k, at3 b i j k = sample3 tr a i j k) /\
    (isz = true -> length t = length (md_axis md AxZ) /\
       (forall i j k, (k < nl)%nat -> at3 b i j k = sample3 tr a i j (nl - 1 - k)) /\
       (forall dz k, uniform_list (md_axis md AxZ) dz -> (k < length (md_axis md AxZ))%nat ->
          vget t k = (vget (md_axis md AxZ) (length (md_axis md AxZ) - 1)
                      - vget (md_axis md AxZ) (length (md_axis md AxZ) - 1 - k)) / c_light)).
Proof. exact c29_xyt. Qed.
Print Assumptions C29_xyt.
Theorem C29_xyt_reject :
  forall a md,
  (forall tr isz, ~ order3 (md_labels md) tr isz) -> reorder_array_xyt a md = Err AssertionError.
Proof. exact c29_xyt_reject. Qed.
Print Assumptions C29_xyt_reject.
(** Cylindrical data with an even number of radial samples.  Missing: odd numbers, see below. *)
Theorem C29_rt_even_partial :
  forall l tr isz a md h nl,
  order2 l tr isz -> md_labels md = l -> (1 <= h)%nat ->
  shp a = (if tr then [nl; (2 * h)%nat] else [(2 * h)%nat; nl]) -> length (md_axis md AxR) = (2 * h)%nat ->
  exists b r t, reorder_array_rt a md = Ok (b, [r; t]) /\ shp b = [h; nl] /\ length r = h /\
    (forall i, (i < h)%nat -> vget r i = vget (md_axis md AxR) (h + i)) /\
    (isz = false -> t = md_axis md AxT /\
       forall i k, at3 b i k 0 = Cmult (RtoC (/ 2)) (Cplus (sample2 tr a (h + i) k) (sample2 tr a (h - 1 - i) k))) /\
    (isz = true -> length t = length (md_axis md AxZ) /\
       (forall i k, (k < nl)%nat -> at3 b i k 0 =
          Cmult (RtoC (/ 2)) (Cplus (sample2 tr a (h + i) (nl - 1 - k)) (sample2 tr a (h - 1 - i) (nl - 1 - k)))) /\
       (forall dz k, uniform_list (md_axis md AxZ) dz -> (k < length (md_axis md AxZ))%nat ->
          vget t k = (vget (md_axis md AxZ) (length (md_axis md AxZ) - 1)
                      - vget (md_axis md AxZ) (length (md_axis md AxZ) - 1 - k)) / c_light)).
Proof. exact c29_rt. Qed.
Print Assumptions C29_rt_even_partial.
Theorem C29_rt_reject :
  forall a md,
  (forall tr isz, ~ order2 (md_labels md) tr isz) -> reorder_array_rt a md = Err AssertionError.
Proof. exact c29_rt_reject. Qed.
Print Assumptions C29_rt_reject.
(** REFUTED for odd numbers of radial samples: 5, 7, ... raise ValueError and 3 are silently mixed. *)
Theorem C29_rt_odd_refuted :
  forall a md h nl,
  md_labels md = [AxR; AxT] -> (2 <= h)%nat ->
  shp a = [(2 * h + 1)%nat; nl] -> reorder_array_rt a md = Err ValueError.
Proof. exact c29_rt_odd. Qed.
Print Assumptions C29_rt_odd_refuted.
Theorem C29_rt_three_refuted :
  forall a md nl,
  md_labels md = [AxR; AxT] -> shp a = [3%nat; nl] ->
  exists b r, reorder_array_rt a md = Ok (b, [r; md_axis md AxT]) /\ shp b = [2%nat; nl] /\
    forall k, at3 b 0 k 0 = Cmult (RtoC (/ 2)) (Cplus (at3 a 1 k 0) (at3 a 0 k 0)) /\
              at3 b 1 k 0 = Cmult (RtoC (/ 2)) (Cplus (at3 a 2 k 0) (at3 a 0 k 0)).
Proof. exact c29_rt_three. Qed.
Print Assumptions C29_rt_three_refuted.
Example C29_nonvacuous :
  (order3 [AxZ; AxY; AxX] true true /\ uniform_list [1; 3; 5] 2) /\ order2 [AxZ; AxR] true true /\
  (forall tr isz, ~ order3 [AxY; AxX; AxT] tr isz) /\ (forall tr isz, ~ order2 [AxX; AxT] tr isz).
Proof.
  split; [split; [constructor|]|].
  - intros i Hi. simpl in Hi. unfold vget. destruct i as [|[|[|i]]]; simpl; try lra; lia.
  - split; [constructor|]. split; intros tr isz H; inversion H.
Qed.
