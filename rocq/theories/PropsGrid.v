(** Property theorems C01-C06 (Grid). *)
From Verif Require Import PyBase NumPy NpFFT FFTProofs GridModel GridSpec GridProofs GridHeap GridHeapProofs.
Open Scope R_scope.

(** C01: every call of every history on an envelope grid returns what the last accepted set
    before it dictates (see GridSpec.out_ok). *)
Theorem C01_cache_coherent :
  forall d lo hi np nm g, grid_init d lo hi np nm true = Ok g ->
  forall (h : list gop) n o, nth_error h n = Some o ->
  exists r, nth_error (gouts g h) n = Some r /\ out_ok (g_shape g) (firstn n h) o r.
Proof. exact cache_coherent. Qed.
Print Assumptions C01_cache_coherent.

Example C01_nonvacuous :
  exists g, grid_init Rt [0;0] [1;1] [3;4]%nat (Some 2%Z) true = Ok g /\
            g_shape g = [3;3;4]%nat /\
            acceptable (g_shape g) (mkArr [3;3;4]%nat Complex128 (fun _ _ _ => Ci)) = true.
Proof. eexists; split; [reflexivity|split; reflexivity]. Qed.

(** C02: the heap-level grid behaves as if arrays were passed by value: same exceptions, and the
    caller's arrays always have the contents they have under by-value semantics ... *)
Theorem C02_isolation :
  forall g ops, h_view (hrun (h_init g) ops) = v_arrs (vrun (mkV g []) ops) /\
                houts (h_init g) ops = vouts (mkV g []) ops.
Proof. exact (fun g ops => conj (proj2 (proj2 (proj1 (Rel_run _ _ ops (Rel_init g)))))
                                (proj2 (Rel_run _ _ ops (Rel_init g)))). Qed.
Print Assumptions C02_isolation.

(** ... no grid call modifies an array the caller holds ... *)
Theorem C02_calls_preserve_caller_arrays :
  forall g ops o, (forall i f, o <> CWrite i f) ->
  let h := hrun (h_init g) ops in
  firstn (length (h_view h)) (h_view (fst (hstep h o))) = h_view h.
Proof. exact calls_preserve_held. Qed.
Print Assumptions C02_calls_preserve_caller_arrays.

(** ... and in-place writes by the caller to any arrays it holds, at any time, do not change the
    outcome nor the array returned by the next get. *)
Theorem C02_caller_writes_invisible :
  forall g ops ws o, Forall is_write ws -> o = CGetT \/ o = CGetS ->
  let h := hrun (h_init g) ops in
  snd (hstep (hrun h ws) o) = snd (hstep h o) /\
  (snd (hstep h o) = Ok tt ->
   last (h_view (fst (hstep (hrun h ws) o))) (zeros [] Float64) =
   last (h_view (fst (hstep h o))) (zeros [] Float64)).
Proof. exact writes_invisible. Qed.
Print Assumptions C02_caller_writes_invisible.

Example C02_nonvacuous :
  exists g, grid_init Xyt [0;0;0] [1;1;1] [2;2;2]%nat None true = Ok g /\
   let a := mkArr [2;2;2]%nat Complex128 (fun _ _ _ => Ci) in
   houts (h_init g) [CNew a; CSetT 0; CGetT; CWrite 0 (fun _ _ _ => RtoC 0);
                     CWrite 1 (fun _ _ _ => RtoC 5); CGetT; CGetS]
   = [Ok tt; Ok tt; Ok tt; Ok tt; Ok tt; Ok tt; Ok tt] /\
   at3 (nth 2 (h_view (hrun (h_init g) [CNew a; CSetT 0; CGetT; CWrite 0 (fun _ _ _ => RtoC 0);
                     CWrite 1 (fun _ _ _ => RtoC 5); CGetT; CGetS])) a) 0 0 0 = Ci.
Proof. eexists; split; [reflexivity|split; reflexivity]. Qed.

(** C03 *)
Theorem C03_read_before_write :
  forall d lo hi np nm b g, grid_init d lo hi np nm b = Ok g ->
  get_temporal_field g = (g, Err ValueError) /\
  get_spectral_field g = (g, Err (if b then ValueError else AssertionError)).
Proof. exact read_before_write. Qed.
Print Assumptions C03_read_before_write.

Theorem C03_set_rejections :
  forall g a,
  (snd (set_temporal_field g a) = Ok tt <-> shp a = shp (g_tf g) /\ dty a = g_dtype g) /\
  (snd (set_spectral_field g a) = Ok tt <-> shp a = shp (g_sf g) /\ dty a = Complex128) /\
  (forall g' e, set_temporal_field g a = (g', Err e) -> g' = g /\ e = AssertionError) /\
  (forall g' e, set_spectral_field g a = (g', Err e) -> g' = g /\ e = AssertionError) /\
  (g_isenv g = false -> get_spectral_field g = (g, Err AssertionError)).
Proof. exact set_rejections. Qed.
Print Assumptions C03_set_rejections.

(** C04 *)
Theorem C04_roundtrip_spectral :
  forall a i j k, (k < dim2 a)%nat ->
  at3 (np_fft_last (np_ifft_last a)) i j k = at3 a i j k.
Proof. exact fft_ifft_last. Qed.
Print Assumptions C04_roundtrip_spectral.
Theorem C04_roundtrip_temporal :
  forall a i j k, (k < dim2 a)%nat ->
  at3 (np_ifft_last (np_fft_last a)) i j k = at3 a i j k.
Proof. exact ifft_fft_last. Qed.
Print Assumptions C04_roundtrip_temporal.

(** Through the API: set one representation, read the other, set that, read back. *)
Theorem C04_api_roundtrip :
  forall d lo hi np nm g a, grid_init d lo hi np nm true = Ok g ->
  acceptable (g_shape g) a = true ->
  (exists s b, nth_error (gouts g [SetT a; GetS]) 1 = Some (OutArr (Ok s)) /\
     nth_error (gouts g [SetS s; GetT]) 1 = Some (OutArr (Ok b)) /\ arr_eq b a) /\
  (exists s b, nth_error (gouts g [SetS a; GetT]) 1 = Some (OutArr (Ok s)) /\
     nth_error (gouts g [SetT s; GetS]) 1 = Some (OutArr (Ok b)) /\ arr_eq b a).
Proof. exact api_roundtrip. Qed.
Print Assumptions C04_api_roundtrip.

Theorem C04_parseval :
  forall a i j, (0 < dim2 a)%nat ->
  rsum (dim2 a) (fun k => Cnorm2 (at3 a i j k)) =
  INR (dim2 a) * rsum (dim2 a) (fun k => Cnorm2 (at3 (np_ifft_last a) i j k)).
Proof. exact parseval_last. Qed.
Print Assumptions C04_parseval.

(** C05 is false of the code: dropping to a real field and back while the spectrum is cached. *)
Theorem C05_toggle_refuted :
  exists g a b, grid_init Xyt [0;0;0] [1;1;1] [2;2;2]%nat None true = Ok g /\
    snd (get_temporal_field (grun5 g w5_hist)) = Ok a /\
    snd (get_spectral_field (grun5 g w5_hist)) = Ok b /\
    ~ (forall i j k, (k < dim2 b)%nat -> at3 b i j k = ifft1 (dim2 b) (fun q => at3 a i j q) k).
Proof. exact c05_refuted. Qed.
Print Assumptions C05_toggle_refuted.

(** C05, part that holds: as long as set_is_envelope(False) is never called while both
    representations are cached, the two reads always describe the same field. *)
Theorem C05_toggle_partial :
  forall d lo hi np nm b0 g, grid_init d lo hi np nm b0 = Ok g ->
  forall h, no_toggle_when_both_cached g h ->
  forall a b, snd (get_temporal_field (grun5 g h)) = Ok a ->
              snd (get_spectral_field (grun5 g h)) = Ok b ->
  shp a = shp b /\ forall i j k, (k < dim2 b)%nat ->
     at3 b i j k = ifft1 (dim2 b) (fun q => at3 a i j q) k.
Proof. exact (fun d lo hi np nm b0 g Hg h Hh a b => Coh5_reads _ a b (Coh5_run g h (Coh5_init _ _ _ _ _ _ _ Hg) Hh)). Qed.
Print Assumptions C05_toggle_partial.

Example C05_partial_nonvacuous :
  exists g, grid_init Xyt [0;0;0] [1;1;1] [2;2;2]%nat None true = Ok g /\
  no_toggle_when_both_cached g [Call (SetT w5_field); SetEnv false; SetEnv true; Call GetS].
Proof.
  eexists; split; [reflexivity|]. simpl.
  repeat (split; [intros H; (discriminate || (intros [_ H']; discriminate)) |]); exact I.
Qed.

(** C06 *)
Theorem C06_construction_iff :
  forall d lo hi np nm b,
  (exists g, grid_init d lo hi np nm b = Ok g) <->
  d <> OtherDim /\ length lo = ndims_of d /\ length hi = ndims_of d /\
  (forall q, (q < ndims_of d)%nat -> exists n, nth_error np q = Some n /\ (2 <= n)%nat) /\
  (d = Rt -> exists M, nm = Some M /\ (1 <= M)%Z).
Proof. exact grid_init_ok_iff. Qed.
Print Assumptions C06_construction_iff.

Theorem C06_axes :
  forall d lo hi np nm b g, grid_init d lo hi np nm b = Ok g ->
  g_lo g = lo /\ g_hi g = hi /\ length (g_axes g) = ndims_of d /\ length (g_dx g) = ndims_of d /\
  forall q, (q < ndims_of d)%nat -> exists n, nth_error np q = Some n /\
    let ax := nth q (g_axes g) [] in let dx := nth q (g_dx g) 0 in
    length ax = n /\ vget ax 0 = vget lo q /\ vget ax (n - 1) = vget hi q /\
    dx = (vget hi q - vget lo q) / (INR n - 1) /\
    (forall i, (S i < n)%nat -> vget ax (S i) - vget ax i = dx).
Proof. exact grid_init_axes. Qed.
Print Assumptions C06_axes.

Theorem C06_mode_layout :
  forall lo hi np M b g, grid_init Rt lo hi np (Some (Z.of_nat M)) b = Ok g ->
  exists modes, g_modes g = Some modes /\
  g_shape g = [(2 * M - 1)%nat; nth 0 np 0%nat; nth 1 np 0%nat] /\
  length modes = (2 * M - 1)%nat /\ NoDup modes /\
  (forall m, In m modes <-> (- Z.of_nat M < m < Z.of_nat M)%Z) /\
  (forall m, (- Z.of_nat M < m < Z.of_nat M)%Z ->
     py_index (2 * M - 1) m = Some (mode_slot M m) /\ nth_error modes (mode_slot M m) = Some m).
Proof. exact mode_layout. Qed.
Print Assumptions C06_mode_layout.

Example C06_nonvacuous :
  exists g, grid_init Rt [0;-1] [5;7] [3;4]%nat (Some 3%Z) true = Ok g /\
            g_modes g = Some [0;1;2;-2;-1]%Z.
Proof. eexists; split; reflexivity. Qed.
