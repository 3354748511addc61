(** Property theorems C36 (direct conversion, the default) and C31 (show for xyt lasers). *)
From Coquelicot Require Import Coquelicot.
From Verif Require Import PyBase CSum NumPy NpMath GridModel GridSpec GridObs LaserSpec EnergyModel LaserModel LaserOps LaserInv LaserStepProofs HistoryProofs LaserInitProofs AnalysisModel AnalysisSpec CreateGridProofs VecPotSpec VecPotProofs LaserExamples.
Open Scope R_scope.

(** C36: vector_potential_to_field with direct=True is minus the time derivative of the potential a(t) exp(-i omega0 t) (times
    m_e c/e, in the envelope convention), up to an error of second order in the time step: at most M dt^2, with M a bound on
    the third derivative of the real and imaginary parts of the envelope (so exact for parabolic envelopes), at the first
    and the last time as well. *)
Theorem C36_direct :
  forall g f w0 h ar ai M i j k,
  tread g = Ok f -> g_isenv g = true -> (3 <= dim2 f)%nat -> (k < dim2 f)%nat -> 0 < h ->
  (forall q, (S q < dim2 f)%nat -> vget (time_axis g) (S q) - vget (time_axis g) q = h) ->
  thrice ar M -> thrice ai M ->
  (forall q, (q < dim2 f)%nat -> at3 f i j q = (ar (vget (time_axis g) q), ai (vget (time_axis g) q))) ->
  exists E ed er, snd (vector_potential_to_field g w0 true) = Ok E /\ shp E = shp f /\
    at3 E i j k = Cmult (RtoC (m_e * c_light / e_charge)) (Cplus ed er) /\ Rabs (Re er) <= M * h ^ 2 /\ Rabs (Im er) <= M * h ^ 2 /\
    minus_derivative (fun t => Cmult (ar t, ai t) (cis (- (w0 * t)))) (vget (time_axis g) k) (Cmult ed (cis (- (w0 * vget (time_axis g) k)))).
Proof. exact c36_direct. Qed.
Print Assumptions C36_direct.
Example C36_direct_nonvacuous : exists g f, tread g = Ok f /\ g_isenv g = true /\ dim2 f = 3%nat /\
  (forall q, (S q < dim2 f)%nat -> vget (time_axis g) (S q) - vget (time_axis g) q = 1) /\
  thrice (fun t => t ^ 2) 0 /\ thrice (fun _ => 1) 0 /\
  (forall i j q, inb f i j q -> at3 f i j q = ((vget (time_axis g) q) ^ 2, 1)).
Proof.
  destruct (c37_create_xyt (mkArr [2;2;3]%nat Complex128 (fun i j k => ((vget [0;1;2] k) ^ 2, 1))) [0;1] [0;1] [0;1;2] true uni2 uni2 uni3 eq_refl eq_refl)
    as (g & b & _ & Ha & He & _ & _ & _ & _ & Hb & (B1 & _ & B3)); [discriminate|].
  assert (D2 : dim2 b = 3%nat) by (unfold dim2; rewrite <- B1; reflexivity). assert (HT : time_axis g = [0;1;2]) by (unfold time_axis; rewrite Ha; reflexivity).
  exists g, b. split; [exact Hb|]. split; [exact He|]. split; [exact D2|]. rewrite HT, D2. split; [intros q Hq; rewrite !times3 by lia; rewrite S_INR; ring|].
  split; [split|split; [split|]].
  - intros k Hk. exact (proj1 thrice_square k Hk).
  - exact (proj2 thrice_square).
  - intros k _ x. apply ex_derive_n_const.
  - intros x. rewrite Derive_n_const. rewrite Rabs_R0. lra.
  - intros i j q Hq. rewrite <- B3; [reflexivity|]. unfold inb, dim0, dim1, dim2 in *. rewrite B1. exact Hq.
Qed.
(** C31: for an xyt laser, show() displays |E| in the plane in the middle of the y axis. *)
Theorem C31_show_xyt :
  forall S L, reachable S L -> l_dim L = Xyt ->
  exists a n0 n1 nt im,
    snd (get_temporal_field (l_grid L)) = Ok a /\ shp a = [n0; n1; nt] /\ length (nth 1 (g_axes (l_grid L)) []) = n1 /\
    snd (show_image L) = Ok (im, [lastR (g_lo (l_grid L)); lastR (g_hi (l_grid L)); vget (g_lo (l_grid L)) 0; vget (g_hi (l_grid L)) 0]) /\
    shp im = [n0; nt] /\ exists q, (2 * q = n1 \/ 2 * q + 1 = n1)%nat /\ forall i k, at3 im i k 0 = RtoC (Cmod (at3 a i q k)).
Proof. exact show_xyt. Qed.
Print Assumptions C31_show_xyt.
(** C31: on the grid of a new laser this plane is within half a cell of the centre of the box. *)
Theorem C31_show_centre :
  forall lo hi npts p nm nte L q, laser_init Xyt lo hi npts p nm nte = Ok L ->
  let n1 := nth 1 npts 0%nat in vget lo 1 < vget hi 1 -> (2 * q = n1 \/ 2 * q + 1 = n1)%nat ->
  Rabs (vget (nth 1 (g_axes (l_grid L)) []) q - (vget lo 1 + vget hi 1) / 2) <= spacing (vget lo 1) (vget hi 1) n1 / 2.
Proof. exact show_centre. Qed.
Print Assumptions C31_show_centre.
Example C31_xyt_nonvacuous : exists L, laser_init Xyt [-1;-2;-3] [1;2;4] [4;3;5]%nat (ex_prof None) 1 None = Ok L /\ reachable id_solvers L /\ l_dim L = Xyt.
Proof.
  destruct (ex_xyt None I) as (L & HL). exists L. split; [exact HL|].
  split; [apply (reachable_init id_solvers _ _ _ _ _ _ _ L [] HL); constructor|]. destruct (laser_init_Inv _ _ _ _ _ _ _ _ HL) as (g & n0 & n1 & nt & Hg & Hmt & D1 & _). exact D1.
Qed.
