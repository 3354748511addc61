(** A linear solver: Huygens sum over the radial points (rt), angular spectrum (xyt). *)
From Verif Require Import PyBase CSum NpFFT FFTProofs NumPy GridModel GridSpec EnergyModel LaserSpec LaserModel LaserOps LaserInv LaserStepProofs LaserInitProofs LaserExamples HistoryProofs ProfileModel ProfileProofs WaveSolver LtiSpec LtiProofs LtiStep LtiMain.
Open Scope R_scope.

Definition huygens (p : rt_prop) (x : nat -> nat -> C) (d : R) (k j : nat) : C :=
  let out := match rp_rnew p with None => rp_r p | Some l => l end in
  csum (length (rp_r p)) (fun q => Cmult (cis (nth k (rp_k p) 0 * sqrt (d ^ 2 + (nth q (rp_r p) 0 - nth j out 0) ^ 2))) (x k q)).
Definition linear_example : solvers := mkSolvers huygens (step_xyt (wave_solvers 1)).
Lemma linear_example_ok : linear_solver linear_example.
Proof.
  constructor.
  - intros p a b x y w d H k j Hk Hj. cbn [linear_example step_rt]. unfold huygens. cbn zeta.
    rewrite <- !csum_scal_l, <- csum_plus. apply csum_ext. intros q Hq. rewrite H by assumption. ring.
  - intros p a b x y w d H k i j Hk Hi Hj. cbn [linear_example step_xyt wave_solvers].
    rewrite (step_ext p k d (w k) (fun i j => Cplus (Cmult (a k) (x k i j)) (Cmult (b k) (y k i j)))) by (intros; apply H; assumption).
    rewrite step_plus, !step_scal. reflexivity.
Qed.

Lemma c93_sum S d lo hi np p q r nm nte Lp Lq Lr h : linear_solver S ->
  p_energy p = None -> p_energy q = None ->
  p_omega0 p = 2 * PI * c_light / p_lambda0 p -> p_omega0 q = p_omega0 p ->
  py_add (VProf p) (VProf q) = Ok (VProf r) ->
  laser_init d lo hi np p nm nte = Ok Lp -> laser_init d lo hi np q nm nte = Ok Lq -> laser_init d lo hi np r nm nte = Ok Lr ->
  Forall linear_op h -> clean S Lp h ->
  exists m0 m1 nt fp fq fr,
    snd (get_temporal_field (l_grid (lrun S Lp h))) = Ok fp /\ shp fp = [m0; m1; nt] /\
    snd (get_temporal_field (l_grid (lrun S Lq h))) = Ok fq /\ shp fq = [m0; m1; nt] /\
    snd (get_temporal_field (l_grid (lrun S Lr h))) = Ok fr /\ shp fr = [m0; m1; nt] /\
    forall i j k, (i < m0)%nat -> (j < m1)%nat -> (k < nt)%nat ->
      at3 fr i j k = Cplus (at3 fp i j k) (at3 fq i j k).
Proof.
  intros HS Ep Eq Wp Wq Hr Hp Hq HLr Hl Hc.
  cbn [py_add] in Hr. unfold vbind in Hr. destruct (summed_profile _) as [r'|] eqn:E; [|discriminate]. cbn [bind] in Hr. injection Hr as ->.
  destruct (summed_inv _ _ E) as (p0 & ps & El & Ev & Er & _ & Hi & _). destruct ps as [|q' [|? ?]]; try discriminate. injection El as <- <-.
  assert (Wr : p_omega0 r = p_omega0 p) by (unfold profile_init in Hi; injection Hi as <-; cbn [p_omega0]; symmetry; exact Wp).
  destruct (c93_superposition S d lo hi np p q r nm nte Lp Lq Lr (RtoC 1) (RtoC 1) h HS Ep Eq Er Wq Wr) as (_ & _ & _ & _ & m0 & m1 & nt & fp & fq & fr & F1 & F2 & F3 & F4 & F5 & F6 & F7); try assumption.
  { intros x y t. rewrite Ev, sum_eval2. ring. }
  exists m0, m1, nt, fp, fq, fr. conj; try assumption. intros i j k Hi' Hj Hk. rewrite F7 by assumption. ring.
Qed.
