(** C91: plane waves and Bessel waves solve the wave equation. *)
From Coquelicot Require Import Coquelicot.
From Verif Require Import PyBase CSum LaserSpec WaveSpec GaussInt WaveProofs.
Open Scope R_scope.

Lemma derive2 (f f1 : R -> R) x l : (forall y, is_derive f y (f1 y)) -> is_derive f1 x l -> is_derive_n f 2 x l.
Proof.
  intros H1 H2. cbn [is_derive_n]. apply (is_derive_ext f1); [|exact H2].
  intros y. symmetry. cbn [Derive_n]. apply is_derive_unique, H1.
Qed.
Lemma part_plus (part : C -> R) : part = Re \/ part = Im -> forall a b, part (Cplus a b) = part a + part b.
Proof. intros [-> | ->]; reflexivity. Qed.
Lemma part_scal (part : C -> R) : part = Re \/ part = Im -> forall k a, part (Cmult (RtoC k) a) = k * part a.
Proof. intros [-> | ->] k [a b]; unfold Re, Im; cbn; ring. Qed.
Lemma part_0 (part : C -> R) : part = Re \/ part = Im -> part (RtoC 0) = 0.
Proof. intros [-> | ->]; reflexivity. Qed.

Lemma dcis (part : C -> R) : part = Re \/ part = Im -> forall a k r x,
  is_derive (fun x => part (Cmult a (cis (k * x + r)))) x (part (Cmult (Cmult a (0, k)) (cis (k * x + r)))).
Proof.
  intros H [a b] k r x. destruct H as [-> | ->]; unfold cis, Re, Im, Cmult; cbn [fst snd]; auto_derive; trivial; eqR; ring.
Qed.
Lemma dlsum {A} (part : C -> R) : part = Re \/ part = Im -> forall (l : list A) (a : A -> C) (k r : A -> R) x,
  is_derive (fun x => part (lsum l (fun v => Cmult (a v) (cis (k v * x + r v))))) x
    (part (lsum l (fun v => Cmult (Cmult (a v) (0, k v)) (cis (k v * x + r v))))).
Proof.
  intros H l a k r x. induction l as [|v l IH].
  - unfold lsum. cbn [fold_right]. rewrite (part_0 part H). exact (is_derive_const (K := R_AbsRing) (V := R_NormedModule) 0 x).
  - rewrite lsum_cons, (part_plus part H).
    apply (is_derive_ext (fun x => plus (part (Cmult (a v) (cis (k v * x + r v)))) (part (lsum l (fun v => Cmult (a v) (cis (k v * x + r v))))))).
    + intros y. rewrite lsum_cons, (part_plus part H). reflexivity.
    + apply (is_derive_plus (fun x => part (Cmult (a v) (cis (k v * x + r v)))) _ x _ _ (dcis part H (a v) (k v) (r v) x) IH).
Qed.
Lemma d2lsum {A} (part : C -> R) : part = Re \/ part = Im -> forall (l : list A) (a : A -> C) (k r : A -> R) (F : R -> C) x,
  (forall y, F y = lsum l (fun v => Cmult (a v) (cis (k v * y + r v)))) ->
  is_derive_n (fun x => part (F x)) 2 x (part (lsum l (fun v => Cmult (RtoC (- k v ^ 2)) (Cmult (a v) (cis (k v * x + r v)))))).
Proof.
  intros H l a k r F x HF.
  apply (derive2 _ (fun y => part (lsum l (fun v => Cmult (Cmult (a v) (0, k v)) (cis (k v * y + r v)))))).
  - intros y. apply (is_derive_ext (fun x => part (lsum l (fun v => Cmult (a v) (cis (k v * x + r v)))))); [intros t; rewrite HF; reflexivity|].
    apply (dlsum part H).
  - evar (D : R). assert (Q : is_derive (fun y => part (lsum l (fun v => Cmult (Cmult (a v) (0, k v)) (cis (k v * y + r v))))) x D).
    { unfold D. apply (dlsum part H l (fun v => Cmult (a v) (0, k v)) k r x). }
    replace (part (lsum l (fun v => Cmult (RtoC (- k v ^ 2)) (Cmult (a v) (cis (k v * x + r v)))))) with D; [exact Q|].
    unfold D. f_equal. apply lsum_ext. intros v _. generalize (cis (k v * x + r v)). destruct (a v) as [p q]. intros [c s]. unfold RtoC, Cmult; cbn [fst snd]. f_equal; ring.
Qed.
Lemma part_lsum {A} (part : C -> R) : part = Re \/ part = Im -> forall (l : list A) (k : A -> R) (f : A -> C),
  part (lsum l (fun v => Cmult (RtoC (k v)) (f v))) = fold_right (fun v s => k v * part (f v) + s) 0 l.
Proof.
  intros H l k f. induction l as [|v l IH]; [apply (part_0 part H)|]. rewrite lsum_cons, (part_plus part H), (part_scal part H), IH. reflexivity.
Qed.

Lemma plane_waves_solve ws : Forall (fun v => pw_kx v ^ 2 + pw_ky v ^ 2 <= (pw_w v / c_light) ^ 2) ws -> solves_wave_equation (plane_waves ws).
Proof.
  intros HF part H x y z t. pose proof c_light_pos as Pc.
  set (ph := fun v => pw_kx v * x + pw_ky v * y + pw_kz v * z - pw_w v * t).
  set (E := fun v => Cmult (pw_A v) (cis (ph v))).
  exists (part (lsum ws (fun v => Cmult (RtoC (- pw_kx v ^ 2)) (E v)))), (part (lsum ws (fun v => Cmult (RtoC (- pw_ky v ^ 2)) (E v)))),
    (part (lsum ws (fun v => Cmult (RtoC (- pw_kz v ^ 2)) (E v)))), (part (lsum ws (fun v => Cmult (RtoC (- (- pw_w v) ^ 2)) (E v)))).
  assert (Q : forall (k : pwave -> R) (F : R -> C) (xx : R), (forall yy, F yy = lsum ws (fun v => Cmult (pw_A v) (cis (k v * yy + (ph v - k v * xx))))) ->
     is_derive_n (fun x => part (F x)) 2 xx (part (lsum ws (fun v => Cmult (RtoC (- k v ^ 2)) (E v))))).
  { intros k F xx HF'. pose proof (d2lsum part H ws pw_A k (fun v => ph v - k v * xx) F xx HF') as D.
    replace (part (lsum ws (fun v => Cmult (RtoC (- k v ^ 2)) (E v)))) with
      (part (lsum ws (fun v => Cmult (RtoC (- k v ^ 2)) (Cmult (pw_A v) (cis (k v * xx + (ph v - k v * xx))))))); [exact D|].
    f_equal. apply lsum_ext. intros v _. unfold E. do 3 apply f_equal. ring. }
  refine (conj _ (conj _ (conj _ (conj _ _)))).
  1-4: apply Q; intros yy; unfold plane_waves; apply lsum_ext; intros v _; unfold ph; apply f_equal, f_equal; ring.
  rewrite !(part_lsum part H). clear Q. induction HF as [|v l Hv _ IH]; cbn [fold_right]; [eqR; unfold Rdiv; ring|].
  assert (Kz : pw_kz v ^ 2 = (pw_w v / c_light) ^ 2 - pw_kx v ^ 2 - pw_ky v ^ 2) by (unfold pw_kz; apply pow2_sqrt; lra).
  replace (- pw_kz v ^ 2) with (- ((pw_w v / c_light) ^ 2 - pw_kx v ^ 2 - pw_ky v ^ 2)) by (rewrite Kz; reflexivity).
  revert IH.
  generalize (fold_right (fun (v : pwave) (s : R) => - pw_kx v ^ 2 * part (E v) + s) 0 l) as S1.
  generalize (fold_right (fun (v : pwave) (s : R) => - pw_ky v ^ 2 * part (E v) + s) 0 l) as S2.
  generalize (fold_right (fun (v : pwave) (s : R) => - pw_kz v ^ 2 * part (E v) + s) 0 l) as S3.
  generalize (fold_right (fun (v : pwave) (s : R) => - (- pw_w v) ^ 2 * part (E v) + s) 0 l) as S4.
  intros S4 S3 S2 S1 IH.
  transitivity (- (pw_w v / c_light) ^ 2 * part (E v) + (S1 + S2 + S3)); [ring|]. rewrite IH. field. lra.
Qed.
