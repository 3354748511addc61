(** Vocabulary for C73 (get_full_field on another time axis). *)
From Verif Require Import PyBase NumPy FromArraySpec.
Open Scope R_scope.

(** [row] is Re(E exp(-i w0 t)) at the n times T of an envelope E known only at the times ts, where E = env.  At a
    known time: the known value.  Between two of them: modulus and phase interpolated linearly, the phase along the
    shorter way round; never larger than the larger of the two neighbours. *)
Definition resampled (ts : list R) (w0 : R) (env : nat -> C) (T : nat -> R) (n : nat) (row : nat -> C) : Prop :=
  (forall q k, (q < n)%nat -> (k < length ts)%nat -> T q = vget ts k -> row q = RtoC (Re (Cmult (env k) (cis (- (w0 * T q)))))) /\
  (forall q k r0 r1 th s, (q < n)%nat -> between_nodes ts k (T q) -> 0 < r0 -> 0 < r1 -> - PI < s < PI ->
     env k = Cmult (RtoC r0) (cis th) -> env (S k) = Cmult (RtoC r1) (cis (th + s)) ->
     let lam := (T q - vget ts k) / (vget ts (S k) - vget ts k) in
     row q = RtoC (((1 - lam) * r0 + lam * r1) * cos (th + lam * s - w0 * T q))) /\
  (forall q k B, (q < n)%nat -> between_nodes ts k (T q) -> Cmod (env k) <= B -> Cmod (env (S k)) <= B -> Cmod (row q) <= B).
