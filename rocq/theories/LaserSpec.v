(** Independent specification vocabulary for the Laser properties. *)
From Verif Require Import PyBase GridSpec.
Open Scope R_scope.

(** Field at angle theta reconstructed from azimuthal components E_m, |m| < M:
    sum_{m=-(M-1)}^{M-1} E_m exp(-i m theta). *)
Definition recon (M : nat) (E : Z -> C) (theta : R) : C :=
  csum (2 * M - 1) (fun q =>
    let m := (Z.of_nat q - (Z.of_nat M - 1))%Z in
    Cmult (E m) (cis (- (IZR m * theta)))).

(** Component of azimuthal mode m at (j,k) of a lasy rt array. *)
Definition comp (M : nat) (a : ndarray) (j k : nat) (m : Z) : C := at3 a (mode_slot M m) j k.

(** [b] is [a] multiplied everywhere by the complex number s. *)
Definition is_scaled (s : C) (a b : ndarray) : Prop :=
  shp b = shp a /\ dty b = dty a /\ forall i j k, inb a i j k -> at3 b i j k = Cmult s (at3 a i j k).

(** Coordinate of sample i of an axis from lo to hi with n points, and the axis spacing. *)
Definition coord (lo hi : R) (n i : nat) : R := lo + INR i * ((hi - lo) / (INR n - 1)).
Definition spacing (lo hi : R) (n : nat) : R := (hi - lo) / (INR n - 1).

(** Energy of an envelope sampled on a Cartesian grid:
    (epsilon_0/2) * sum |E|^2 * dx dy (c dt). *)
Definition E_xyt (lo hi : list R) (n0 n1 nt : nat) (f : nat -> nat -> nat -> C) : R :=
  eps0 / 2 * (spacing (nth 0 lo 0) (nth 0 hi 0) n0 * spacing (nth 1 lo 0) (nth 1 hi 0) n1
              * (c_light * spacing (nth 2 lo 0) (nth 2 hi 0) nt))
  * rsum3 n0 n1 nt (fun i j k => Cnorm2 (f i j k)).

(** Energy of an envelope given by azimuthal components on a cylindrical grid:
    (epsilon_0/2) * sum_m sum |E_m|^2 * 2 pi r dr (c dt). *)
Definition E_rt (lo hi : list R) (n0 n1 nt : nat) (f : nat -> nat -> nat -> C) : R :=
  eps0 / 2 * rsum3 n0 n1 nt (fun i j k =>
     2 * PI * coord (nth 0 lo 0) (nth 0 hi 0) n1 j * spacing (nth 0 lo 0) (nth 0 hi 0) n1
     * (c_light * spacing (nth 1 lo 0) (nth 1 hi 0) nt) * Cnorm2 (f i j k)).

(** The common factor applied at construction: 1 without a requested energy or when the samples
    carry none, sqrt(requested/sampled) otherwise. *)
Definition energy_factor (req : option (option R)) (e : R) (s : R) : Prop :=
  match req with
  | Some (Some E) => (e = 0 -> s = 1) /\ (0 < e -> s = sqrt (E / e))
  | _ => s = 1
  end.
(** Requested energies are non-negative. *)
Definition energy_request_ok (req : option (option R)) : Prop :=
  match req with Some (Some E) => 0 <= E | _ => True end.

(** m is the maximum of f over the indices of a. *)
Definition is_max3 (a : ndarray) (f : nat -> nat -> nat -> R) (m : R) : Prop :=
  (forall i j k, inb a i j k -> f i j k <= m) /\ exists i j k, inb a i j k /\ f i j k = m.

Definition nonempty (a : ndarray) : Prop := (0 < dim0 a)%nat /\ (0 < dim1 a)%nat /\ (0 < dim2 a)%nat.

(** The array is zero at every index / is not. *)
Definition all_zero (a : ndarray) : Prop := forall i j k, inb a i j k -> at3 a i j k = RtoC 0.
Definition some_nonzero (a : ndarray) : Prop := exists i j k, inb a i j k /\ at3 a i j k <> RtoC 0.

(** k-th DFT angular frequency of nt samples spaced by dt (numpy order: 0,1,..,-2,-1). *)
Definition dft_omega (nt : nat) (dt : R) (k : nat) : R :=
  2 * PI * (if Nat.ltb k (S (Nat.div (nt - 1) 2)) then INR k else INR k - INR nt) / (INR nt * dt).
