(** Independent specification vocabulary for the Grid properties (C01-C06).
    Nothing here refers to the model of grid.py; only arrays, sums and exponentials. *)
From Verif Require Import PyBase NumPy GridModel.
Open Scope R_scope.

(** [b] is the forward DFT of [a] along the last (time) axis: b[k] = sum_n a[n] e^{-2 pi i n k/N}. *)
Definition is_dft_of (b a : ndarray) : Prop :=
  shp b = shp a /\ dty b = Complex128 /\
  forall i j k, at3 b i j k =
    csum (dim2 a) (fun n => Cmult (at3 a i j n)
       (cis (- (2 * PI * (INR n * INR k) / INR (dim2 a))))).

(** [b] is the inverse DFT of [a] along the last axis: b[n] = 1/N sum_k a[k] e^{+2 pi i n k/N}. *)
Definition is_idft_of (b a : ndarray) : Prop :=
  shp b = shp a /\ dty b = Complex128 /\
  forall i j n, at3 b i j n =
    Cmult (RtoC (/ INR (dim2 a)))
      (csum (dim2 a) (fun k => Cmult (at3 a i j k)
         (cis (2 * PI * (INR n * INR k) / INR (dim2 a))))).

(** Calls a user can make on a Grid object. *)
Inductive gop : Type :=
| SetT (a : ndarray)      (* grid.set_temporal_field(a) *)
| SetS (a : ndarray)      (* grid.set_spectral_field(a) *)
| GetT                    (* grid.get_temporal_field() *)
| GetS.                   (* grid.get_spectral_field() *)

(** What is observed from one call. *)
Inductive gout : Type :=
| OutUnit (r : res unit)
| OutArr (r : res ndarray).

(** A set on an envelope grid of shape [s] is accepted iff shape and dtype agree. *)
Definition acceptable (s : list nat) (a : ndarray) : bool :=
  shape_eqb (shp a) s && dtype_eqb (dty a) Complex128.

(** The last accepted set of a history (oldest call first). *)
Fixpoint last_set (s : list nat) (h : list gop) : option gop :=
  match h with
  | [] => None
  | o :: t =>
      match last_set s t with
      | Some x => Some x
      | None =>
          match o with
          | SetT a | SetS a => if acceptable s a then Some o else None
          | _ => None
          end
      end
  end.

(** What get_temporal_field must return after history [h]. *)
Definition temporal_read_ok (s : list nat) (h : list gop) (r : res ndarray) : Prop :=
  match last_set s h with
  | None => r = Err ValueError
  | Some (SetT a) => r = Ok a
  | Some (SetS a) => exists b, r = Ok b /\ is_dft_of b a
  | _ => False
  end.

(** What get_spectral_field must return after history [h]. *)
Definition spectral_read_ok (s : list nat) (h : list gop) (r : res ndarray) : Prop :=
  match last_set s h with
  | None => r = Err ValueError
  | Some (SetS a) => r = Ok a
  | Some (SetT a) => exists b, r = Ok b /\ is_idft_of b a
  | _ => False
  end.

(** What a call [o] issued after history [h] must return. *)
Definition out_ok (s : list nat) (h : list gop) (o : gop) (r : gout) : Prop :=
  match o with
  | GetT => exists x, r = OutArr x /\ temporal_read_ok s h x
  | GetS => exists x, r = OutArr x /\ spectral_read_ok s h x
  | SetT a | SetS a =>
      r = OutUnit (if acceptable s a then Ok tt else Err AssertionError)
  end.

(** Python index of the component holding azimuthal mode [m] in an array of 2M-1 components:
    m counted from the front if m >= 0, from the back otherwise. *)
Definition mode_slot (M : nat) (m : Z) : nat :=
  if Z.leb 0 m then Z.to_nat m else Z.to_nat (m + (2 * Z.of_nat M - 1)).

(** Number of directions of a geometry. *)
Definition ndims_of (d : pydim) : nat := match d with Rt => 2 | _ => 3 end.
