(** Specification for C83: geometrical rays leaving a thin optical element. *)
From Verif Require Import PyBase LaserModel ParaxialSpec.
Open Scope R_scope.
(** A plane wave at frequency w arriving along the axis leaves the element as T(x,y,w).  Around (x,y) it is a plane wave with the
    transverse wave vector (w/c) (sx, sy): its gradient is i (w/c) (sx, sy) times itself.  (sx, sy) are the direction cosines
    of the outgoing ray; in the paraxial approximation they are its slopes. *)
Definition ray_slope (T : optic) (w w0 x y sx sy : R) : Prop :=
  T x y w w0 <> RtoC 0 /\
  is_derive_C (fun x' => T x' y w w0) x (Cmult (Cmult Ci (RtoC (w / c_light * sx))) (T x y w w0)) /\
  is_derive_C (fun y' => T x y' w w0) y (Cmult (Cmult Ci (RtoC (w / c_light * sy))) (T x y w w0)).
(** The (paraxial) ray leaving (x,y) crosses the optical axis at the distance d. *)
Definition ray_focus (T : optic) (w w0 x y d : R) : Prop :=
  exists sx sy, ray_slope T w w0 x y sx sy /\ x + d * sx = 0 /\ y + d * sy = 0.
