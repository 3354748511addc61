(** The paraxial wave equation, for the convention E = Re( u(x,y,z) exp(i k z - i omega t) ) used in lasy
    (envelope times exp(-i omega0 t), propagation towards positive z):
       d2u/dx2 + d2u/dy2 + 2 i k du/dz = 0. *)
From Verif Require Import PyBase.
From Coquelicot Require Import Coquelicot.
Open Scope R_scope.

(** Derivative of a complex-valued function of a real variable. *)
Definition is_derive_C (f : R -> C) (x : R) (l : C) : Prop :=
  is_derive (fun t => fst (f t)) x (fst l) /\ is_derive (fun t => snd (f t)) x (snd l).
Definition paraxial (k : R) (u : R -> R -> R -> C) : Prop :=
  exists ux uxx uy uyy uz : R -> R -> R -> C,
    (forall x y z, is_derive_C (fun s => u s y z) x (ux x y z)) /\
    (forall x y z, is_derive_C (fun s => ux s y z) x (uxx x y z)) /\
    (forall x y z, is_derive_C (fun s => u x s z) y (uy x y z)) /\
    (forall x y z, is_derive_C (fun s => uy x s z) y (uyy x y z)) /\
    (forall x y z, is_derive_C (fun s => u x y s) z (uz x y z)) /\
    (forall x y z, Cplus (Cplus (uxx x y z) (uyy x y z)) (Cmult (Cmult (RtoC (2 * k)) Ci) (uz x y z)) = RtoC 0).
