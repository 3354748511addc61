(** Vocabulary for C75 (profiles from openPMD data). *)
From Verif Require Import PyBase NumPy NpMath OpenPMDModel OpenPMDProofs.
Open Scope R_scope.

(** The longitudinal coordinate of an openPMD field (z or t), and the time at which its k-th sample passes a fixed plane:
    the field at the largest z comes first (t = 0). *)
Definition long_axis (md : field_md) (isz : bool) : list R := md_axis md (if isz then AxZ else AxT).
Definition pass_time (md : field_md) (isz : bool) (k : nat) : R :=
  if isz then (vget (md_axis md AxZ) (length (md_axis md AxZ) - 1) - vget (md_axis md AxZ) k) / c_light
  else vget (md_axis md AxT) k.
(** An increasing axis of n >= 2 points; equally spaced if it is a z axis. *)
Definition good_axis (l : list R) (n : nat) : Prop := length l = n /\ (2 <= n)%nat /\ ascending l = true.
Definition good_long (md : field_md) (isz : bool) (n : nat) : Prop :=
  good_axis (long_axis md isz) n /\ (isz = true -> exists dz, uniform_list (md_axis md AxZ) dz).
(** A radial axis of 2h points whose upper half (the positive radii) increases. *)
Definition good_radial (md : field_md) (h : nat) : Prop :=
  length (md_axis md AxR) = (2 * h)%nat /\
  forall i, (i + 1 < h)%nat -> vget (md_axis md AxR) (h + i) < vget (md_axis md AxR) (S (h + i)).
