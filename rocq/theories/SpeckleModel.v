(** Model of lasy/profiles/speckle_profile.py (SpeckleProfile, gen_gaussian_time_series).
    Random numbers are an argument (record [draws]).  Values are exact; the only non-finite floats
    that the code can produce from finite inputs are represented: a beamlet amplitude matrix is
    [None] when its entries are nan, and so is the field. *)
From Verif Require Import PyBase NumPy NpMath NpFFT DataModel.
Open Scope R_scope.

(** ** numpy/Python *)
(** Result of a float division: finite, infinite (sign not needed), or nan. *)
Inductive xfloat : Type := Fin (r : R) | Infinite | NaN.
Definition xdiv (u v : R) : xfloat := if Reqb v 0 then (if Reqb u 0 then NaN else Infinite) else Fin (u / v).
Definition Rceil (x : R) : Z := (- Int_part (- x))%Z.
(** length of np.arange(0, stop, step), step > 0 *)
Definition arange_len (stop step : R) : nat := Z.to_nat (Rceil (stop / step)).
Definition arange0 (stop step : R) : list R := map (fun i => INR i * step) (seq 0 (arange_len stop step)).
(** int(x): truncation towards zero *)
Definition py_int (x : R) : Z := if Rleb 0 x then Int_part x else (- Int_part (- x))%Z.
(** round(x): half to even *)
Definition py_round (x : R) : Z :=
  let f := Int_part x in
  let r := x - IZR f in
  if Rltb r (1 / 2) then f else if Rltb (1 / 2) r then (f + 1)%Z else if Z.even f then f else (f + 1)%Z.
(** np.sinc *)
Definition np_sinc (x : R) : R := if Reqb x 0 then 1 else sin (PI * x) / (PI * x).

(** speckle_profile.py:7-40 gen_gaussian_time_series; [z k] is the k-th draw
    normal() + 1j*normal().  [None]: the result is nan. *)
Definition psd (dt : R) (t_num : nat) (fwhm : xfloat) (k : nat) : option R :=
  let om := fftshift1 t_num (fftfreq t_num dt) k in
  match fwhm with
  | Fin f => Some (exp (- ln 2 * (1 / 2) * (om / f * 2 * PI) ^ 2))
  | Infinite => Some 1
  | NaN => None
  end.
Definition xzero (f : xfloat) : bool := match f with Fin r => Reqb r 0 | _ => false end.
Definition gen_gaussian_time_series (t_num : nat) (dt : R) (fwhm : xfloat) (rms_mean : R) (z : nat -> C)
    : option (nat -> C) :=
  if xzero fwhm then Some (fun _ => RtoC 0)
  else match psd dt t_num fwhm 0 with
  | None => None
  | Some _ =>
      let spectral k := match psd dt t_num fwhm k with Some p => Cmult (RtoC p) (z k) | None => RtoC 0 end in
      let temporal := ifftshift1 t_num (fft1 t_num (fftshift1 t_num spectral)) in
      let mean := rsum t_num (fun k => Cmod (temporal k) ^ 2) / INR t_num in
      if Reqb mean 0 then None   (* 0 * (rms/0) = nan *)
      else Some (fun k => Cmult (temporal k) (RtoC (rms_mean / sqrt mean)))
  end.

(** ** Objects *)
(** temporal_smoothing_type.upper(); the last constructor is any unsupported string, and whether it
    contains "SSD". *)
Inductive smoothing : Type := RPP | CPP | FM_SSD | GP_RPM_SSD | GP_ISI | Unsupported (has_ssd : bool).
Definition has_SSD (s : smoothing) : bool :=
  match s with FM_SSD | GP_RPM_SSD => true | Unsupported b => b | _ => false end.
Definition supported (s : smoothing) : bool := match s with Unsupported _ => false | _ => true end.
Record speckle : Type := mkSpeckle {
  sk_lambda0 : R; sk_focal : R; sk_aperture : R * R; sk_n : nat * nat; sk_type : smoothing;
  sk_bandwidth : R; sk_dt : R; sk_amp : R * R; sk_freq : xfloat * xfloat; sk_delay : R * R; sk_env : bool }.
(** speckle_profile.py:230-240 ssd_phase_modulation_frequency *)
Definition ssd_frequency (bw : R) (distr : R * R) (frac pma : R) : xfloat :=
  let norm := sqrt (fst distr ^ 2 + snd distr ^ 2) in
  match xdiv frac norm with Fin sf => xdiv (bw * sf * (1 / 2)) pma | _ => NaN end.
(** speckle_profile.py:241-254 ssd_time_delay (a number divided by +inf is 0; nan > 0 is false) *)
Definition ssd_delay (ncc : R) (f : xfloat) : R := match f with Fin r => if Rltb 0 r then ncc / r else 0 | _ => 0 end.
Definition xpos (f : xfloat) : bool := match f with Fin r => Rltb 0 r | Infinite => true | NaN => false end.
Definition some_positive (q : R * R) : bool := orb (Rltb 0 (fst q)) (Rltb 0 (snd q)).
(** speckle_profile.py:174-279 __init__ (n_beamlets: two non-negative ints; wavelength, focal length,
    apertures: non-zero finite floats).  ZeroDivisionError is OtherException.  In an Infinite
    frequency the sign is not kept: a negative infinite one does not index ssd_number_color_cycles. *)
Definition speckle_init (wavelength focal : R) (aperture : R * R) (n : nat * nat) (ty : smoothing) (bw : R)
    (amp cycles distr : option (R * R)) (env : bool) : res speckle :=
  if Reqb bw 0 then Err OtherException else
  let dt := 1 / bw / 50 in
  do ssd <-
    (if has_SSD ty then
       match distr, amp with
       | Some d, Some a =>
           let f0 := ssd_frequency bw d (fst d) (fst a) in
           let f1 := ssd_frequency bw d (snd d) (snd a) in
           match cycles with
           | Some ncc => Ok (a, (f0, f1), (ssd_delay (fst ncc) f0, ssd_delay (snd ncc) f1))
           | None => if orb (xpos f0) (xpos f1) then Err TypeError else Err AssertionError
           end
       | _, _ => Err TypeError
       end
     else Ok ((0, 0), (Fin 0, Fin 0), (0, 0)));
  do a1 <- pyassert (supported ty);
  do a2 <- pyassert (Rltb 0 bw);
  do a3 <- (if has_SSD ty then
             match cycles, distr, amp with
             | Some c, Some d, Some a => pyassert (andb (some_positive c) (andb (some_positive d) (some_positive a)))
             | _, _, _ => Err AssertionError
             end
           else Ok tt);
  Ok (mkSpeckle wavelength focal aperture n ty bw dt (fst (fst ssd)) (snd (fst ssd)) (snd ssd) env).

(** speckle_profile.py:201-210 x_lens_list[i], y_lens_list[j] *)
Definition lens (n : nat) (i : nat) : R :=
  vget (linspace (- (1 / 2) * (INR n - 1)) (1 / 2 * (INR n - 1)) n) i.

(** The random numbers used by one call of evaluate: the phase plate, the dephasing of FM SSD, and
    the normal draws of gen_gaussian_time_series (one sequence per call of it, indexed by two ints). *)
Record draws : Type := mkDraws { d_plate : nat -> nat -> R; d_dephasing : R * R; d_normal : nat -> nat -> nat -> C }.

(** speckle_profile.py:281-362 init_gaussian_time_series *)
Inductive time_series : Type :=
| NoSeries
| Phases (p : option (list R * list R))
| Amplitudes (len : nat) (a : option (nat -> nat -> nat -> C)).
Definition xscale (a : R) (f : xfloat) : xfloat := match f with Fin r => Fin (a * r) | g => g end.
Definition rpm_size (sp : speckle) (n_series : nat) : nat :=
  Z.to_nat (Z.of_nat n_series + py_int ((fst (sk_delay sp) + snd (sk_delay sp)) / sk_dt sp) + 2).
Definition rpm_times (sp : speckle) (series : list R) : list R :=
  firstn (rpm_size sp (length series))
    (arange0 (last series 0 + (fst (sk_delay sp) + snd (sk_delay sp)) + 3 * sk_dt sp) (sk_dt sp)).
Definition real_series (n : nat) (s : nat -> C) : list R := map (fun k => (Re (s k) + Im (s k)) / sqrt 2) (seq 0 n).
Fixpoint all_some2 (n m : nat) (f : nat -> nat -> bool) : bool :=
  match n with O => true | S n => andb (all_some2 n m f) (forallb (f n) (seq 0 m)) end.
Definition is_some {A} (o : option A) : bool := match o with Some _ => true | None => false end.
Definition init_gaussian_time_series (sp : speckle) (d : draws) (series : list R) : res (list R * time_series) :=
  match sk_type sp with
  | FM_SSD | GP_RPM_SSD =>
      let size := rpm_size sp (length series) in
      let p0 := gen_gaussian_time_series size (sk_dt sp) (xscale (2 * PI) (fst (sk_freq sp))) (fst (sk_amp sp)) (d_normal d 0 0) in
      let p1 := gen_gaussian_time_series size (sk_dt sp) (xscale (2 * PI) (snd (sk_freq sp))) (snd (sk_amp sp)) (d_normal d 1 0) in
      match series with
      | [] => Err IndexError
      | _ => Ok (rpm_times sp series,
                 Phases (match p0, p1 with Some s0, Some s1 => Some (real_series size s0, real_series size s1) | _, _ => None end))
      end
  | GP_ISI =>
      match series with
      | [] => Err OtherException   (* fftfreq(0, dt) *)
      | _ =>
        let n := length series in
        let g i j := gen_gaussian_time_series n (sk_dt sp) (Fin (2 * sk_bandwidth sp)) 1 (d_normal d i j) in
        Ok (series, Amplitudes n
          (if all_some2 (fst (sk_n sp)) (snd (sk_n sp)) (fun i j => is_some (g i j))
           then Some (fun i j k => match g i j with Some s => s k | None => RtoC 0 end) else None))
      end
  | _ => Ok (series, NoSeries)
  end.

(** speckle_profile.py:364-437 beamlets_complex_amplitude *)
Definition fm_phase (amp deph f t pos delay : R) (n : nat) : R :=
  amp * sin (deph + 2 * PI * f * (t - pos * delay / INR n)).
Definition beamlets_complex_amplitude (sp : speckle) (d : draws) (t : R) (times : list R) (ts : time_series)
    : res (option (nat -> nat -> C)) :=
  let nx := fst (sk_n sp) in let ny := snd (sk_n sp) in
  match sk_type sp with
  | RPP | CPP => Ok (Some (fun _ _ => RtoC 1))
  | FM_SSD =>
      (* an infinite or nan frequency gives sin(inf) = nan or sin(nan) = nan *)
      Ok (match sk_freq sp with
          | (Fin f0, Fin f1) => Some (fun i j =>
              cis (fm_phase (fst (sk_amp sp)) (fst (d_dephasing d)) f0 t (lens nx i) (fst (sk_delay sp)) nx
                   + fm_phase (snd (sk_amp sp)) (snd (d_dephasing d)) f1 t (lens ny j) (snd (sk_delay sp)) ny))
          | _ => None
          end)
  | GP_RPM_SSD =>
      match ts with
      | Phases (Some (p0, p1)) =>
          do c0 <- np_interp times p0 t;   (* np.interp raises on the lengths of its arguments only *)
          do c1 <- np_interp times p1 t;
          Ok (Some (fun i j =>
            match np_interp times p0 (t + INR i * fst (sk_delay sp) / INR nx), np_interp times p1 (t + INR j * snd (sk_delay sp) / INR ny) with
            | Ok a, Ok b => cis (a + b)
            | _, _ => RtoC 0
            end))
      | Phases None => Ok None
      | _ => Err TypeError
      end
  | GP_ISI =>
      match ts with
      | Amplitudes n a =>
          match py_index n (py_round (t / sk_dt sp)) with
          | Some q => Ok (match a with Some f => Some (fun i j => f i j q) | None => None end)
          | None => Err IndexError
          end
      | _ => Err TypeError
      end
  | Unsupported _ => Err NotImplementedError
  end.

(** speckle_profile.py:439-511 generate_speckle_pattern, at one point of the (n0, n1) grid; x and y
    are the arrays x[:, :, 0] and y[:, :, 0]. *)
Definition plate (sp : speckle) (d : draws) (i j : nat) : R := match sk_type sp with GP_ISI => 0 | _ => d_plate d i j end.
Definition lambda_fnum (sp : speckle) : R * R :=
  (sk_lambda0 sp * sk_focal sp / fst (sk_aperture sp), sk_lambda0 sp * sk_focal sp / snd (sk_aperture sp)).
Definition phase_focus (n : nat) (i : nat) (u : R) : C := cis (- (2 * PI / INR n * lens n i * u)).
Definition speckle_pattern (sp : speckle) (d : draws) (bca : option (nat -> nat -> C)) (x y : nat -> nat -> R) (k l : nat) : option C :=
  match bca with
  | None => None
  | Some b =>
      let nx := fst (sk_n sp) in let ny := snd (sk_n sp) in
      let X k l := x k l / fst (lambda_fnum sp) in
      let Y k l := y k l / snd (lambda_fnum sp) in
      let amp := csum ny (fun j =>
        Cmult (csum nx (fun i => Cmult (Cmult (b i j) (cis (plate sp d i j))) (phase_focus nx i (X k 0%nat))))
              (phase_focus ny j (Y 0%nat l))) in
      Some (if sk_env sp then Cmult (RtoC (np_sinc (X k l / INR nx) * np_sinc (Y k l / INR ny))) amp else amp)
  end.

(** speckle_profile.py:513-569 evaluate on arrays of shape (n0, n1, nt), given by their entries. *)
Definition normalised_time (sp : speckle) (t : nat -> nat -> nat -> R) (k : nat) : R := t 0%nat 0%nat k * c_light / sk_lambda0 sp.
Definition speckle_evaluate (sp : speckle) (d : draws) (n0 n1 nt : nat) (x y t : nat -> nat -> nat -> R)
    : res (nat -> nat -> nat -> option C) :=
  if orb (Nat.eqb n0 0) (orb (Nat.eqb n1 0) (Nat.eqb nt 0)) then Err IndexError else
  let t_max := normalised_time sp t (nt - 1) in
  let series := arange0 (t_max + sk_dt sp) (sk_dt sp) in
  do q <- match sk_type sp with
          | GP_RPM_SSD | GP_ISI => init_gaussian_time_series sp d series
          | Unsupported _ => Err NotImplementedError
          | _ => Ok (series, NoSeries)
          end;
  do l <- seq_res (map (fun k => beamlets_complex_amplitude sp d (normalised_time sp t k) (fst q) (snd q)) (seq 0 nt));
  Ok (fun i j k => speckle_pattern sp d (nth k l None) (fun a b => x a b 0%nat) (fun a b => y a b 0%nat) i j).
