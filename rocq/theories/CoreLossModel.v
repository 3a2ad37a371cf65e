(** * Core losses: the Steinmetz family

    Models src/physical_models/CoreLosses.cpp and CoreLosses.h (choice of the
    Steinmetz coefficients, temperature correction, and the Steinmetz, iGSE,
    ciGSE, Albach, MSE, NSE and Barg models) and the two getters of
    src/processors/Inputs.cpp they use, over the real numbers.

    Simplified throughout: doubles are real numbers, and a value that is not
    finite (NaN or infinite) is [None].  The flux density comes with a waveform
    that has a time axis (what [standardize_waveform], Inputs.cpp:358-383, adds
    when it is missing is not modelled), with its processed peak, offset and peak
    to peak, and with its harmonics if it has any (the ones the getters compute
    from the waveform when it has none are given as input). *)
From Coq Require Import Reals List Lra Lia ZArith String.
From Verif Require Import Base SizingModel.
Import ListNotations.
Local Open Scope R_scope.
Local Open Scope outcome_scope.

(** ** Doubles *)

(** A double: [None] when it is not finite. *)
Definition figure := option R.
Definition fmap2 (f : R -> R -> R) (x y : figure) : figure :=
  match x, y with Some a, Some b => Some (f a b) | _, _ => None end.
Definition fadd := fmap2 Rplus.
Definition fmul := fmap2 Rmult.
Definition fdiv (x y : figure) : figure :=
  match x, y with
  | Some a, Some b => if Req_EM_T b 0 then None else Some (a / b)
  | _, _ => None
  end.
Definition fsum (l : list figure) : figure := fold_right fadd (Some 0) l.

(** [pow(x, y)] of <cmath>: of a positive base, of zero, of a negative base with
    a whole exponent, and of a negative base otherwise (NaN). *)
Definition cpow (x y : R) : figure :=
  if Rlt_dec 0 x then Some (Rpower x y)
  else if Req_EM_T x 0 then
    if Rlt_dec 0 y then Some 0 else if Req_EM_T y 0 then Some 1 else None
  else if Req_EM_T (IZR (Int_part y)) y then Some (powerRZ x (Int_part y)) else None.

(** ** Coefficients *)

(** [SteinmetzCoreLossesMethodRangeDatum]. *)
Record steinmetz := {
  k_ : R; alpha_ : R; beta_ : R;
  ct0 : option R; ct1 : option R; ct2 : option R;
  minimum_frequency : option R; maximum_frequency : option R }.

(** CoreLosses.h:122-136 [apply_temperature_coefficients]: the factor applied. *)
Definition temperature_factor (d : steinmetz) (t : R) : R :=
  match ct0 d, ct1 d, ct2 d with
  | Some c0, Some c1, Some c2 =>
      let scale := c2 * t ^ 2 - c1 * t + c0 in
      if Rlt_dec 0 scale then scale else 1
  | _, _, _ => 1
  end.

(** CoreLosses.cpp:439-470 [get_steinmetz_coefficients], the loop over the
    ranges of the material: the lowest and the highest range seen so far. *)
Fixpoint lookup (ranges : list steinmetz) (f : R) (low high : R) (lowest highest : option steinmetz)
  : outcome steinmetz :=
  match ranges with
  | [] =>
      match (if Rlt_dec f low then lowest else None) with
      | Some d => Ok d
      | None =>
          match (if Rlt_dec high f then highest else None) with
          | Some d => Ok d
          | None => Throw "CalculationException"
          end
      end
  | d :: rest =>
      match minimum_frequency d, maximum_frequency d with
      | Some a, Some b =>
          if Rle_dec a f then
            if Rle_dec f b then Ok d
            else let '(low', lowest') := if Rlt_dec a low then (a, Some d) else (low, lowest) in
                 let '(high', highest') := if Rlt_dec high b then (b, Some d) else (high, highest) in
                 lookup rest f low' high' lowest' highest'
          else let '(low', lowest') := if Rlt_dec a low then (a, Some d) else (low, lowest) in
               let '(high', highest') := if Rlt_dec high b then (b, Some d) else (high, highest) in
               lookup rest f low' high' lowest' highest'
      | _, _ => Throw "MaterialException"
      end
  end.

(** CoreLosses.cpp:424-471.  The material is the list of its Steinmetz ranges. *)
Definition coefficients (ranges : list steinmetz) (f : R) : outcome steinmetz :=
  lookup ranges f 100000000 0 None None.

(** CoreLosses.cpp:869-875 (and in every model below): the datum loaded in the
    model, or the one of the material at the frequency. *)
Definition datum (loaded : option steinmetz) (ranges : list steinmetz) (f : R) : outcome steinmetz :=
  match loaded with Some d => Ok d | None => coefficients ranges f end.

(** ** Excitations *)

(** The parts of an [OperatingPointExcitation] the models read: the frequency,
    the number of points and the harmonics (frequency, amplitude) of the current,
    and the flux density: processed peak, offset and peak to peak, harmonics and
    the samples (time, value) of the waveform. *)
Record excitation := {
  frequency : R;
  current_points : nat;
  current_harmonics : option (list (R * R));
  peak : R; offset : R; peak_to_peak : R;
  harmonics : option (list (R * R));
  samples : list (R * R) }.

(** Inputs.cpp:3297-3306: the strongest harmonic from the second on. *)
Fixpoint strongest (l : list (R * R)) (main best at_ : R) : R :=
  match l with
  | [] => at_
  | (f, a) :: rest =>
      if Rlt_dec (1 / 100 * main) a then
        if Rlt_dec best a then strongest rest main a f else strongest rest main best at_
      else strongest rest main best at_
  end.

(** Inputs.cpp:3288-3315 [get_switching_frequency]. *)
Definition switching_frequency (e : excitation) : outcome R :=
  if Rlt_dec (frequency e) 400 then
    match current_harmonics e with
    | Some h =>
        if Nat.ltb 128 (current_points e) then
          match h with
          | _ :: (f1, a1) :: rest => Ok (strongest rest a1 0 f1)
          | _ => UB "harmonics[1]"
          end
        else Ok (frequency e)
    | None => Ok (frequency e)
    end
  else Ok (frequency e).

(** Inputs.cpp:3336-3345, 3369-3378: the amplitude of the harmonic of that
    frequency, looked for from the first harmonic after the mean on. *)
Fixpoint amplitude_at (l : list (R * R)) (f : R) : option R :=
  match l with
  | [] => None
  | (g, a) :: rest => if Req_EM_T g f then Some a else amplitude_at rest f
  end.
Definition harmonic_at (e : excitation) (f : R) : option R :=
  match harmonics e with
  | Some (_ :: (f1, a1) :: rest) => if Req_EM_T f1 f then None else amplitude_at rest f
  | _ => None
  end.

(** Inputs.cpp:3317-3348 [get_magnetic_flux_density_peak] and 3350-3381
    [get_magnetic_flux_density_peak_to_peak]. *)
Definition peak_at (e : excitation) (f : R) : R :=
  match harmonic_at e f with Some a => a | None => peak e end.
Definition peak_to_peak_at (e : excitation) (f : R) : R :=
  match harmonic_at e f with Some a => a * 2 | None => peak_to_peak e end.

(** ** One period of the waveform *)

(** CoreLosses.cpp:1051-1058 (iGSE), and the same guard in Albach, MSE and the
    eddy losses of Roshen: a record of more than one period and a half keeps its
    share of the points. *)
Definition one_period (s : list (R * R)) (f : R) (n : nat) : nat :=
  if Nat.ltb 1 n then
    let duration := fst (nth (n - 1) s (0, 0)) - fst (nth 0 s (0, 0)) in
    if Rlt_dec (3 / 2 * (1 / f)) duration then Nat.max 2 (nround (INR n / (duration * f))) else n
  else n.

(** The intervals (time, difference) between the first [n] samples. *)
Fixpoint intervals (n : nat) (s : list (R * R)) : list (R * R) :=
  match n, s with
  | S m, a :: ((b :: _) as r) =>
      match m with
      | O => []
      | S _ => (fst b - fst a, snd b - snd a) :: intervals m r
      end
  | _, _ => []
  end.

(** An empty waveform makes [size() - 1] wrap around; more points than samples
    are read out of bounds. *)
Definition integrated (s : list (R * R)) (n : nat) : outcome (list (R * R)) :=
  match n with
  | O => UB "waveform[0]"
  | _ => if Nat.ltb (List.length s) n then UB "waveform[i]" else Ok (intervals n s)
  end.

(** ** The models *)

(** CoreLosses.cpp:853-895 [CoreLossesSteinmetzModel::get_core_volumetric_losses]:
    the law from the two peaks, shared with Albach, MSE and Barg
    (1470-1475, 1580-1585, 1773-1778). *)
Definition amplitude_law (beta main ac : R) : figure :=
  if Rlt_dec 2 beta then fmul (cpow main (beta - 2)) (cpow ac 2) else cpow ac beta.

Definition with_temperature (v : figure) (d : steinmetz) (t : R) : figure :=
  fmul v (Some (temperature_factor d t)).

Definition steinmetz_losses (loaded : option steinmetz) (ranges : list steinmetz) (e : excitation) (t : R)
  : outcome figure :=
  f <- switching_frequency e ;;
  let main := Rabs (peak e - offset e) in
  let ac := Rabs (peak_at e f - offset e) in
  d <- datum loaded ranges f ;;
  Ok (with_temperature (fmul (fmul (Some (k_ d)) (cpow f (alpha_ d))) (amplitude_law (beta_ d) main ac)) d t).

(** CoreLosses.cpp:1627-1643 [get_kn] and 959-978 [get_ki]: the mean of the power
    of the cosine over [n] angles; the factor of two is the one of iGSE only. *)
Definition cosine_integral (n : nat) (alpha : R) (two : figure) : figure :=
  fsum (map (fun i => fdiv (fmul (fmul (fmul (cpow (Rabs (cos (INR i * 2 * PI / INR n))) alpha) two)
                                     (Some 2)) (Some PI)) (Some (INR n))) (seq 0 n)).
Definition ki (n : nat) (d : steinmetz) : figure :=
  fdiv (Some (k_ d)) (fmul (cpow (2 * PI) (alpha_ d - 1))
                           (cosine_integral n (alpha_ d) (cpow 2 (beta_ d - alpha_ d)))).
Definition kn (n : nat) (d : steinmetz) : figure :=
  fdiv (Some (k_ d)) (fmul (cpow (2 * PI) (alpha_ d - 1)) (cosine_integral n (alpha_ d) (Some 1))).

(** CoreLosses.cpp:1068-1076, 1684-1692: the integral of the power of the slope. *)
Definition slope_term (alpha : R) (i : R * R) : figure :=
  if Req_EM_T (fst i) 0 then None else fmul (cpow (Rabs (snd i / fst i)) alpha) (Some (fst i)).
Definition slope_integral (alpha : R) (l : list (R * R)) : figure := fsum (map (slope_term alpha) l).

(** CoreLosses.cpp:1016-1081 [CoreLossesIGSEModel::get_core_volumetric_losses];
    [n] is the number of points of sampled waveforms of the settings. *)
Definition igse_points (e : excitation) (f : R) : nat :=
  let all := List.length (samples e) in
  let n := if Rlt_dec 1 (f / frequency e)
           then Nat.max 2 (nround (INR all / (f / frequency e))) else all in
  one_period (samples e) f n.
Definition igse_losses (n : nat) (loaded : option steinmetz) (ranges : list steinmetz) (e : excitation) (t : R)
  : outcome figure :=
  f <- switching_frequency e ;;
  let swing := peak_to_peak_at e f in
  d <- datum loaded ranges f ;;
  l <- integrated (samples e) (igse_points e f) ;;
  Ok (with_temperature (fmul (fmul (fmul (ki n d) (cpow swing (beta_ d - alpha_ d))) (Some f))
                             (slope_integral (alpha_ d) l)) d t).

(** CoreLosses.cpp:1182-1199, 1275-1289 [CoreLossesciGSEModel]: there are no
    coefficients of the expanded loss space
    ([get_expanded_loss_space_coefficients] returns a null pointer), so a new iGSE
    model, without the datum loaded in this one, answers. *)
Definition cigse_losses (n : nat) (loaded : option steinmetz) (ranges : list steinmetz) (e : excitation) (t : R)
  : outcome figure := igse_losses n None ranges e t.

(** CoreLosses.cpp:1452-1467 (Albach): the equivalent sinusoidal frequency. *)
Definition albach_term (swing : R) (i : R * R) : figure :=
  fdiv (match fdiv (Some (snd i)) (Some swing) with Some x => Some (x ^ 2) | None => None end) (Some (fst i)).
Definition albach_frequency (swing : R) (l : list (R * R)) : figure :=
  fmul (Some (2 / PI ^ 2)) (fsum (map (albach_term swing) l)).

(** CoreLosses.cpp:1560-1576 (MSE). *)
Definition mse_term (i : R * R) : figure :=
  if Req_EM_T (fst i) 0 then None else Some ((snd i / fst i) ^ 2 * fst i).
Definition mse_frequency (swing : R) (l : list (R * R)) : figure :=
  fmul (fdiv (Some (2 / PI ^ 2)) (Some (swing ^ 2))) (fsum (map mse_term l)).

(** CoreLosses.cpp:1405-1478 and 1519-1587. *)
Definition equivalent_losses (equivalent : R -> list (R * R) -> figure)
    (loaded : option steinmetz) (ranges : list steinmetz) (e : excitation) (t : R) : outcome figure :=
  f <- switching_frequency e ;;
  let main := peak e - offset e in
  let swing := peak_to_peak_at e f in
  let ac := Rabs (peak_at e f - offset e) in
  d <- datum loaded ranges f ;;
  l <- integrated (samples e) (one_period (samples e) f (List.length (samples e))) ;;
  let power := match equivalent swing l with Some x => cpow x (alpha_ d - 1) | None => None end in
  Ok (with_temperature (fmul (fmul (fmul (Some (k_ d)) (Some f)) power) (amplitude_law (beta_ d) main ac)) d t).
Definition albach_losses := equivalent_losses albach_frequency.
Definition mse_losses := equivalent_losses mse_frequency.

(** CoreLosses.cpp:1650-1696 [CoreLossesNSEModel]: all the samples. *)
Definition nse_losses (n : nat) (loaded : option steinmetz) (ranges : list steinmetz) (e : excitation) (t : R)
  : outcome figure :=
  f <- switching_frequency e ;;
  let main := peak e - offset e in
  d <- datum loaded ranges f ;;
  l <- integrated (samples e) (List.length (samples e)) ;;
  Ok (with_temperature (fmul (fmul (fmul (kn n d) (cpow main (beta_ d - alpha_ d))) (Some f))
                             (slope_integral (alpha_ d) l)) d t).

(** CoreLosses.cpp:1698-1708 [get_plateau_duty_cycle].  A maximum of zero makes
    the quotient NaN or infinite, which is not below the limit. *)
Fixpoint highest_value (x : R) (l : list R) : R :=
  match l with [] => x | y :: r => highest_value (if Rlt_dec x y then y else x) r end.
Definition on_plateau (maximum x : R) : bool :=
  if Req_EM_T maximum 0 then false
  else if Rlt_dec (Rabs (maximum - x) / maximum) (2 / 100) then true else false.
Definition plateau_duty (values : list R) : outcome R :=
  match values with
  | [] => UB "max_element"
  | x :: r =>
      let m := highest_value x r in
      Ok ((INR (List.length values) / 2 - INR (List.length (filter (on_plateau m) values)))
          / INR (List.length values))
  end.

(** CoreLosses.cpp:1736-1796 [CoreLossesBargModel].  The spline through the table
    of factors is a parameter. *)
Definition clamp (x low high : R) : R := if Rlt_dec x low then low else if Rlt_dec high x then high else x.
Definition barg_factor (spline : R -> R) (duty : R) : R :=
  let v := spline (clamp duty (1 / 10) (1 / 2)) in if Rlt_dec 1 v then v else 1.
Definition barg_losses (spline : R -> R) (loaded : option steinmetz) (ranges : list steinmetz) (e : excitation)
    (t : R) : outcome figure :=
  f <- switching_frequency e ;;
  let main := peak e - offset e in
  let ac := Rabs (peak_at e f - offset e) in
  d <- datum loaded ranges f ;;
  duty <- plateau_duty (map snd (samples e)) ;;
  Ok (fmul (Some (barg_factor spline duty))
           (with_temperature (fmul (fmul (Some (PI / 4 * k_ d)) (cpow f (alpha_ d)))
                                   (amplitude_law (beta_ d) main ac)) d t)).
