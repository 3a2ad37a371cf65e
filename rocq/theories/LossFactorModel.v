(** * Core losses from a loss factor

    Models src/physical_models/CoreLosses.cpp:2617-2764 and the series resistance
    of the other models (CoreLosses.cpp:911-943), over the real numbers.  Not
    modelled: the initial permeability and the reluctance of the core, which are
    inputs; the processing of a magnetizing current without root mean square. *)
From Coq Require Import Reals List Lra Lia ZArith String.
From Verif Require Import Base SizingModel.
Import ListNotations.
Local Open Scope R_scope.
Local Open Scope outcome_scope.

(** ** Tables *)

(** A point of the material: its frequency is optional. *)
Record point := { at_frequency : option R; value : R }.

(** CoreLosses.cpp:2708-2724 dereferences the frequencies without asking. *)
Fixpoint read (points : list point) : outcome (list (R * R)) :=
  match points with
  | [] => Ok []
  | p :: rest =>
      match at_frequency p with
      | Some f => l <- read rest ;; Ok ((f, value p) :: l)
      | None => UB "loss factor without frequency"
      end
  end.

(** CoreLosses.cpp:2709-2712: [std::sort] by frequency.  Simplified: a sort that
    keeps the order of equal frequencies, which [std::sort] does not promise. *)
Fixpoint place (x : R * R) (l : list (R * R)) : list (R * R) :=
  match l with
  | [] => [x]
  | y :: rest => if Rle_dec (fst x) (fst y) then x :: l else y :: place x rest
  end.
Definition sort (l : list (R * R)) : list (R * R) := fold_right place [] l.

(** CoreLosses.cpp:2714-2722: those above the last one kept. *)
Fixpoint rising (last : option R) (l : list (R * R)) : list (R * R) :=
  match l with
  | [] => []
  | (f, v) :: rest =>
      match last with
      | None => (f, v) :: rising (Some f) rest
      | Some x => if Rlt_dec x f then (f, v) :: rising (Some f) rest else rising last rest
      end
  end.
Definition table (points : list point) : outcome (list (R * R)) :=
  l <- read points ;; Ok (rising None (sort l)).

(** [std::clamp]. *)
Definition clamp (x low high : R) : R := if Rlt_dec x low then low else if Rlt_dec high x then high else x.

(** CoreLosses.cpp:2724-2751: the function kept for the material.  [spline] is
    [tk::spline] of the points, a library that is not part of the code. *)
Definition interpolation (spline : list (R * R) -> R -> R) (t : list (R * R)) (f : R) : R :=
  match t with
  | [] => 0
  | [(_, c)] => c
  | [(x0, y0); (x1, y1)] => y0 + (y1 - y0) * (clamp f x0 x1 - x0) / (x1 - x0)
  | (x0, _) :: _ => spline t (clamp f x0 (fst (last t (0, 0))))
  end.

(** ** Series resistance *)

(** A material: name, points, and initial permeability at the temperature. *)
Record material := { name : string; points : list point; permeability : R }.

(** CoreLosses.h:26 [lossFactorInterps]: tables by the name of the material. *)
Definition memory := string -> option (list (R * R)).
Definition remember (m : memory) (n : string) (t : list (R * R)) : memory :=
  fun x => if String.eqb x n then Some t else m x.

(** CoreLosses.cpp:2694-2764 [get_core_losses_series_resistance]. *)
Definition loss_factor (spline : list (R * R) -> R -> R) (m : memory) (x : material) (f : R) : memory * outcome R :=
  match m (name x) with
  | Some t =>
      let v := interpolation spline t f in
      (m, if Rlt_dec v 0 then Throw "CalculationException" else Ok v)
  | None =>
      match table (points x) with
      | Ok [] => (m, Throw "InvalidInputException")
      | Ok t =>
          let v := interpolation spline t f in
          (remember m (name x) t, if Rlt_dec v 0 then Throw "CalculationException" else Ok v)
      | Throw e => (m, Throw e)
      | UB e => (m, UB e)
      | OutOfFuel => (m, OutOfFuel)
      end
  end.
Definition series_resistance (spline : list (R * R) -> R -> R) (m : memory) (x : material) (f inductance : R)
  : memory * outcome R :=
  let '(m', o) := loss_factor spline m x f in
  (m', v <- o ;; Ok (v * permeability x * 2 * PI * f * inductance)).

(** ** Losses *)

(** CoreLosses.cpp:2666-2692: the losses of a current of that root mean square.
    Without an inductance, one henry (CoreLosses.h:527). *)
Definition factor_losses (spline : list (R * R) -> R -> R) (m : memory) (x : material) (f inductance rms : R)
  : memory * outcome R :=
  let '(m', o) := series_resistance spline m x f inductance in
  (m', r <- o ;; Ok (r * rms ^ 2)).

(** CoreLosses.cpp:2617-2630 [calculate_magnetizing_inductance_from_excitation].  A
    current that is zero makes the quotient infinite or NaN, which is cast to an
    integer; flux density and current are not negative otherwise. *)
Definition implied_turns (flux_density current reluctance area : R) : outcome nat :=
  if Req_EM_T current 0 then UB "cast of a value that is not finite"
  else Ok (nround (INR (nceil (flux_density / current * reluctance * area)))).
Definition implied_inductance (flux_density current reluctance area : R) : outcome R :=
  n <- implied_turns flux_density current reluctance area ;; Ok (INR n * INR n / reluctance).

(** CoreLosses.cpp:2632-2664 [get_core_losses]: the losses and those per volume. *)
Definition factor_core_losses (spline : list (R * R) -> R -> R) (m : memory) (x : material)
    (f flux_density current rms reluctance area volume : R) : memory * outcome (R * R) :=
  match implied_inductance flux_density current reluctance area with
  | Ok l =>
      let '(m', o) := factor_losses spline m x f l rms in
      (m', total <- o ;; Ok (total, total / volume))
  | Throw e => (m, Throw e)
  | UB e => (m, UB e)
  | OutOfFuel => (m, OutOfFuel)
  end.

(** ** Series resistance of the other models *)

(** CoreLosses.cpp:911-943: a sine of one ampere through as many whole turns as
    fit under the inductance.  [losses b] are those of the model for a sine of
    peak flux density [b]. *)
Definition whole_turns (inductance reluctance : R) : nat := Z.to_nat (Int_part (sqrt (inductance * reluctance))).
Definition virtual_flux_density (inductance reluctance area : R) : R :=
  sqrt 2 * INR (whole_turns inductance reluctance) / reluctance / area.
Definition model_resistance (losses : R -> R) (inductance reluctance area : R) : R :=
  losses (virtual_flux_density inductance reluctance area) / 1 ^ 2.

(** ** Which model the filters use *)

(** MagneticFilterInternal.h:296-338 [compute_core_losses_with_negative_guard]:
    accepted, and the losses.  The first two say what the material offers. *)
Definition guarded (steinmetz_data proprietary_data : bool) (steinmetz proprietary : outcome R) : outcome (bool * R) :=
  if steinmetz_data then v <- steinmetz ;; Ok (true, v)
  else if proprietary_data then
    v <- proprietary ;; Ok (if Rle_dec 0 v then true else false, v)
  else Ok (false, 0).
(** MagneticFilterLosses.cpp:171-186: rejected ([None]), refused, or used. *)
Definition filtered (steinmetz_data proprietary_data : bool) (steinmetz proprietary : outcome R) : outcome (option R) :=
  p <- guarded steinmetz_data proprietary_data steinmetz proprietary ;;
  if fst p then if Rlt_dec (snd p) 0 then Throw "CalculationException" else Ok (Some (snd p)) else Ok None.
