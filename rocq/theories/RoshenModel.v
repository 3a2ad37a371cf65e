(** * The core-loss model of Roshen

    Models src/physical_models/CoreLosses.cpp:1840-2354 over the real numbers:
    the loop between the two branches of the hysteresis curve, and the classical
    and excess eddy losses.  [figure]s are as in CoreLossModel.v.  Not modelled:
    the interpolations of the coercive force, remanence and saturation of the
    material, which are inputs; waveforms without times; the completion of
    waveforms by [standardize_waveform] (the samples here are complete). *)
From Coq Require Import Reals List Lra Lia ZArith String.
From Verif Require Import Base SizingModel CoreLossModel CoreLossInverseModel.
Import ListNotations.
Local Open Scope R_scope.
Local Open Scope outcome_scope.

(** ** Parameters *)

(** The map of [get_roshen_parameters] (CoreLosses.cpp:1895-1946). *)
Record roshen := {
  coercive : R; remanence : R; saturation_flux : R; saturation_field : R;
  resistivity : R; excess_coefficient : option R }.

(** The coefficients of the fit of the resistivity. *)
Record fit := {
  excess_losses : R; by_frequency : R; by_flux_density : R; at_origin : R; by_temperature : R }.

(** CoreLosses.cpp:1908-1938: with coefficients, the fit; without, the
    resistivity of the material, which is [plain]. *)
Definition roshen_parameters (hc br bs hs : R) (coefficients : option fit) (plain : R) (e : excitation) (t : R)
  : outcome roshen :=
  match coefficients with
  | Some c =>
      let r := at_origin c + by_temperature c * (t - 25) + by_flux_density c * (peak e - offset e)
               + by_frequency c * frequency e in
      if Rle_dec r 0 then Throw "CalculationException"
      else Ok {| coercive := hc; remanence := br; saturation_flux := bs; saturation_field := hs;
                 resistivity := r; excess_coefficient := Some (excess_losses c) |}
  | None =>
      Ok {| coercive := hc; remanence := br; saturation_flux := bs; saturation_field := hs;
            resistivity := plain; excess_coefficient := None |}
  end.

(** ** The loop *)

(** CoreLosses.cpp:1969-1993 [get_major_loop_parameters].  In these and in the
    branches a division by zero, which gives infinities or NaN, is Coq's zero. *)
Definition b1_of (p : roshen) : R :=
  (saturation_field p / saturation_flux p + coercive p / saturation_flux p - 0 / remanence p
   - coercive p / remanence p) / (saturation_field p - 0).
Definition a1_of (p : roshen) : R := (coercive p - remanence p * b1_of p * coercive p) / remanence p.
Definition b2_of (p : roshen) : R :=
  (- saturation_field p + coercive p - - saturation_flux p * a1_of p)
  / (- saturation_flux p * Rabs (- saturation_field p + coercive p)).

(** CoreLosses.cpp:2094-2118: the branches. *)
Definition half_loop (p : roshen) (h a b : R) : R := (h + coercive p) / (a + b * Rabs (h + coercive p)).
Definition upper_branch (p : roshen) (h : R) : R :=
  if Rlt_dec h (- coercive p) then half_loop p h (a1_of p) (b2_of p) else half_loop p h (a1_of p) (b1_of p).
Definition lower_branch (p : roshen) (h : R) : R :=
  if Rlt_dec h (coercive p) then - half_loop p (- h) (a1_of p) (b1_of p) else - half_loop p (- h) (a1_of p) (b2_of p).

(** CoreLosses.cpp:2019-2068 [roshen_compute_analytical_delta]. *)
Definition delta_of (hc a1 b1 b2 bp : R) : R :=
  let A := 2 * bp * hc * b1 * b2 + bp * a1 * (b1 + b2) - hc * (b1 + b2) - a1 in
  let C := - (2) * bp * b1 * b2 + b1 + b2 in
  let D := 4 * bp * bp * hc * hc * b1 * b1 * b2 * b2
           - 4 * bp * bp * hc * a1 * b1 * b1 * b2
           + 4 * bp * bp * hc * a1 * b1 * b2 * b2
           + bp * bp * a1 * a1 * b1 * b1
           - 2 * bp * bp * a1 * a1 * b1 * b2
           + bp * bp * a1 * a1 * b2 * b2
           - 4 * bp * hc * hc * b1 * b1 * b2
           - 4 * bp * hc * hc * b1 * b2 * b2
           + 2 * bp * hc * a1 * b1 * b1
           - 2 * bp * hc * a1 * b2 * b2
           + hc * hc * b1 * b1
           + 2 * hc * hc * b1 * b2
           + hc * hc * b2 * b2
           + a1 * a1 in
  if Rlt_dec D 0 then 0
  else
    let u := (A + sqrt D) / C in
    let u := if Rle_dec u 0 then (A - sqrt D) / C else u in
    if Rle_dec u 0 then 0
    else
      let above := - u / (a1 + b2 * u) in
      let below := - (2 * hc + u) / (a1 + b1 * (2 * hc + u)) in
      (above - below) / 2.

(** CoreLosses.cpp:2089-2092: from minus the saturation to it every 0.1 A/m
    (Constants.h:74). *)
Definition field_step : R := 1 / 10.
Definition field_points (p : roshen) : list R :=
  if Rlt_dec (saturation_field p) 0 then []
  else grid (- saturation_field p) field_step (S (Z.to_nat (Int_part (2 * saturation_field p / field_step)))).

(** CoreLosses.cpp:2070-2163 [get_bh_loop]. *)
Definition inside (bp x : R) : bool :=
  if Rle_dec x bp then if Rle_dec (- bp) x then true else false else false.
Definition shift_of (p : roshen) (bp : R) : R := delta_of (coercive p) (a1_of p) (b1_of p) (b2_of p) bp.
Definition bh_loop (p : roshen) (bp : R) : list R * list R :=
  let points := field_points p in
  let delta := shift_of p bp in
  (filter (inside bp) (map (fun h => upper_branch p h - delta) points),
   filter (inside bp) (map (fun h => lower_branch p h + delta) points)).

(** CoreLosses.cpp:2186-2211 [get_hysteresis_losses_density]. *)
Definition hysteresis_density (p : roshen) (e : excitation) : R :=
  let '(above, below) := bh_loop p (peak e - offset e) in
  fold_right Rplus 0 (map (fun i => Rabs (fst i - snd i) * field_step) (combine above below)) * frequency e.

(** ** Eddies *)

(** CoreLosses.cpp:2236-2287 [get_eddy_current_losses_density]; [area] is the one
    of the first column. *)
Definition eddy_density (area rho : R) (e : excitation) : outcome figure :=
  l <- integrated (samples e) (one_period (samples e) (frequency e) (List.length (samples e))) ;;
  Ok (fmul (fmul (fdiv (Some (area / 8 / PI)) (Some rho)) (Some (frequency e))) (fsum (map mse_term l))).

(** CoreLosses.cpp:2311-2354 [get_excess_eddy_current_losses_density]. *)
Definition excess_term (i : R * R) : figure :=
  if Req_EM_T (fst i) 0 then None else fmul (cpow (Rabs (snd i) / fst i) (3 / 2)) (Some (fst i)).
Definition fsqrt (x : figure) : figure :=
  match x with Some v => if Rlt_dec v 0 then None else Some (sqrt v) | None => None end.
Definition excess_density (rho coefficient : R) (e : excitation) : outcome figure :=
  l <- integrated (samples e) (one_period (samples e) (frequency e) (List.length (samples e))) ;;
  Ok (fmul (fmul (fsqrt (fdiv (Some coefficient) (Some rho))) (Some (frequency e))) (fsum (map excess_term l))).

(** CoreLosses.cpp:1840-1855: hysteresis and eddies, per volume. *)
Definition roshen_losses (p : roshen) (area : R) (e : excitation) : outcome (figure * figure) :=
  eddies <- eddy_density area (resistivity p) e ;;
  excess <- (match excess_coefficient p with
             | Some c => excess_density (resistivity p) c e
             | None => Ok (Some 0)
             end) ;;
  Ok (Some (hysteresis_density p e), fadd eddies excess).

(** CoreLosses.cpp:1840-1866 [get_core_losses]: losses of the core, of its eddies,
    of its hysteresis, and per volume. *)
Definition roshen_core (p : roshen) (area volume : R) (e : excitation) : outcome (figure * figure * figure * figure) :=
  l <- roshen_losses p area e ;;
  let '(hysteresis, eddies) := l in
  let density := fadd hysteresis eddies in
  Ok (fmul density (Some volume), fmul eddies (Some volume), fmul hysteresis (Some volume), density).

(** CoreLosses.cpp:1868-1893 [get_core_volumetric_losses]: those of a ring T 10/6/4,
    whose column is 2 mm by 4 mm. *)
Definition roshen_volumetric (p : roshen) (e : excitation) : outcome figure :=
  l <- roshen_losses p (8 / 1000000) e ;;
  Ok (fadd (fst l) (snd l)).
