(** * Sizing turns and gaps

    Models src/physical_models/MagnetizingInductance.cpp (turns for an inductance,
    gaps for an inductance and against saturation, turns and flux densities from
    voltages, joint gap and turns) and [get_gapping_by_fringing_factor] of
    src/physical_models/Reluctance.cpp, over the real numbers.

    Simplified throughout: doubles are real numbers and [int] turn counts natural
    numbers without overflow.  What the functions ask of cores and materials is a
    parameter: the inductance at a number of turns, the reluctance at a gap
    length, the fringing factor at a gap length.  The parameters are total: an
    exception thrown by them propagates in the code. *)
From Coq Require Import Reals List Lra Lia ZArith.
From Verif Require Import Base GapModel.
Import ListNotations.
Local Open Scope R_scope.

(** [std::round] of a number that is not negative, cast to [int]; [std::ceil] of
    a positive number. *)
Definition nround (x : R) : nat := Z.to_nat (Int_part (x + 1 / 2)).
Definition nceil (x : R) : nat := Z.to_nat (- Int_part (- x)).

(** Constants.h:13 [residualGap], Constants.h:72 [initialGapLengthForSearching]. *)
Definition residual : R := 5 / 1000000.
Definition search_step : R := 1 / 1000.

(** ** Turns for an inductance *)

(** MagnetizingInductance.cpp:696 (and 1108-1109): the seed. *)
Definition turns_seed (desired rel : R) : nat := Nat.max 1 (nround (sqrt (desired * rel))).

(** MagnetizingInductance.cpp:711-717: at most six steps of the square law. *)
Fixpoint newton (fuel : nat) (desired : R) (inductance : nat -> R) (n : nat) : nat :=
  match fuel with
  | O => n
  | S k =>
      if Rle_dec (inductance n) 0 then n
      else
        let next := Nat.max 1 (nround (INR n * sqrt (desired / inductance n))) in
        if Nat.eqb next n then n else newton k desired inductance next
  end.

(** MagnetizingInductance.cpp:723-727: at most a hundred turns more. *)
Fixpoint bump (fuel : nat) (desired : R) (inductance : nat -> R) (n : nat) : nat :=
  match fuel with
  | O => n
  | S k =>
      if Rle_dec (inductance n) 0 then n
      else if Rle_dec desired (inductance n) then n
      else bump k desired inductance (n + 1)
  end.

(** MagnetizingInductance.cpp:734-750: the candidate of the smallest error; the
    infinite error to start with is [None]. *)
Fixpoint nearest (l : list nat) (desired : R) (inductance : nat -> R) (best : nat) (error : option R) : nat :=
  match l with
  | [] => best
  | c :: rest =>
      if Nat.ltb c 1 then nearest rest desired inductance best error
      else if Rle_dec (inductance c) 0 then nearest rest desired inductance best error
      else
        let e := Rabs (inductance c - desired) in
        match error with
        | None => nearest rest desired inductance c (Some e)
        | Some e0 => if Rlt_dec e e0 then nearest rest desired inductance c (Some e)
                     else nearest rest desired inductance best (Some e0)
        end
  end.

(** [DimensionalValues]: only the minimum is told apart here. *)
Inductive preference := Minimum | Nominal.

(** MagnetizingInductance.cpp:661-760 [calculate_number_turns_from_gapping_and_inductance]:
    [present] are the turns of the first winding, if any; [inductance] is the
    inductance at a number of turns under the first operating point, if any.
    [numberTurnsPrimary - 1] of zero turns is skipped like zero. *)
Definition number_turns (desired : R) (present : option nat) (rel : R) (inductance : option (nat -> R))
    (p : preference) : nat :=
  match present with
  | None => 1%nat
  | Some t =>
      if Rle_dec desired 0 then Nat.max 1 t
      else
        let seed := turns_seed desired rel in
        match inductance with
        | None => seed
        | Some f =>
            let n := newton 6 desired f seed in
            match p with
            | Minimum => Nat.max 1 (bump 100 desired f n)
            | Nominal => Nat.max 1 (nearest [(n - 1)%nat; n; (n + 1)%nat] desired f n None)
            end
        end
  end.

(** ** Gap for an inductance *)

(** MagnetizingInductance.cpp:994-1069: the search, for ground and spacer gaps.
    [rel] is the reluctance of the core with a gap of a length, at the
    permeability found before.  Distributed gaps, whose number changes during
    the search, are not modelled. *)
Fixpoint gap_search (fuel : nat) (needed : R) (rel : R -> R) (g step : R) (increasing : bool) : R :=
  match fuel with
  | O => g
  | S k =>
      if Rlt_dec (Rabs (needed - rel g) / needed) (1 / 1000) then g
      else
        let flip := if increasing then (if Rlt_dec needed (rel g) then true else false)
                    else (if Rlt_dec (rel g) needed then true else false) in
        let increasing' := if flip then negb increasing else increasing in
        let step' := if flip then Rmax (step / 2) residual else step in
        gap_search k needed rel (if increasing' then g + step' else Rmax residual (g - step')) step' increasing'
  end.

(** Utils [roundFloat] of a number that is not negative. *)
Definition round_to (x : R) (decimals : nat) : R := INR (nround (x * 10 ^ decimals)) / 10 ^ decimals.

(** MagnetizingInductance.cpp:922-1090 [calculate_gapping_from_number_turns_and_inductance]:
    the length of the gap. *)
Definition gap_for_inductance (turns desired : R) (rel : R -> R) (decimals : nat) : R :=
  Rmax residual (round_to (gap_search 100 (turns ^ 2 / desired) rel residual search_step true) decimals).

(** ** Gap against saturation *)

(** MagnetizingInductance.cpp:801-859: core and gap reluctance by the classic
    formulas, turns, and flux density. *)
Definition classic_total (effective_length mu effective_area gap_area g : R) : R :=
  effective_length / (mu0 * mu * effective_area) + g / (mu0 * gap_area).
Definition peak_density (desired current total effective_area : R) : R :=
  INR (Nat.max 1 (nround (sqrt (desired * total)))) * current / total / effective_area.
Fixpoint saturation_loop (fuel : nat) (density : R -> R) (target g : R) : R :=
  match fuel with
  | O => g
  | S k => if Rle_dec (density g) target then g else saturation_loop k density target (g * (3 / 2))
  end.

(** MagnetizingInductance.cpp:785-865 [calculate_gap_from_saturation_constraint]. *)
Definition gap_against_saturation (desired current target effective_length mu effective_area gap_area : R) : R :=
  saturation_loop 15 (fun g => peak_density desired current (classic_total effective_length mu effective_area gap_area g) effective_area)
    target (desired * current ^ 2 * mu0 / (effective_area * target ^ 2)).

(** ** Gap for a fringing factor *)

(** Reluctance.cpp:972-988: bisection of a bracket. *)
Fixpoint bisect (fuel : nat) (factor : R -> R) (wanted lo hi flo : R) : R :=
  match fuel with
  | O => (lo + hi) / 2
  | S k =>
      if Rlt_dec (residual / 10) (hi - lo) then
        let mid := (lo + hi) / 2 in
        if Rlt_dec (Rabs (factor mid - wanted) / wanted) (1 / 1000) then mid
        else if Rle_dec ((flo - wanted) * (factor mid - wanted)) 0 then bisect k factor wanted lo mid flo
        else bisect k factor wanted mid hi (factor mid)
      else (lo + hi) / 2
  end.

(** Reluctance.cpp:962-989: the first bracket that the wanted factor crosses. *)
Fixpoint first_bracket (factor : R -> R) (wanted lo : R) (l : list R) : option R :=
  match l with
  | [] => None
  | hi :: rest =>
      if Rlt_dec 0 ((factor lo - wanted) * (factor hi - wanted)) then first_bracket factor wanted hi rest
      else Some (bisect 100 factor wanted lo hi (factor lo))
  end.

(** Reluctance.cpp:994-1002: the closest scanned point; the first error compared
    with the largest double is taken. *)
Fixpoint closest_point (factor : R -> R) (wanted best error : R) (l : list R) : R :=
  match l with
  | [] => best
  | x :: rest =>
      if Rlt_dec (Rabs (factor x - wanted)) error then closest_point factor wanted x (Rabs (factor x - wanted)) rest
      else closest_point factor wanted best error rest
  end.

(** Reluctance.cpp:952-958: 65 points in geometric progression. *)
Definition scan_point (height : R) (i : nat) : R := residual * Rpower (height / residual) (INR i / 64).
Definition scan_points (height : R) : list R := map (scan_point height) (seq 1 64).

(** Reluctance.cpp:921-1004 [get_gapping_by_fringing_factor]: [factor] is the
    highest fringing factor of the core with a gap of a length. *)
Definition gap_by_fringing (factor : R -> R) (height wanted : R) : R :=
  if Rle_dec height residual then residual
  else match first_bracket factor wanted (scan_point height 0) (scan_points height) with
       | Some g => g
       | None => closest_point factor wanted (scan_point height 0) (Rabs (factor (scan_point height 0) - wanted)) (scan_points height)
       end.

(** ** Turns and flux densities from voltages *)

(** MagnetizingInductance.cpp:1113-1137 [calculate_flux_density_peak], given the
    reluctance. *)
Definition flux_density_peak (turns current rel effective_area : R) : R := turns * current / rel / effective_area.

(** MagnetizingInductance.cpp:1139-1158 [calculate_flux_density_peak_from_voltage]. *)
Definition density_from_voltage (effective_area turns voltage frequency : R) : R :=
  let omega := 2 * PI * frequency in
  if Rle_dec turns 0 then 0 else if Rle_dec effective_area 0 then 0 else if Rle_dec omega 0 then 0
  else voltage / (turns * effective_area * omega).

(** MagnetizingInductance.cpp:1160-1173 [calculate_flux_density_peak_from_volt_seconds]. *)
Definition density_from_volt_seconds (effective_area turns volt_seconds : R) : R :=
  if Rle_dec turns 0 then 0 else if Rle_dec effective_area 0 then 0 else if Rle_dec volt_seconds 0 then 0
  else volt_seconds / (turns * effective_area).

(** MagnetizingInductance.cpp:1175-1186 [calculate_turns_from_volt_seconds_and_max_flux_density]. *)
Definition turns_from_volt_seconds (effective_area volt_seconds density : R) : nat :=
  if Rle_dec effective_area 0 then 0%nat else if Rle_dec density 0 then 0%nat else if Rle_dec volt_seconds 0 then 0%nat
  else Nat.max 1 (nceil (volt_seconds / (density * effective_area))).

(** MagnetizingInductance.cpp:1188-1206 [calculate_turns_from_voltage_and_max_flux_density]. *)
Definition turns_from_voltage (effective_area voltage frequency density : R) : nat :=
  let omega := 2 * PI * frequency in
  if Rle_dec effective_area 0 then 1%nat else if Rle_dec omega 0 then 1%nat else if Rle_dec density 0 then 1%nat
  else Nat.max 1 (nceil (voltage / (effective_area * omega * density))).

(** ** Gap and turns together *)

(** MagnetizingInductance.cpp:1208-1307 [calculate_optimal_gap_and_turns]: [core_rel]
    is the reluctance of the ungapped core, [rel] that of the core with a ground
    gap of a length, with fringing; [None] stands for the pair of minus ones. *)
Definition gap_and_turns (desired current density effective_area core_rel gap_area column_width : R) (rel : R -> R)
    : option (R * nat) :=
  let least := Nat.max 1 (nceil (desired * current / (density * effective_area))) in
  let required := INR least * INR least / desired in
  let needed := required - core_rel in
  if Rle_dec needed 0 then Some (0, Nat.max 1 (nround (sqrt (desired * core_rel))))
  else
    let g := needed * mu0 * gap_area in
    let longest := 4 / 10 * column_width in
    if Rlt_dec longest g then None
    else
      let g := Rmax residual g in
      let turns := Nat.max 1 (nround (sqrt (desired * rel g))) in
      if Rlt_dec (density * (105 / 100)) (flux_density_peak (INR turns) current (rel g) effective_area) then
        let turns' := nceil (desired * current / (density * effective_area)) in
        let needed' := INR turns' * INR turns' / desired - core_rel in
        if Rlt_dec 0 needed' then Some (Rmin longest (Rmax residual (needed' * mu0 * gap_area)), turns')
        else Some (g, turns')
      else Some (g, turns).

(** ** Inductance under bias *)

(** MagnetizingInductance.cpp:418-573 [calculate_inductance_and_magnetic_flux_density]:
    both timeouts are one, so both loops run once, and the flux density comes
    from the reluctance before the bias.  [mu] is the initial permeability at a
    field strength, [unbiased] the one without it, [rel] the reluctance of the
    core at a permeability, [offset] the offset of the magnetizing current and
    [current] any of its values.  The low-frequency harmonics that can raise the
    bias (549-556), windings off the main column (575-607) and the air
    inductance (619-622) are left out. *)
Definition biased_inductance (mu : R -> R) (unbiased : R) (rel : R -> R) (effective_area turns offset : R) : R :=
  let total := rel unbiased in
  let bias := turns * offset / total / effective_area / (mu0 * unbiased) in
  turns ^ 2 / rel (mu bias).
Definition biased_density (unbiased : R) (rel : R -> R) (effective_area turns current : R) : R :=
  turns * current / rel unbiased / effective_area.

(** MagnetizingInductance.cpp:503-527 with Inputs.cpp [calculate_magnetizing_current]:
    the swing of the magnetizing current that a swing of volt-seconds drives
    through the inductance before the bias, and the swing of flux density. *)
Definition driven_current (unbiased : R) (rel : R -> R) (turns volt_seconds : R) : R :=
  volt_seconds / (turns ^ 2 / rel unbiased).
Definition driven_density (unbiased : R) (rel : R -> R) (effective_area turns volt_seconds : R) : R :=
  biased_density unbiased rel effective_area turns (driven_current unbiased rel turns volt_seconds).
