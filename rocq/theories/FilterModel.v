(** Model of the filters that decide whether a candidate magnetic is kept:
    src/advisers/MagneticFilterPhysical.cpp (saturation, current densities),
    MagneticFilterEnergyCost.cpp:28-63 (stored energy), MagneticFilterGeometry.cpp:94-117
    (turns ratios), MagneticFilter.cpp:289-383 (inductance), and the helpers of
    MagneticFilterInternal.h:34-189.  Exact arithmetic; a score is [None] when it is
    NaN (the mean over no operating point).  What the physical models compute for
    the candidate (flux, saturation, inductance, current density) is given, point by
    point; those models have files of their own. *)
From Coq Require Import ZArith QArith Qabs List String Bool Arith.
From Verif Require Import Base UtilsNumModel.
Import ListNotations.
Open Scope outcome_scope.
Open Scope Q_scope.
Open Scope string_scope.

Definition score := option Q.
Definition mean (total : Q) (n : nat) : score :=
  match n with O => None | _ => Some (total / inject_Z (Z.of_nat n)) end.

(** ** What a design is *)

(** MAS::Topology; the topologies the switch does not name are numbered. *)
Inductive topology :=
| FLYBACK | BUCK | BOOST | ISOLATED_BUCK_BOOST | ISOLATED_BUCK | POWER_FACTOR_CORRECTION
| DIFFERENTIAL_MODE_CHOKE | COMMON_MODE_CHOKE | SEPIC | ZETA | CUK | FOUR_SWITCH_BUCK_BOOST
| SINGLE_SWITCH_FORWARD | TWO_SWITCH_FORWARD | ACTIVE_CLAMP_FORWARD | PUSH_PULL
| PHASE_SHIFTED_FULL_BRIDGE | PHASE_SHIFTED_HALF_BRIDGE | ASYMMETRIC_HALF_BRIDGE
| DUAL_ACTIVE_BRIDGE | LLC | CLLC | CURRENT_TRANSFORMER | OTHER_TOPOLOGY (n : nat).

(** MagneticFilterInternal.h:34-100 [is_energy_storing_topology]. *)
Definition is_energy_storing_topology (t : option topology) : bool :=
  match t with
  | None => false
  | Some t =>
      match t with
      | FLYBACK | BUCK | BOOST | ISOLATED_BUCK_BOOST | ISOLATED_BUCK | POWER_FACTOR_CORRECTION
      | DIFFERENTIAL_MODE_CHOKE | COMMON_MODE_CHOKE | SEPIC | ZETA | CUK
      | FOUR_SWITCH_BUCK_BOOST => true
      | _ => false
      end
  end.

(** MagneticFilterInternal.h:109-120 [windings_on_single_isolation_side]; the sides are
    numbered. *)
Definition windings_on_single_isolation_side (sides : option (list nat)) : bool :=
  match sides with
  | Some (s :: (_ :: _) as rest) => forallb (fun x => Nat.eqb x s) rest
  | _ => false
  end.

(** MAS::DesignRequirements: what the filters read. *)
Record requirements := mkRequirements {
  r_sides : option (list nat); r_topology : option topology; r_inductance : dwt;
  r_common_mode : bool;         (* sub-application "commonModeNoiseFiltering" *)
  r_suppression : bool;         (* application "interferenceSuppression" *)
  r_ratios : list dwt }.

Definition is_some {A} (o : option A) : bool := match o with Some _ => true | None => false end.
Definition minimum_only (d : dwt) : bool :=
  is_some (minimum d) && negb (is_some (nominal d)) && negb (is_some (maximum d)).

(** MagneticFilterInternal.h:135-148 [is_inductor]. *)
Definition is_inductor (r : requirements) : bool :=
  if windings_on_single_isolation_side (r_sides r) then true
  else match r_topology r with
       | Some _ => is_energy_storing_topology (r_topology r)
       | None => negb (minimum_only (r_inductance r))
       end.

(** MagneticFilter.cpp:333-348, the same decision written out once more. *)
Definition is_transformer (r : requirements) : bool :=
  if windings_on_single_isolation_side (r_sides r) then false
  else match r_topology r with
       | Some _ => negb (is_energy_storing_topology (r_topology r))
       | None => is_some (minimum (r_inductance r)) && negb (is_some (nominal (r_inductance r)))
                 && negb (is_some (maximum (r_inductance r)))
       end.

(** ** Saturation *)

(** MagneticFilterInternal.h:181-184 [saturation_derating_temperature]. *)
Definition saturation_temperature (floor ambient : Q) : Q := cmax ambient floor.

(** MagneticFilterInternal.h:164-167 [maximum_allowed_magnetic_flux_density]; 0.7 is
    Defaults.h [maximumProportionMagneticFluxDensitySaturation]. *)
Definition allowed_flux (margin saturation : Q) : Q := saturation * cmin (1 / margin) (7 # 10).

(** The candidate: saturation flux density and saturation current at a temperature
    (Core::get_magnetic_flux_density_saturation and
    Magnetic::calculate_saturation_current, both without the design proportion),
    turns of the primary and effective area. *)
Record part := mkPart {
  p_saturation : Q -> Q; p_current : Q -> outcome Q; p_turns : Q; p_area : Q }.

(** An operating point, and what the models say of the candidate there. *)
Record point := mkPoint {
  o_ambient : Q;
  o_flux : option Q;            (* peak flux density from the current, for inductors *)
  o_voltage : option Q;         (* processed peak of the primary voltage *)
  o_waveform : bool;            (* the primary current has a waveform *)
  o_induced : option Q;         (* peak of the voltage induced by it, when there is one *)
  o_volt_seconds : Q;           (* largest excursion of the integral of the voltage *)
  o_omega : Q;                  (* 2 pi times the frequency *)
  o_peak : option Q;            (* processed peak of the primary current *)
  o_symmetric : bool }.         (* Inputs::can_be_common_mode_choke *)

(** MagnetizingInductance.cpp:1139-1158 [calculate_flux_density_peak_from_voltage]. *)
Definition flux_by_voltage (p : part) (voltage omega : Q) : Q :=
  if Qle_bool (p_turns p) 0 || Qle_bool (p_area p) 0 || Qle_bool omega 0 then 0
  else voltage / (p_turns p * p_area p * omega).

(** MagnetizingInductance.cpp:1160-1173 [calculate_flux_density_peak_from_volt_seconds]. *)
Definition flux_by_volt_seconds (p : part) (volt_seconds : Q) : Q :=
  if Qle_bool (p_turns p) 0 || Qle_bool (p_area p) 0 || Qle_bool volt_seconds 0 then 0
  else volt_seconds / (p_turns p * p_area p).

(** MagneticFilterPhysical.cpp:73-130: the peak flux density of a transformer. *)
Definition transformer_flux (p : part) (o : point) : outcome Q :=
  match o_voltage o, o_waveform o with
  | None, false => Throw "neither processed voltage nor a current waveform"
  | v, _ =>
      let voltage := match v with
                     | Some x => x
                     | None => match o_induced o with Some x => x | None => 0 end
                     end in
      let volt_seconds := match v with Some _ => o_volt_seconds o | None => 0 end in
      if Qlt_bool 0 volt_seconds && Qlt_bool 0 (p_turns p)
      then Ok (flux_by_volt_seconds p volt_seconds)
      else Ok (flux_by_voltage p voltage (o_omega o))
  end.

(** MagneticFilterPhysical.cpp:22-253 [MagneticFilterSaturation::evaluate_magnetic]: the
    loop over the operating points; [None] is the early [return {false, 0.0}].  The
    cache it fills on the way is left out. *)
Fixpoint saturation_loop (inductor tagged : bool) (margin floor : Q) (p : part)
    (l : list point) (total : Q) : outcome (option Q) :=
  match l with
  | nil => Ok (Some total)
  | o :: rest =>
      let temperature := saturation_temperature floor (o_ambient o) in
      let saturation := p_saturation p temperature in
      flux <- (if inductor then Ok (o_flux o)
               else f <- transformer_flux p o ;; Ok (Some f)) ;;
      match flux with
      | None => Ok None
      | Some b =>
          let choke := tagged && o_symmetric o in
          let ratio := if Qlt_bool 0 saturation then b / saturation else 1 in
          let total := if choke then total else total + ratio in
          if negb choke && Qlt_bool saturation (b * margin) then Ok None
          else if inductor && negb choke then
            match o_peak o with
            | None => Throw "processed peak of the primary current"
            | Some peak =>
                isat <- p_current p temperature ;;
                let total := total + (if Qlt_bool 0 isat then margin * peak / isat else 1) in
                if Qlt_bool isat (margin * peak) then Ok None
                else saturation_loop inductor tagged margin floor p rest total
            end
          else saturation_loop inductor tagged margin floor p rest total
      end
  end.

(** MagneticFilterPhysical.cpp:176-182: tagged as a common mode choke. *)
Definition tagged_choke (r : requirements) : bool :=
  match r_topology r with Some COMMON_MODE_CHOKE => true | _ => false end || r_common_mode r.

Definition saturation_filter (r : requirements) (margin floor : Q) (p : part) (l : list point)
    : outcome (bool * score) :=
  t <- saturation_loop (is_inductor r) (tagged_choke r) margin floor p l 0 ;;
  match t with
  | None => Ok (false, Some 0)
  | Some total => Ok (true, mean total (List.length l))
  end.

(** ** Current densities *)

(** MagneticFilterPhysical.cpp:255-288 [MagneticFilterDcCurrentDensity] and 290-325
    [MagneticFilterEffectiveCurrentDensity], the same text with another density and
    another maximum.  A winding is its number of parallels (at least one in MAS); an
    operating point is, per winding, the density of its wire for the current ([None]
    without a current). *)
Fixpoint windings_loop (maximum : Q) (excitations : list (option Q)) (windings : list positive)
    (index : nat) (total : Q) : outcome (option Q) :=
  match windings with
  | nil => Ok (Some total)
  | parallels :: rest =>
      match nth_error excitations index with
      | None => UB "excitations_per_winding[windingIndex]"
      | Some None => Throw "Current is missing in excitation"
      | Some (Some d) =>
          let density := d / inject_Z (Zpos parallels) in
          let total := total + density / maximum in
          if Qlt_bool maximum density then Ok None
          else windings_loop maximum excitations rest (S index) total
      end
  end.
Fixpoint density_loop (maximum : Q) (windings : list positive) (l : list (list (option Q)))
    (total : Q) : outcome (option Q) :=
  match l with
  | nil => Ok (Some total)
  | e :: rest =>
      r <- windings_loop maximum e windings 0 total ;;
      match r with None => Ok None | Some total => density_loop maximum windings rest total end
  end.
Definition density_filter (maximum : Q) (windings : list positive) (l : list (list (option Q)))
    : outcome (bool * score) :=
  match l with
  | e :: _ =>
      if negb (Nat.eqb (List.length windings) (List.length e)) then Ok (false, Some 0)
      else r <- density_loop maximum windings l 0 ;;
           match r with
           | None => Ok (false, Some 0)
           | Some total => Ok (true, mean total (List.length l))
           end
  | nil => Ok (true, None)
  end.

(** Defaults.h:31-33. *)
Definition maximum_current_density : Q := 7000000.
Definition maximum_effective_current_density : Q := 12000000.

(** ** Stored energy *)

(** Defaults.h:26 [coreAdviserThresholdValidity]. *)
Definition threshold_validity : Q := 9 # 10.

(** MagneticFilterEnergyCost.cpp:28-63 [MagneticFilterEnergyStored::evaluate_magnetic]:
    the energy the core can store at each operating point; the outputs it fills are
    left out. *)
Fixpoint energy_loop (required : Q) (l : list Q) (total : Q) : bool * Q :=
  match l with
  | nil => (true, total)
  | storable :: rest =>
      let total := cmax total storable in
      if Qle_bool (required * threshold_validity) total then energy_loop required rest total
      else (false, total)
  end.
Definition energy_filter (required : Q) (l : list Q) : bool * Q := energy_loop required l 0.

(** ** Turns ratios and inductance *)

(** Coil.cpp:13732-13739 [Coil::get_turns_ratios]; a winding without turns would make
    an infinite ratio: the turns are positive here. *)
Definition turns_ratios (turns : list positive) : list Q :=
  match turns with
  | nil => nil
  | n :: rest => map (fun k => inject_Z (Zpos n) / inject_Z (Zpos k)) rest
  end.

(** MagneticFilterGeometry.cpp:94-117 [MagneticFilterTurnsRatios::evaluate_magnetic]. *)
Fixpoint ratios_loop (required : list dwt) (ratios : list Q) (total : Q) : outcome (bool * Q) :=
  match required, ratios with
  | d :: rest, x :: xs =>
      ok <- check_requirement d x ;;
      if negb ok then Ok (false, 0)
      else r <- resolve_dimensional_values (DTol d) NOMINAL ;;
           ratios_loop rest xs (total + Qabs (r - x))
  | _, _ => Ok (true, total)
  end.
Definition ratios_filter (required : list dwt) (turns : list positive) : outcome (bool * Q) :=
  match required with
  | nil => Ok (true, 0)
  | _ => if negb (Nat.eqb (List.length (turns_ratios turns)) (List.length required)) then Ok (false, 0)
         else ratios_loop required (turns_ratios turns) 0
  end.

(** MagneticFilter.cpp:289-383 [MagneticFilterMagnetizingInductance::evaluate_magnetic]:
    the inductance at each operating point, [None] when its calculation threw.  The
    outputs it fills are left out. *)
Fixpoint inductance_loop (d : dwt) (l : list (option Q)) (valid : bool) (total : Q)
    : outcome (option (bool * Q)) :=
  match l with
  | nil => Ok (Some (valid, total))
  | None :: _ => Ok None
  | Some x :: rest =>
      r <- resolve_dimensional_values (DTol d) NOMINAL ;;
      ok <- check_requirement d x ;;
      inductance_loop d rest (valid && ok) (total + Qabs (r - x))
  end.
Definition suppression (r : requirements) : bool :=
  match r_topology r with
  | Some COMMON_MODE_CHOKE | Some DIFFERENTIAL_MODE_CHOKE => true
  | _ => false
  end || r_suppression r.
(** With no operating point (bias) the inductance is asked of the bare core; with one, of
    the biased core. *)
Definition inductance_filter (r : requirements) (unbiased biased : list (option Q))
    : outcome (bool * score) :=
  let d := r_inductance r in
  let free := negb (is_some (minimum d)) && negb (is_some (nominal d)) && negb (is_some (maximum d)) in
  let zero := match nominal d with
              | Some n => Qle_bool n 0 && negb (is_some (minimum d)) && negb (is_some (maximum d))
              | None => false
              end in
  if free || zero || suppression r then Ok (true, Some 0)
  else
    let l := if is_transformer r then unbiased else biased in
    t <- inductance_loop d l true 0 ;;
    match t with
    | None => Ok (false, Some 0)
    | Some (valid, total) => Ok (valid, mean total (List.length l))
    end.
