(** * Conducting area, current density and outer size of wires

    Models src/constructive_models/Wire.cpp (areas, current densities, parallels,
    outer size of litz bundles, equivalent insulation layers, cutting to a
    section), the skin depth of src/physical_models/WindingSkinEffectLosses.cpp
    and the resistivity of src/physical_models/Resistivity.cpp, over the real
    numbers.

    Simplified throughout: doubles are real numbers without rounding; a negative
    number under a root is NaN, kept apart as [None]; a dimension is the number
    that [resolve_dimensional_values] gives for it; counts of conductors are
    natural numbers where the code has [int64_t]. *)
From Coq Require Import Reals List String ZArith Lra.
From Verif Require Import Base.
Import ListNotations.
Local Open Scope outcome_scope.
Local Open Scope R_scope.

(** MAS [WireType] *)
Inductive kind := Litz | RoundWire | Rectangular | Foil | Planar.

(** MAS [WireMaterial]: the resistivity at the reference temperature, its
    coefficient, the reference temperature and the relative permeability. *)
Record material := mkMaterial {
  reference_value : R;
  coefficient : R;
  reference_temperature : R;
  permeability : R
}.

(** MAS [Wire], what these functions read: the kind, the number of conductors,
    the conducting diameter, width and height, the conducting diameter of the
    strand, and the resolved material (of the strand for litz). *)
Record wire := mkWire {
  type : kind;
  conductors : option nat;
  diameter : option R;
  width : option R;
  height : option R;
  strand : option R;
  material_of : option material
}.

(** Constants.h:15 [vacuumPermeability] *)
Definition mu0 : R := 125663706212 / 100000000000000000.
(** std::numeric_limits<double>::max() *)
Definition dbl_max : R := (2 - / 2 ^ 52) * 2 ^ 1023.

(** src/physical_models/Resistivity.cpp:42-45
    [ResistivityWireMaterialModel::get_resistivity] *)
Definition resistivity (m : material) (temperature : R) : R :=
  reference_value m * (1 + coefficient m * (temperature - reference_temperature m)).

(** src/physical_models/WindingSkinEffectLosses.cpp:149-167 [calculate_skin_depth].
    [None] is NaN.  A material without permeability divides by zero in the code,
    outside the model. *)
Definition skin_depth (m : material) (frequency temperature : R) : option R :=
  if Rle_dec frequency 0 then Some dbl_max
  else
    let x := resistivity m temperature / (PI * frequency * mu0 * permeability m) in
    if Rlt_dec x 0 then None else Some (sqrt x).

Definition required {A : Type} (o : option A) (message : string) : outcome A :=
  match o with Some v => Ok v | None => Throw message end.

(** Wire.cpp:108-121 [resolve_strand] and :140-163 [resolve_material]; the look up
    of a strand or material given by name is not modelled. *)
Definition strand_of (w : wire) : outcome R := required (strand w) "Litz wire is missing strand information".
Definition resolve_material (w : wire) : outcome material :=
  required (material_of w) "Wire is missing material information".

(** Wire.cpp:675-708 [get_conducting_area_rectangular_from_interpolator].
    [proportion] is the interpolator of the catalogue, [None] when there is none. *)
Definition rectangular_area (proportion : option (R -> R)) (w h : R) : R :=
  let theoretical := w * h in
  match proportion with
  | None => theoretical
  | Some p =>
      let a := p theoretical * theoretical in
      if Rle_dec a 0 then theoretical
      else if Rlt_dec a (theoretical / 2) then theoretical
      else if Rlt_dec (3 / 2) (p theoretical) then theoretical
      else if Rlt_dec (p theoretical) (1 / 2) then theoretical
      else a
  end.

Section Wires.
Variable proportion : option (R -> R).

(** Wire.cpp:1159-1166: the count of conductors, one where it is missing unless
    the wire is litz. *)
Definition count (w : wire) : outcome nat :=
  match conductors w with
  | Some n => Ok n
  | None => match type w with
            | Litz => Throw "Missing number of conductors for wire"
            | _ => Ok 1%nat
            end
  end.

(** Wire.cpp:1158-1221 [calculate_conducting_area] *)
Definition conducting_area (w : wire) : outcome R :=
  n <- count w ;;
  match type w with
  | Litz => d <- strand_of w ;; Ok (PI * (d / 2) ^ 2 * INR n)
  | RoundWire =>
      d <- required (diameter w) "Missing conducting diameter in round wire" ;;
      Ok (PI * (d / 2) ^ 2 * INR n)
  | Rectangular =>
      x <- required (width w) "Missing conducting width in rectangular wire" ;;
      y <- required (height w) "Missing conducting height in rectangular wire" ;;
      Ok (rectangular_area proportion x y * INR n)
  | Foil =>
      x <- required (width w) "Missing conducting width in foil wire" ;;
      y <- required (height w) "Missing conducting height in foil wire" ;;
      Ok (x * (y * INR n))
  | Planar =>
      x <- required (width w) "Missing conducting width in planar wire" ;;
      y <- required (height w) "Missing conducting height in planar wire" ;;
      Ok (x * (y * INR n))
  end.

(** Wire.cpp:1384-1413: the smallest dimension of the conductor *)
Definition smallest (w : wire) : outcome R :=
  match type w with
  | Litz => strand_of w
  | RoundWire => required (diameter w) "Missing conducting diameter in round wire"
  | _ =>
      x <- required (width w) "Missing conducting width in foil wire" ;;
      y <- required (height w) "Missing conducting height in foil wire" ;;
      Ok (if Rlt_dec y x then y else x)
  end.

(** Wire.cpp:1428-1451: the area deeper than the skin depth [s] *)
Definition idle_area (w : wire) (n : nat) (area s : R) : outcome R :=
  match type w with
  | Litz => d <- strand_of w ;; Ok (PI * (d / 2 - s) ^ 2 * INR n)
  | RoundWire =>
      d <- required (diameter w) "bad_optional_access" ;;
      Ok (PI * (d / 2 - s) ^ 2 * INR n)
  | _ =>
      x <- required (width w) "bad_optional_access" ;;
      y <- required (height w) "bad_optional_access" ;;
      Ok ((x - s * 2) * (y - s * 2) * INR n * (area / (x * y)))
  end.

(** Wire.cpp:1380-1466 [calculate_effective_conducting_area].  The caching of the
    conducting area in the wire (:1422-1426) has no effect on the result. *)
Definition effective_area (w : wire) (frequency temperature : R) : outcome R :=
  m <- resolve_material w ;;
  small <- smallest w ;;
  area <- conducting_area w ;;
  if Req_EM_T frequency 0 then Ok area
  else
    n <- count w ;;
    effective <- match skin_depth m frequency temperature with
                 | None => Ok area
                 | Some s =>
                     if Rlt_dec s (small / 2) then
                       idle <- idle_area w n area s ;; Ok (area - idle)
                     else Ok area
                 end ;;
    if Rlt_dec effective 0 then Throw "effectiveConductingArea cannot be negative"
    else Ok effective.

(** Wire.cpp:1468-1470 [calculate_effective_current_density] on figures.  A wire
    without effective area gives an infinity or NaN in the code: undefined here. *)
Definition effective_density (w : wire) (rms frequency temperature : R) : outcome R :=
  a <- effective_area w frequency temperature ;;
  if Req_EM_T a 0 then UB "infinite current density" else Ok (rms / a).

(** MAS [SignalDescriptor]: the processed data of the current, if any, with its
    optional effective frequency and rms. *)
Record processed := mkProcessed { effective_frequency : option R; rms_of : option R }.
Definition current := option processed.

(** Wire.cpp:1347-1360 [calculate_effective_current_density] on a current *)
Definition density_of_current (w : wire) (c : current) (temperature : R) : outcome R :=
  p <- required c "Current is not processed" ;;
  f <- required (effective_frequency p) "Current is missing effective frequency" ;;
  rms <- required (rms_of p) "Current is missing RMS" ;;
  effective_density w rms f temperature.

(** Wire.cpp:1369-1378 [calculate_dc_current_density]: the density at frequency
    zero and at the default ambient temperature, which has then no effect;
    Defaults.h [ambientTemperature] is 25. *)
Definition dc_density (w : wire) (c : current) : outcome R :=
  p <- required c "Current is not processed" ;;
  rms <- required (rms_of p) "Current is missing RMS" ;;
  effective_density w rms 0 25.

(** [int(ceil(x))]: undefined outside the range of [int]. *)
Definition int_ceil (x : R) : outcome Z :=
  let z := (- Int_part (- x))%Z in
  if ((- 2147483648 <=? z) && (z <=? 2147483647))%Z%bool then Ok z else UB "conversion to int out of range".

(** Wire.cpp:1484-1488 [calculate_number_parallels_needed] on figures.  A maximum
    density of zero divides by zero in the code: undefined here. *)
Definition parallels_of_density (density maximum : R) : outcome Z :=
  if Req_EM_T maximum 0 then UB "division by a maximum density of zero" else int_ceil (density / maximum).
Definition parallels_needed (w : wire) (rms frequency temperature maximum : R) : outcome Z :=
  d <- effective_density w rms frequency temperature ;; parallels_of_density d maximum.

(** Wire.cpp:1496-1500 on a current *)
Definition parallels_for_current (w : wire) (c : current) (temperature maximum : R) : outcome Z :=
  d <- density_of_current w c temperature ;; parallels_of_density d maximum.

(** Wire.cpp:1472-1482 on all the operating points: each is the ambient temperature
    and the current of the winding, [None] when its excitation has no current. *)
Fixpoint parallels_loop (w : wire) (points : list (R * option current)) (maximum : R) (most : Z) : outcome Z :=
  match points with
  | [] => Ok most
  | (temperature, c) :: rest =>
      i <- required c "Current is missing" ;;
      n <- parallels_for_current w i temperature maximum ;;
      parallels_loop w rest maximum (Z.max most n)
  end.
Definition parallels_for_points (w : wire) (points : list (R * option current)) (maximum : R) : outcome Z :=
  parallels_loop w points maximum 0.
End Wires.

(** * Litz bundles *)
(** MAS [WireStandard]: only IEC 60317 is told from the others. *)
Inductive standard := Iec | OtherStandard.

(** Wire.cpp:710-733 [get_packing_factor_from_standard] *)
Definition standard_packing (s : standard) (n : nat) : R :=
  match s with
  | Iec =>
      if Nat.eqb n 2 then sqrt 2
      else if Nat.ltb n 12 then 125 / 100
      else if Nat.ltb n 16 then 126 / 100
      else if Nat.ltb n 20 then 127 / 100
      else 128 / 100
  | OtherStandard => 1155 / 1000
  end.

(** Wire.cpp:735-755 [get_serving_thickness_from_standard].  Negative counts of
    layers, which give negative thicknesses in the code, are left out. *)
Definition serving_thickness (layers : nat) : outcome R :=
  if Nat.eqb layers 0 then Ok 0
  else if Nat.leb layers 2 then Ok (255 / 10000000 * INR layers)
  else Throw "Unsupported number of layers in litz serving".

(** Wire.cpp:888-895 [get_outer_diameter_bare_litz], from the outer diameter of
    the strand (see WireTableModel.v for [get_outer_diameter_round]). *)
Definition bare_litz (s : standard) (n : nat) (strand_outer : R) : R :=
  standard_packing s n * sqrt (INR n) * strand_outer.

(** Wire.cpp:876-886 [get_outer_diameter_served_litz] *)
Definition served_litz (s : standard) (n layers : nat) (strand_outer : R) : outcome R :=
  t <- serving_thickness layers ;; Ok (bare_litz s n strand_outer + t * 2).

(** Wire.cpp:919-945 [get_outer_diameter_insulated_litz]; [packing] is the packing
    factor of the catalogue, zero when it has none. *)
Definition insulated_litz (s : standard) (n layers : nat) (thickness packing strand_outer : R) : R :=
  let factor := if Rlt_dec packing (1 / sqrt (9069 / 10000)) then standard_packing s n else packing in
  factor * sqrt (INR n) * strand_outer + 2 * thickness * INR layers.

(** * Insulation of the wire *)
(** MAS [InsulationWireCoating]: the optional breakdown voltage and number of
    layers. *)
Record insulation := mkInsulation { breakdown : option R; layers_of : option Z }.

(** Wire.cpp:1007-1024 [get_equivalent_insulation_layers]: [int(floor(x))] of the
    code is undefined out of range; a voltage of zero divides by zero. *)
Definition equivalent_layers (c : option insulation) (voltage : R) : outcome Z :=
  match c with
  | None => Ok 0%Z
  | Some c =>
      v <- required (breakdown c) "Wire coating is missing required field: breakdown voltage" ;;
      if Req_EM_T voltage 0 then UB "division by a voltage of zero"
      else
        let times := Int_part (v * (85 / 100) / voltage) in
        if ((- 2147483648 <=? times) && (times <=? 2147483647))%Z%bool then
          let n := match layers_of c with Some n => n | None => 1%Z end in
          Ok (if (times <? n)%Z then times else n)
        else UB "conversion to int out of range"
  end.

(** * Cutting foil and planar wires to a section *)
(** The outer dimensions are set from the conducting ones. *)
Record cut_wire := mkCut {
  cut_kind : kind;
  conducting : option R * option R;
  outer : option R * option R;
  cut_area : option R
}.

(** Wire.cpp:1634-1643 [cut_foil_wire_to_section], Constants.h:75
    [foilToSectionMargin]: a section is its width and height. *)
Definition cut_foil (w : cut_wire) (section : R * R) : outcome cut_wire :=
  match cut_kind w with
  | Foil =>
      let h := snd section * (1 - 5 / 100) in
      let c := (fst (conducting w), Some h) in
      Ok (mkCut Foil c c (cut_area w))
  | _ => Throw "Method only valid for Foil wire"
  end.

(** Wire.cpp:1645-1663 [cut_planar_wire_to_section], Constants.h:76
    [planarToSectionMargin] *)
Definition cut_planar (w : cut_wire) (section : R * R) : outcome cut_wire :=
  match cut_kind w with
  | Planar =>
      let x := fst section * (1 - 5 / 100) in
      let c := (Some x, snd (conducting w)) in
      Ok (mkCut Planar c c (match snd c with Some h => Some (x * h) | None => cut_area w end))
  | _ => Throw "Method only valid for Planar wire"
  end.
