(** * Reluctance of air gaps and of gapped cores

    Models src/physical_models/Reluctance.cpp, the inline functions of
    src/physical_models/Reluctance.h, and the gap and energy functions of
    src/physical_models/MagneticEnergy.cpp, over the real numbers.

    Simplified throughout: doubles are real numbers, without rounding, overflow
    or infinities.  Where the code divides by a logarithm that can be zero the
    model keeps the limit apart (see [zhang]); divisions by zero areas, sections
    or permeabilities give infinities in the code and are outside the model. *)
From Coq Require Import Reals List String Lra.
From Verif Require Import Base.
Import ListNotations.
Local Open Scope outcome_scope.
Local Open Scope R_scope.

(** Constants.h:15 [vacuumPermeability]. *)
Definition mu0 : R := 125663706212 / 100000000000000000.

(** MAS [ColumnShape]: the models only tell round columns from the others. *)
Inductive column_shape := Round | Other.

(** MAS [CoreGap]: length, area, shape, section dimensions (width, depth),
    distances to the closest normal and parallel surfaces, and the height
    coordinate [coordinates[1]]. *)
Record gap := mkGap {
  length : R;
  area : option R;
  shape : option column_shape;
  section : option (R * R);
  normal : option R;
  parallel : option R;
  height : option R
}.

(** MAS [AirGapReluctanceOutput]: reluctance, fringing factor, maximum storable
    energy, and the name of the method. *)
Record gap_result := mkResult { reluctance : R; fringing : R; energy : R; used : string }.

(** [if (!optional) throw] before each use. *)
Definition required {A : Type} (o : option A) (message : string) : outcome A :=
  match o with Some v => Ok v | None => Throw message end.

(** Reluctance.h:46-60 [get_gap_maximum_storable_energy]: the area is
    dereferenced without a check.  [bsat] is the member
    [_magneticFluxDensitySaturation]. *)
Definition storable_energy (bsat : R) (g : gap) (factor : R) : outcome R :=
  match area g with
  | Some a => Ok (1 / 2 / mu0 * length g * a / factor * bsat ^ 2)
  | None => UB "dereference of an empty optional area"
  end.

(** the last lines of every [get_gap_reluctance]: the energy is computed first *)
Definition report (bsat : R) (g : gap) (r f : R) (name : string) : outcome gap_result :=
  e <- storable_energy bsat g f ;; Ok (mkResult r f e name).

(** Reluctance.cpp:264-345 [ReluctanceZhangModel::get_gap_reluctance].  With no
    distance to the surface the logarithm is zero and the fringing reluctance
    infinite: the model adds no fringing permeance in this case, as the code
    does with 1/infinity. *)
Definition perimeter (s : column_shape) (w d : R) : R :=
  match s with Round => PI * w | Other => w * 2 + d * 2 end.
Definition zhang (bsat : R) (g : gap) : outcome gap_result :=
  a <- required (area g) "Gap Area is not set" ;;
  s <- required (shape g) "Gap Shape is not set" ;;
  x <- required (section g) "Gap Section Dimensions are not set" ;;
  h <- required (normal g) "Gap Distance Closest Normal Surface is not set" ;;
  if Rlt_dec h 0 then Throw "Gap Distance Closest Normal Surface cannot be negative"
  else
    let internal := length g / (mu0 * a) in
    if Rlt_dec 0 (length g) then
      let logarithm := ln ((2 * h + length g) / length g) in
      let fringing_permeance :=
        if Req_EM_T logarithm 0 then 0 else 1 / (PI / (mu0 * perimeter s (fst x) (snd x) * logarithm)) in
      if Req_EM_T internal 0 then Throw "reluctanceInternal cannot be 0 or NaN"
      else
        let r := 1 / (1 / internal + fringing_permeance) in
        report bsat g r (length g / (mu0 * a * r)) "Zhang"
    else report bsat g 0 1 "Zhang".

(** Reluctance.cpp:366-370 [get_basic_reluctance]. *)
Definition basic (l w h : R) : R :=
  1 / mu0 / (w / 2 / l + 2 / PI * (1 + ln (PI * h / 4 / l))).

(** Reluctance.cpp:388-391 [get_reluctance_type_1]. *)
Definition type_1 (l w h : R) : R :=
  let b := basic l w h in 1 / (1 / (b + b) + 1 / (b + b)).

(** Reluctance.cpp:414-468 [ReluctanceMuehlethalerModel::get_gap_reluctance]:
    the area is not checked, only dereferenced for the energy. *)
Definition muehlethaler (bsat : R) (g : gap) : outcome gap_result :=
  s <- required (shape g) "Gap Shape is not set" ;;
  x <- required (section g) "Gap Section Dimensions are not set" ;;
  h <- required (normal g) "Gap Distance Closest Normal Surface is not set" ;;
  let w := fst x in
  let d := snd x in
  match s with
  | Round =>
      let gamma := type_1 (length g / 2) (w / 2) h / (length g / mu0 / (w / 2)) in
      report bsat g (gamma ^ 2 * length g / (mu0 * PI * (w / 2) ^ 2)) (1 / gamma) "Muehlethaler"
  | Other =>
      let gamma := type_1 (length g / 2) w h / (length g / mu0 / w)
                   * (type_1 (length g / 2) d h / (length g / mu0 / d)) in
      report bsat g (gamma * length g / (mu0 * d * w)) (1 / gamma) "Muehlethaler"
  end.

(** Reluctance.cpp:489-526 [ReluctanceEffectiveAreaModel::get_gap_reluctance]. *)
Definition effective_area (bsat : R) (g : gap) : outcome gap_result :=
  a <- required (area g) "Gap Area is not set" ;;
  s <- required (shape g) "Gap Shape is not set" ;;
  x <- required (section g) "Gap Section Dimensions are not set" ;;
  let w := fst x in
  let d := snd x in
  let f := if Rlt_dec 0 (length g)
           then match s with
                | Round => (1 + length g / w) ^ 2
                | Other => (d + length g) * (w + length g) / (d * w)
                end
           else 1 in
  report bsat g (length g / (mu0 * a * f)) f "EffectiveArea".

(** Reluctance.cpp:552-589 [ReluctanceEffectiveLengthModel::get_gap_reluctance]. *)
Definition effective_length (bsat : R) (g : gap) : outcome gap_result :=
  a <- required (area g) "Gap Area is not set" ;;
  s <- required (shape g) "Gap Shape is not set" ;;
  x <- required (section g) "Gap Section Dimensions are not set" ;;
  let w := fst x in
  let d := snd x in
  let f := if Rlt_dec 0 (length g)
           then match s with
                | Round => (1 + length g / w) ^ 2
                | Other => (1 + length g / d) * (1 + length g / w)
                end
           else 1 in
  report bsat g (length g / (mu0 * a * f)) f "EffectiveLength".

(** Reluctance.cpp:616-660 [ReluctancePartridgeModel::get_gap_reluctance]. *)
Definition partridge (bsat : R) (g : gap) : outcome gap_result :=
  a <- required (area g) "Gap Area is not set" ;;
  x <- required (section g) "Gap Section Dimensions are not set" ;;
  h <- required (normal g) "Gap Distance Closest Normal Surface is not set" ;;
  let f := if Rlt_dec 0 (length g) then 1 + length g / sqrt a * ln (2 * 2 * h / length g) else 1 in
  if Rle_dec f 0 then Throw "Partridge fringing model out of valid range"
  else report bsat g (length g / (mu0 * a * f)) f "Partridge".

(** Reluctance.h:193-201 [u], [v], [w], [alpha]. *)
Definition alpha (rx l1 lg : R) : R :=
  (427 / 10 * rx / l1 - 502 / 10) * (lg / l1) ^ 2 + (- (554 / 10) * rx / l1 + 716 / 10) * lg / l1
  + (88 / 100 * rx / l1 - 80 / 100).

(** Reluctance.cpp:692-757 [ReluctanceStengleinModel::get_gap_reluctance].  The
    power with a real exponent is [Rpower]; its base is positive whenever the
    distance is. *)
Definition stenglein (bsat : R) (g : gap) : outcome gap_result :=
  a <- required (area g) "Gap Area is not set" ;;
  _ <- required (shape g) "Gap Shape is not set" ;;
  x <- required (section g) "Gap Section Dimensions are not set" ;;
  h <- required (normal g) "Gap Distance Closest Normal Surface is not set" ;;
  y <- required (height g) "Gap Coordinates are not set" ;;
  p <- required (parallel g) "Gap Distance Closest Parallel Surface is not set" ;;
  let w := fst x in
  let f := if Rlt_dec 0 (length g)
           then
             let c := w / 2 + p in
             let b := w / 2 + 1 / 1000 in
             let l1 := h * 2 in
             let lg := length g in
             let rc := w / 2 in
             let rx := w / 2 in
             let aux1 := fun l => 1 + 2 / sqrt PI * l / (2 * rc) * ln (21 / 10 * rx / l) in
             let aux2 := 1 / 6 * (c ^ 2 + 2 * c * b + 3 * b ^ 2) / rc ^ 2 in
             let gamma := aux1 lg + (aux2 - aux1 l1) * Rpower (lg / l1) (2 * PI) in
             alpha rx l1 lg * (y / l1) ^ 2 + gamma
           else 1 in
  report bsat g (length g / (mu0 * a * f)) f "Stenglein".

(** Reluctance.cpp:780-800 [ReluctanceClassicModel::get_gap_reluctance]. *)
Definition classic (bsat : R) (g : gap) : outcome gap_result :=
  a <- required (area g) "Gap Area is not set" ;;
  report bsat g (length g / (mu0 * a)) 1 "Classic".

(** Reluctance.cpp:830-879 [ReluctanceBalakrishnanModel::get_gap_reluctance]. *)
Definition balakrishnan (bsat : R) (g : gap) : outcome gap_result :=
  a <- required (area g) "Gap Area is not set" ;;
  h <- required (normal g) "Gap distance to closest normal surface is not set" ;;
  x <- required (section g) "Gap section dimensions are not set" ;;
  let permeance := a / length g + 2 * snd x / PI * (1 + ln (PI * h / (2 * length g))) in
  if Rle_dec permeance 0 then Throw "Balakrishnan fringing model out of valid range"
  else
    let r := 1 / (mu0 * permeance) in
    let f := if Rlt_dec 0 (length g) then length g / (mu0 * a * r) else 1 in
    report bsat g r f "Balakrishnan".

(** Reluctance.cpp:881-919 [ReluctanceModel::factory]. *)
Inductive reluctance_model :=
  | Zhang | Partridge | EffectiveArea | EffectiveLength | Muehlethaler | Stenglein | Balakrishnan | Classic.
Definition gap_reluctance (m : reluctance_model) : R -> gap -> outcome gap_result :=
  match m with
  | Zhang => zhang | Partridge => partridge | EffectiveArea => effective_area
  | EffectiveLength => effective_length | Muehlethaler => muehlethaler
  | Stenglein => stenglein | Balakrishnan => balakrishnan | Classic => classic
  end.

(** ** The gaps of a core *)

(** A core as far as its reluctance goes: effective length, area and volume,
    the main column, and the gaps, each with the column its coordinates are
    closest to.  Gaps here already have coordinates: otherwise the code
    processes them first (Reluctance.cpp:183-190).  The dedicated model of the
    clearance of shielded drums (Reluctance.cpp:120-172) is not modelled. *)
Record core := mkCore {
  effective_length_of : R;
  effective_area_of : R;
  effective_volume_of : R;
  main_column : nat;
  gaps : list (gap * nat)
}.

(** MAS [MagnetizingInductanceOutput]. *)
Record gapping_result := mkGapping {
  gapping_reluctance : R;
  maximum_fringing : R;
  storable : R;
  per_gap : list gap_result;
  method : string
}.

(** Reluctance.cpp:174-237 [get_gapping_reluctance]: the loop over the gaps. *)
Fixpoint gap_loop (m : reluctance_model) (bsat : R) (main : nat) (l : list (gap * nat))
    (central lateral factor stored : R) (results : list gap_result) : outcome (R * R * R * R * list gap_result) :=
  match l with
  | [] => Ok (central, lateral, factor, stored, results)
  | (g, column) :: rest =>
      r <- gap_reluctance m bsat g ;;
      let other := negb (Nat.eqb column main) in
      gap_loop m bsat main rest
        (if other then central else central + reluctance r)
        (if other then lateral + 1 / reluctance r else lateral)
        (Rmax factor (fringing r)) (stored + energy r) (results ++ [r])
  end.

(** Reluctance.cpp:213-237.  [method_used] is the member of the base class, which
    the models shadow instead of setting. *)
Definition gapping (m : reluctance_model) (bsat : R) (c : core) : outcome gapping_result :=
  s <- gap_loop m bsat (main_column c) (gaps c) 0 0 1 0 [] ;;
  match s with
  | (central, lateral, factor, stored, results) =>
      let r := if Rlt_dec 0 lateral then central + 1 / lateral else central in
      Ok (mkGapping r factor stored results "Default")
  end.

(** Reluctance.cpp:19-27 [get_ungapped_core_reluctance]. *)
Definition ungapped_reluctance (c : core) (permeability : R) : R :=
  effective_length_of c / (mu0 * permeability * effective_area_of c).

(** Reluctance.cpp:102-113 [get_core_reluctance]: total, ungapped, gaps. *)
Definition core_reluctance (m : reluctance_model) (bsat : R) (c : core) (permeability : R)
    : outcome (R * R * gapping_result) :=
  let u := ungapped_reluctance c permeability in
  r <- gapping m bsat c ;; Ok (u + gapping_reluctance r, u, r).

(** Reluctance.cpp:29-57 [get_air_cored_reluctance] of a processed bobbin. *)
Record bobbin := mkBobbin {
  window_height : R; wall : R; column_shape_of : option column_shape;
  column_thickness : R; column_width : R; column_depth : R
}.
Definition air_reluctance (b : option bobbin) : outcome R :=
  match b with
  | None => Throw "Bobbin not processed"
  | Some b =>
      let l := window_height b + 2 * wall b in
      match column_shape_of b with
      | Some Round => Ok (l / (mu0 * (PI * (column_width b - column_thickness b) ^ 2)))
      | Some Other => Ok (l / (mu0 * (4 * (column_width b - column_thickness b) * (column_depth b - column_thickness b))))
      | None => Throw "Column shape not implemented yet"
      end
  end.

(** ** Energy *)

(** MagneticEnergy.cpp:34-45 [get_ungapped_core_maximum_magnetic_energy]:
    [saturation] is what [get_magnetic_flux_density_saturation] returns. *)
Definition ungapped_energy (c : core) (permeability saturation : R) : R :=
  1 / 2 / (mu0 * permeability) * effective_volume_of c * saturation ^ 2.

(** MagneticEnergy.cpp:47-55 [get_relative_permeability_by_magnetic_energy]. *)
Definition permeability_by_energy (c : core) (saturation e : R) : R :=
  1 / 2 / (mu0 * e) * effective_volume_of c * saturation ^ 2.

(** MagneticEnergy.cpp:57-82 [get_gap_maximum_magnetic_energy]; the model behind
    it carries the default saturation of Reluctance.h:24, which only its own
    energy depends on. *)
Definition gap_energy (m : reluctance_model) (g : gap) (saturation : R) (factor : option R) : outcome R :=
  match area g with
  | None => UB "dereference of an empty optional area"
  | Some a =>
      f <- match factor with
           | Some f => Ok f
           | None => r <- gap_reluctance m (4 / 10) g ;; Ok (fringing r)
           end ;;
      Ok (1 / 2 / mu0 * length g * a / f * saturation ^ 2)
  end.

(** MagneticEnergy.cpp:84-102 [calculate_gap_length_by_magnetic_energy]. *)
Definition length_by_energy (m : reluctance_model) (g : gap) (saturation e : R) : outcome R :=
  match area g with
  | None => UB "dereference of an empty optional area"
  | Some a =>
      r <- gap_reluctance m (4 / 10) g ;;
      Ok (2 * e * mu0 * fringing r / (a * saturation ^ 2))
  end.

(** MagneticEnergy.cpp:104-128 [calculate_gap_length_by_saturation_constraint]. *)
Definition length_by_saturation (m : reluctance_model) (g : gap) (c : core) (target inductance peak : R) : outcome R :=
  match area g with
  | None => UB "dereference of an empty optional area"
  | Some a =>
      r <- gap_reluctance m (4 / 10) g ;;
      Ok (inductance * peak ^ 2 * mu0 * a * fringing r / (target ^ 2 * effective_area_of c ^ 2))
  end.

(** MagneticEnergy.cpp:142-154 [calculate_core_maximum_magnetic_energy]:
    [saturation b] is the saturation with ([true]) or without the safety
    proportion; the energy of the ungapped core is asked for without passing
    the proportion on, so with the default [true]. *)
Fixpoint gaps_energy (m : reluctance_model) (l : list (gap * nat)) (saturation total : R) : outcome R :=
  match l with
  | [] => Ok total
  | (g, _) :: rest => e <- gap_energy m g saturation None ;; gaps_energy m rest saturation (total + e)
  end.
Definition core_energy (m : reluctance_model) (c : core) (permeability : R) (saturation : bool -> R) (proportion : bool)
    : outcome R :=
  gaps_energy m (gaps c) (saturation proportion) (ungapped_energy c permeability (saturation true)).

(** ** Required energy *)

(** The magnetizing current of the primary excitation of an operating point, as
    MagneticEnergy.cpp:160-212 reads it: absent, with a processed peak, or with
    the samples of a waveform.  A current without processed data is processed
    first in the code, which gives it the same peak; that step is not modelled. *)
Inductive magnetizing_current := NoCurrent | Peak (p : R) | Samples (l : list R).

(** [std::max_element], [std::min_element] of a non-empty list. *)
Definition highest (x : R) (l : list R) : R := fold_left Rmax l x.
Definition lowest (x : R) (l : list R) : R := fold_left Rmin l x.

(** MagneticEnergy.cpp:190-212. *)
Definition peak_of (c : magnetizing_current) : outcome R :=
  match c with
  | NoCurrent => Throw "Missing magnetizing current"
  | Peak p => Ok p
  | Samples [] => Throw "needs the peak magnetizing current"
  | Samples (x :: l) => Ok (Rmax (highest x l) (- lowest x l))
  end.

(** MagneticEnergy.cpp:156-213, the loop: [magnetizingCurrentPeak] starts at zero. *)
Fixpoint peak_loop (l : list magnetizing_current) (peak : R) : outcome R :=
  match l with
  | [] => Ok peak
  | c :: rest => p <- peak_of c ;; peak_loop rest (Rmax peak p)
  end.

(** MAS [DimensionWithTolerance]. *)
Record dimension := mkDimension { minimum : option R; nominal : option R; maximum : option R }.

(** MagneticEnergy.cpp:156-234 [calculate_required_magnetic_energy]. *)
Definition required_energy (inductance : dimension) (l : list magnetizing_current) : outcome dimension :=
  peak <- peak_loop l 0 ;;
  let get_energy := fun x => x * peak ^ 2 / 2 in
  Ok (mkDimension (option_map get_energy (minimum inductance)) (option_map get_energy (nominal inductance))
        (option_map get_energy (maximum inductance))).
