(** Where the turns of a layer sit: src/constructive_models/Coil.cpp:48-66, 144-219, 6766-6815 and
    src/support/Utils.cpp:2189-2200.

    Real numbers are exact rationals, except in [wound_distance_to_angle], which needs the arcsine and is
    over the classical reals of Coq's standard library. *)
From Coq Require Import ZArith QArith Qround List Bool Reals String.
From Verif Require Import Base CoilSplitModel.
Import ListNotations.
Open Scope string_scope.
Open Scope Q_scope.

(** Coil.cpp:48-66 [get_layer_bundle_size]: how many turns are wound together on a layer.  [style] is the
    layer's winding style, if it has one, and [proportions] the proportion of each parallel on it. *)
Definition get_layer_bundle_size (style : option winding_style) (proportions : list Q) : Z :=
  match style with
  | Some WIND_BY_CONSECUTIVE_PARALLELS =>
      let bundleSize := Z.of_nat (List.length (filter (fun p => Qlt_bool 0 (roundFloat p 10)) proportions)) in
      if (0 <? bundleSize)%Z then bundleSize else 1%Z
  | _ => 1%Z
  end.

(** Coil.cpp:144-187 [compute_spread_turn_stations]: turn centres, in ascending order. *)
Definition compute_spread_turn_stations (axisCenter axisLength wireSize : Q) (numberPhysicalTurns bundleSize : Z) : list Q :=
  if (numberPhysicalTurns <=? 0)%Z then []
  else
    let bundleSize := if (bundleSize <? 1)%Z then 1%Z else bundleSize in
    let numberBundles := ((numberPhysicalTurns + bundleSize - 1) / bundleSize)%Z in
    let slack := axisLength - inject_Z numberPhysicalTurns * wireSize in
    let gap := if (1 <? numberBundles)%Z && Qlt_bool 0 slack then slack / inject_Z (numberBundles - 1) else 0 in
    let blockLength := inject_Z numberPhysicalTurns * wireSize + inject_Z (numberBundles - 1) * gap in
    let blockLow := axisCenter - blockLength / 2 in
    map (fun i => let turnIndex := Z.of_nat i in
           blockLow + wireSize / 2 + inject_Z turnIndex * wireSize + inject_Z (turnIndex / bundleSize) * gap)
        (seq 0 (Z.to_nat numberPhysicalTurns)).

(** Coil.cpp:195-219 [take_next_spread_station]: the centre of the next turn (width, height) and the next
    station index.  The axis is 1 for the height and anything else for the width. *)
Definition take_next_spread_station (stations : list Q) (stationIndex stationAxis : nat) (center : Q * Q)
  : outcome (nat * (Q * Q)) :=
  match stations with
  | [] => Ok (stationIndex, center)
  | _ =>
      match nth_error stations stationIndex with
      | None => Throw "SPREAD turn stations exhausted"
      | Some s => Ok (S stationIndex, if Nat.eqb stationAxis 1 then (fst center, s) else (s, snd center))
      end
  end.

(** src/support/Utils.cpp:2189-2200 [wound_distance_to_angle]: the angle a chord subtends, in degrees; 360 when the
    chord does not fit on the circumference (the arcsine of a number beyond one is NaN, and so is the
    division by a zero radius). *)
Definition wound_distance_to_angle (distance radius : R) : R :=
  (let s := distance / 2 / radius in
   if Req_EM_T radius 0 then 360
   else if Rle_dec s 1 then if Rle_dec (-1) s then 2 * asin s * 180 / PI else 360 else 360)%R.

(** std::floor of a real number. *)
Definition Rfloor (x : R) : Z := (up x - 1)%Z.

(** Coil.cpp:6772-6787, 6790-6803: how many turns fit on each ring of a toroidal section, from the outermost
    one.  [rectangular] is whether the wire is rectangular (a foil or planar wire throws, which is left out),
    [blocked] the slots taken by connection leads ([nullptr] is the empty list: a ring beyond the list has
    none).  The number of turns is computed as a floating point number and turned into an integer;
    a wire without height (an infinite quotient) is outside this model. *)
Fixpoint ring_radius (wireWidth radius : R) (ring : nat) : R :=
  match ring with
  | O => radius
  | S k => let r := ring_radius wireWidth radius k in
           if Rlt_dec wireWidth r then (r - wireWidth)%R else r
  end.

Definition ring_capacity (radialHeight angle wireWidth wireHeight windingWindowRadius : R) (rectangular : bool)
  (blocked : list Z) (ring : nat) : Z :=
  let first := if rectangular then (windingWindowRadius - wireWidth - radialHeight)%R
               else (windingWindowRadius - wireWidth / 2 - radialHeight)%R in
  let currentRadius := ring_radius wireWidth first ring in
  let wireAngle := wound_distance_to_angle wireHeight (Rmax wireWidth currentRadius) in
  Z.max 1 (Rfloor (angle / wireAngle) - nth ring blocked 0)%Z.

(** Coil.cpp:6788-6803: rings are filled until no turn is left.  [capacity] gives what fits on each ring. *)
Fixpoint fill_rings (fuel : nat) (capacity : nat -> Z) (ring : nat) (remaining : Z) : outcome (list Z * Z) :=
  if (0 <? remaining)%Z then
    match fuel with
    | O => OutOfFuel
    | S f =>
        bind (fill_rings f capacity (S ring) (remaining - capacity ring)%Z) (fun '(rest, remains) =>
        Ok (capacity ring :: rest, remains))
    end
  else Ok ([], remaining).

(** One entry of the vector decreased by one. *)
Fixpoint decrease_at (l : list Z) (i : nat) : list Z :=
  match l, i with
  | [], _ => []
  | x :: r, O => (x - 1)%Z :: r
  | x :: r, S k => x :: decrease_at r k
  end.

(** Coil.cpp:6805-6813: the turns laid in excess are taken back one by one, going inwards to outwards round
    and round. *)
Fixpoint take_back (excess : nat) (l : list Z) (currentIndex : nat) : list Z :=
  match excess with
  | O => l
  | S e =>
      take_back e (decrease_at l currentIndex)
        (if Nat.eqb currentIndex 0 then (List.length l - 1)%nat else (currentIndex - 1)%nat)
  end.

(** Coil.cpp:6766-6815 [get_number_layers_needed_and_number_physical_turns], given what fits on each ring.
    With a negative number of turns the vector is empty and is indexed out of range. *)
Definition get_number_layers_needed_and_number_physical_turns (capacity : nat -> Z) (physicalTurnsInSection : Z)
  : outcome (nat * list Z) :=
  bind (fill_rings (Z.to_nat physicalTurnsInSection) capacity 0 physicalTurnsInSection) (fun '(l, remains) =>
  let numberLayers := List.length l in
  if Nat.eqb numberLayers 0 then
    if (remains <? 0)%Z then UB "index out of range" else Ok (0%nat, [])
  else Ok (numberLayers, take_back (Z.to_nat (- remains)) l (numberLayers - 1))).
