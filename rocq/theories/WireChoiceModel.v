(** Wires chosen from the catalogue: src/support/Utils.cpp [find_wire_by_dimension],
    src/constructive_models/Wire.cpp [get_wire_for_*], [get_equivalent_wire],
    [get_relative_cost] and the extreme dimensions of a wire.
    Dimensions are real numbers, where the code has doubles. *)
From Coq Require Import Reals List String ZArith Lia.
From Verif Require Import Base WireModel.
Import ListNotations.
Local Open Scope outcome_scope.
Local Open Scope R_scope.

(** A wire of the catalogue: the figures of [WireModel.wire], its standard and its
    outer diameter, width and height.  [tag] stands for all else. *)
Record stock := mkStock {
  figures : wire; standard_of : option standard;
  outer_diameter : option R; outer_width : option R; outer_height : option R; tag : nat
}.

Definition is_kind (a b : kind) : bool :=
  match a, b with
  | Litz, Litz | RoundWire, RoundWire | Rectangular, Rectangular | Foil, Foil | Planar, Planar => true
  | _, _ => false
  end.
Definition is_standard (a b : standard) : bool :=
  match a, b with Iec, Iec | OtherStandard, OtherStandard => true | _, _ => false end.

Definition value (o : option R) : outcome R := required o "bad_optional_access".

(** Wire.cpp:1564-1598 [get_maximum_conducting_width], [get_maximum_conducting_height] *)
Definition conducting_width (w : wire) : outcome R :=
  match type w with
  | Litz => strand_of w
  | RoundWire => value (diameter w)
  | _ => value (width w)
  end.
Definition conducting_height (w : wire) : outcome R :=
  match type w with
  | Litz => strand_of w
  | RoundWire => value (diameter w)
  | _ => value (height w)
  end.

(** Wire.cpp:1502-1562 [get_maximum_outer_width], [get_maximum_outer_height] and
    [get_maximum_outer_dimension].  [bundle] is [calculate_outer_diameter], for litz
    without outer diameter. *)
Section Outer.
Variable bundle : stock -> outcome R.
Definition maximum_outer_width (s : stock) : outcome R :=
  match type (figures s) with
  | Litz => match outer_diameter s with Some d => Ok d | None => bundle s end
  | RoundWire => match outer_diameter s with Some d => Ok d | None => conducting_width (figures s) end
  | _ => match outer_width s with Some x => Ok x | None => value (width (figures s)) end
  end.
Definition maximum_outer_height (s : stock) : outcome R :=
  match type (figures s) with
  | Litz => match outer_diameter s with Some d => Ok d | None => bundle s end
  | RoundWire => match outer_diameter s with Some d => Ok d | None => conducting_height (figures s) end
  | _ => match outer_height s with
         | Some y => Ok y
         | None => match height (figures s) with Some y => Ok y | None => Ok 0 end
         end
  end.
Definition maximum_outer_dimension (s : stock) : outcome R :=
  x <- maximum_outer_width s ;; y <- maximum_outer_height s ;; Ok (Rmax x y).

(** Wire.cpp:1600-1632 [get_minimum_conducting_dimension] and
    [get_minimum_outer_dimension] *)
Definition minimum_conducting_dimension (w : wire) : outcome R :=
  match type w with
  | Litz => strand_of w
  | RoundWire => value (diameter w)
  | Planar | Rectangular => value (height w)
  | Foil => value (width w)
  end.
Definition minimum_outer_dimension (s : stock) : outcome R :=
  match type (figures s) with
  | Litz | RoundWire => value (outer_diameter s)
  | Planar | Rectangular => value (outer_height s)
  | Foil => value (outer_width s)
  end.

(** Utils.cpp:1136-1220 [find_wire_by_dimension]: the dimension that is compared *)
Definition compared (w : wire) : outcome R :=
  match type w with
  | Litz => Throw "unreachable"
  | RoundWire => required (diameter w) "Missing conducting diameter in round wire"
  | Planar | Rectangular => required (height w) "Missing conducting height in rectangular wire"
  | Foil => required (width w) "Missing conducting width in foil wire"
  end.
Definition qualifies (t : option kind) (st : option standard) (s : stock) : bool :=
  (match st with
   | None => true
   | Some x => match standard_of s with Some y => is_standard y x | None => false end
   end
   && match t with None => true | Some k => is_kind (type (figures s)) k end
   && negb (is_kind (type (figures s)) Litz))%bool.

(** the first loop: the distance so far ([None]: DBL_MAX, above every distance here),
    the chosen wire and those as near that came after it.  A dimension of zero makes
    the distances infinite or NaN, which are never below DBL_MAX. *)
Record search := mkSearch { best : option R; chosen : option stock; ties : list stock }.
Definition look (dimension : R) (s : stock) (acc : search) : outcome search :=
  x <- compared (figures s) ;;
  if Req_EM_T dimension 0 then Ok acc
  else
    let distance := Rabs (x - dimension) / dimension in
    match best acc with
    | None => Ok (mkSearch (Some distance) (Some s) [])
    | Some m =>
        if Rlt_dec distance m then Ok (mkSearch (Some distance) (Some s) [])
        else if Req_EM_T distance m then Ok (mkSearch (best acc) (chosen acc) (ties acc ++ [s]))
        else Ok acc
    end.
Fixpoint scan_stock (dimension : R) (t : option kind) (st : option standard) (db : list stock) (acc : search) : outcome search :=
  match db with
  | [] => Ok acc
  | s :: db =>
      if qualifies t st s then acc <- look dimension s acc ;; scan_stock dimension t st db acc
      else scan_stock dimension t st db acc
  end.
(** the second loop: the thinnest of those as near *)
Fixpoint thinnest (minimum : R) (c : stock) (l : list stock) : outcome stock :=
  match l with
  | [] => Ok c
  | s :: l =>
      x <- maximum_outer_dimension s ;;
      if Rlt_dec x minimum then thinnest x s l else thinnest minimum c l
  end.
(** [None] is the wire without any data that is returned when none was chosen *)
Definition find_by_dimension (db : list stock) (dimension : R) (t : option kind) (st : option standard) : outcome (option stock) :=
  acc <- scan_stock dimension t st db (mkSearch None None []) ;;
  match chosen acc, ties acc with
  | None, _ => Ok None
  | Some c, [] => Ok (Some c)
  | Some c, l => m <- maximum_outer_dimension c ;; s <- thinnest m c l ;; Ok (Some s)
  end.

(** Wire.cpp:2107-2153: round wires of copper by frequency, area and resistance.
    [outer] is [get_outer_diameter_round] for grade 1 of IEC 60317. *)
Variable copper : material.
Variable outer : R -> outcome R.
Definition exact_round (d : R) : outcome stock :=
  o <- outer d ;;
  Ok (mkStock (mkWire RoundWire (Some 1%nat) (Some d) None None None (Some copper)) None (Some o) None None 0).
Definition round_of (db : list stock) (d : R) (exact : bool) : outcome (option stock) :=
  if exact then s <- exact_round d ;; Ok (Some s)
  else find_by_dimension db d (Some RoundWire) (Some Iec).
Definition wire_for_area (db : list stock) (area : R) (exact : bool) : outcome (option stock) :=
  round_of db (sqrt (4 * area / PI)) exact.
Definition wire_for_frequency (db : list stock) (frequency temperature : R) (exact : bool) : outcome (option stock) :=
  match skin_depth copper frequency temperature with
  | Some s => round_of db (s * 2) exact
  | None => UB "NaN skin depth"
  end.
Definition wire_for_resistance (db : list stock) (per_meter temperature : R) : outcome (option stock) :=
  wire_for_area db (resistivity copper temperature / per_meter) false.

(** Wire.cpp:2156-2225: litz instead of a solid wire.  The strand is found in the
    catalogue, the count of strands is for the strand that was looked for.
    [half_away] is [std::round]. *)
Definition half_away (x : R) : Z := if Rlt_dec x 0 then (- Int_part (- x + 1 / 2))%Z else Int_part (x + 1 / 2).
Definition litz_instead (db : list stock) (old_area skin : R) (st : standard) : outcome (option stock * Z) :=
  strand <- find_by_dimension db skin (Some RoundWire) (Some st) ;;
  Ok (strand, half_away (old_area / (PI * (skin / 2) ^ 2))).
(** Wire.cpp:2227-2350: the dimension looked for when another type is wanted *)
Definition wanted_dimension (p : option (R -> R)) (old : wire) : outcome R :=
  match type old with
  | Litz => a <- conducting_area p old ;; Ok (sqrt (a / PI) * 2)
  | _ => minimum_conducting_dimension old
  end.
End Outer.

(** Wire.cpp:1665-1698 [get_relative_cost]; [layers] of an insulated coating,
    [grade] of an enamelled one *)
Inductive cover := NoCover | InsulatedBy (layers : option Z) | EnamelledBy (grade : option Z) | OtherCover.
Definition relative_cost (k : kind) (conductors : option Z) (c : cover) : outcome Z :=
  litz <- match k with
          | Litz => match conductors with
                    | None => Throw "bad_optional_access"
                    | Some n => Ok (1 + (if 100 <? n then 1 else 0) + (if 500 <? n then 1 else 0) + (if 1000 <? n then 1 else 0))%Z
                    end
          | _ => Ok 0%Z
          end ;;
  match c with
  | NoCover | OtherCover => Ok litz
  | InsulatedBy None | EnamelledBy None => Throw "bad_optional_access"
  | InsulatedBy (Some n) => Ok (litz + n + (if ((n =? 1) || (n =? 2))%bool then 2 else 0))%Z
  | EnamelledBy (Some g) => Ok (litz + g)%Z
  end.
