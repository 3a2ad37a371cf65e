(** Text handling of src/support/Utils.cpp (micro sign normalisation, NDJSON
    catalogs, splitting, file names) and the document migration of
    src/constructive_models/MasMigration.cpp.

    A C++ [std::string] is a [string]: a finite sequence of bytes. *)
From Coq Require Import List String Ascii Bool Arith NArith ZArith QArith Lia.
From Verif Require Import Base.
Import ListNotations.
Open Scope nat_scope.
Open Scope string_scope.

Definition byte (n : nat) : ascii := ascii_of_nat n.
Definition B5 : ascii := byte 181.
Definition C2 : ascii := byte 194.
Definition LF : ascii := byte 10.
Definition CR : ascii := byte 13.

(** * Micro sign
    src/support/Utils.cpp:49-66 [normalize_micro_sign].  [last] is
    [result.back()], [None] standing for the test [i == 0]. *)
Fixpoint normalize_from (last : option ascii) (s : string) : string :=
  match s with
  | EmptyString => EmptyString
  | String c r =>
      if Ascii.eqb c B5 then
        match last with
        | Some l =>
            if Ascii.eqb l C2 then String c (normalize_from (Some c) r)
            else String C2 (String c (normalize_from (Some c) r))
        | None => String C2 (String c (normalize_from (Some c) r))
        end
      else String c (normalize_from (Some c) r)
  end.
Definition normalize_micro_sign (s : string) : string := normalize_from None s.

(** * NDJSON catalogs
    src/support/Utils.cpp:76-98 [parse_ndjson].

    [database.find('\n', start)] splits off the current line; [line_of] is the
    text up to the newline and [after_line] what follows it, [None] when there
    is no newline ([pos == npos]). *)
Fixpoint line_of (s : string) : string :=
  match s with
  | EmptyString => EmptyString
  | String c r => if Ascii.eqb c LF then EmptyString else String c (line_of r)
  end.
Fixpoint after_line (s : string) : option string :=
  match s with
  | EmptyString => None
  | String c r => if Ascii.eqb c LF then Some r else after_line r
  end.

(** Utils.cpp:83-87: under [_WIN32] only, one trailing carriage return is cut. *)
Fixpoint drop_cr (s : string) : string :=
  match s with
  | EmptyString => EmptyString
  | String c EmptyString => if Ascii.eqb c CR then EmptyString else s
  | String c r => String c (drop_cr r)
  end.

Section Ndjson.
  (** [json::parse]: [None] is its parse error. *)
  Context {J : Type} (parse : string -> option J).
  Variable windows : bool.

  (** The loop of Utils.cpp:80-97.  The first component lists the entries handed
      to the callback, in order; the second tells whether a malformed line
      stopped the loop.  The migration applied to each entry is left out here
      (see [migrate] below).  [fuel] bounds the number of lines. *)
  Fixpoint ndjson_loop (fuel : nat) (s : string) : list J * outcome unit :=
    match fuel with
    | O => ([], OutOfFuel)
    | S fuel =>
        match s with
        | EmptyString => ([], Ok tt)
        | _ =>
            let line := if windows then drop_cr (line_of s) else line_of s in
            let continue :=
              match after_line s with
              | None => ([], Ok tt)
              | Some rest => ndjson_loop fuel rest
              end in
            match line with
            | EmptyString => continue
            | _ =>
                match parse line with
                | None => ([], Throw "parse_error")
                | Some j => let (js, o) := continue in (j :: js, o)
                end
            end
        end
    end.
  Definition parse_ndjson (s : string) : list J * outcome unit :=
    ndjson_loop (S (String.length s)) s.
End Ndjson.

(** * Splitting
    src/support/Utils.cpp:2367-2379 [split].  [find_first] is
    [std::string::find]: the smallest position at which [delim] occurs. *)
Fixpoint find_first (delim s : string) : option nat :=
  if prefix delim s then Some O
  else match s with
       | EmptyString => None
       | String _ r => option_map S (find_first delim r)
       end.
Fixpoint drop (n : nat) (s : string) : string :=
  match n, s with
  | O, _ => s
  | S n, String _ r => drop n r
  | S _, EmptyString => EmptyString
  end.
Fixpoint take (n : nat) (s : string) : string :=
  match n, s with
  | S n, String c r => String c (take n r)
  | _, _ => EmptyString
  end.
Fixpoint split_loop (fuel : nat) (s delim : string) : outcome (list string) :=
  match fuel with
  | O => OutOfFuel
  | S fuel =>
      match find_first delim s with
      | None => Ok [s]
      | Some pos =>
          bind (split_loop fuel (drop (pos + String.length delim) s) delim)
               (fun rest => Ok (take pos s :: rest))
      end
  end.
Definition split (s delim : string) : outcome (list string) :=
  split_loop (S (String.length s)) s delim.

(** * File and subcircuit names
    src/support/Utils.cpp:2415-2421 [fix_filename]: every byte outside
    [A-Za-z0-9_] becomes an underscore. *)
Definition name_char (c : ascii) : bool :=
  let n := nat_of_ascii c in
  (((65 <=? n) && (n <=? 90)) || ((97 <=? n) && (n <=? 122))
   || ((48 <=? n) && (n <=? 57)) || (n =? 95))%nat.
Fixpoint fix_filename (s : string) : string :=
  match s with
  | EmptyString => EmptyString
  | String c r => String (if name_char c then c else "_"%char) (fix_filename r)
  end.

(** * JSON documents
    nlohmann::json.  Objects are association lists in the key order of the
    library's [std::map]; numbers are exact rationals (the code converts a cost
    to [double]; that rounding is left out). *)
Inductive json : Type :=
| JNull
| JBool (b : bool)
| JNum (q : Q)
| JStr (s : string)
| JArr (l : list json)
| JObj (l : list (string * json)).

(** src/constructive_models/MasMigration.cpp:16-149 [mapping], in source order
    (a repeated key keeps its first value). *)
Definition mapping : list (string * string) := [
  ("Functional", "functional");
  ("Basic", "basic");
  ("Supplementary", "supplementary");
  ("Double", "double");
  ("Reinforced", "reinforced");
  ("Wound", "wound");
  ("Printed", "printed");
  ("Stamped", "stamped");
  ("Deposition", "deposition");
  ("Power", "power");
  ("Signal Processing", "signalProcessing");
  ("Interference Suppression", "interferenceSuppression");
  ("Power Filtering", "powerFiltering");
  ("Transforming", "transforming");
  ("Isolation", "isolation");
  ("Common Mode Noise Filtering", "commonModeNoiseFiltering");
  ("Differential Mode Noise Filtering", "differentialModeNoiseFiltering");
  ("Pin", "pin");
  ("Screw", "screw");
  ("SMT", "smt");
  ("Flying Lead", "flyingLead");
  ("THT", "tht");
  ("PCB Pad", "pcbPad");
  ("inner or top", "innerOrTop");
  ("outer or bottom", "outerOrBottom");
  ("two-piece set", "twoPieceSet");
  ("piece and plate", "pieceAndPlate");
  ("closed shape", "closedShape");
  ("half set", "halfSet");
  ("SINGLE_PHASE", "singlePhase");
  ("THREE_PHASE", "threePhase");
  ("THREE_PHASE_WITH_NEUTRAL", "threePhaseWithNeutral");
  ("Custom", "custom");
  ("Triangular", "triangular");
  ("Sinusoidal", "sinusoidal");
  ("Rectangular", "rectangular");
  ("Unipolar Rectangular", "unipolarRectangular");
  ("Unipolar Triangular", "unipolarTriangular");
  ("Bipolar Rectangular", "bipolarRectangular");
  ("Bipolar Triangular", "bipolarTriangular");
  ("Flyback Primary", "flybackPrimary");
  ("Flyback Secondary", "flybackSecondary");
  ("Rectangular With Deadtime", "rectangularWithDeadtime");
  ("Flyback Secondary With Deadtime", "flybackSecondaryWithDeadtime");
  ("Rectangular DCM", "rectangularDCM");
  ("Secondary Rectangular", "secondaryRectangular");
  ("Secondary Rectangular With Deadtime", "secondaryRectangularWithDeadtime");
  ("Triangular With Deadtime", "triangularWithDeadtime");
  ("Buck Converter", "buckConverter");
  ("Boost Converter", "boostConverter");
  ("Inverting Buck-Boost Converter", "invertingBuckBoostConverter");
  ("Cuk Converter", "cukConverter");
  ("SEPIC Converter", "sepicConverter");
  ("Zeta Converter", "zetaConverter");
  ("Weinberg Converter", "weinbergConverter");
  ("Flyback Converter", "flybackConverter");
  ("Active Clamp Forward Converter", "activeClampForwardConverter");
  ("Single Switch Forward Converter", "singleSwitchForwardConverter");
  ("Two Switch Forward Converter", "twoSwitchForwardConverter");
  ("Push-Pull Converter", "pushPullConverter");
  ("Weinberg Converter", "weinbergConverter");
  ("4-Switch Buck-Boost Converter", "fourSwitchBuckBoostConverter");
  ("Half-Bridge Converter", "halfBridgeConverter");
  ("Full-Bridge Converter", "fullBridgeConverter");
  ("Phase-Shifted Full-Bridge Converter", "phaseShiftedFullBridgeConverter");
  ("Phase-Shifted Half-Bridge Converter", "phaseShiftedHalfBridgeConverter");
  ("Current Transformer", "currentTransformer");
  ("Isolated Buck Converter", "isolatedBuckConverter");
  ("Isolated Buck-Boost Converter", "isolatedBuckBoostConverter");
  ("Dual Active Bridge Converter", "dualActiveBridgeConverter");
  ("LLC Resonant Converter", "llcResonantConverter");
  ("CLLC Resonant Converter", "cllcResonantConverter");
  ("CLLLC Resonant Converter", "clllcResonantConverter");
  ("Common Mode Choke", "commonModeChoke");
  ("Differential Mode Choke", "differentialModeChoke");
  ("Power Factor Correction", "powerFactorCorrection");
  ("Continuous Conduction Mode", "continuousConductionMode");
  ("Discontinuous Conduction Mode", "discontinuousConductionMode");
  ("Quasi Resonant Mode", "quasiResonantMode");
  ("Boundary Mode Operation", "boundaryModeOperation");
  ("Critical Conduction Mode", "criticalConductionMode");
  ("Transition Mode", "transitionMode");
  ("Half Bridge", "halfBridge");
  ("Full Bridge", "fullBridge");
  ("Center Tapped", "centerTapped");
  ("Current Doubler", "currentDoubler");
  ("Forward", "forward");
  ("Reverse", "reverse");
  ("Medical", "medical");
  ("Commercial", "commercial");
  ("Industrial", "industrial");
  ("Military", "military");
  ("Space", "space");
  ("Carbonyl Iron", "carbonylIron");
  ("Iron", "iron");
  ("Proprietary", "proprietary");
  ("Group I", "groupI");
  ("Group II", "groupII");
  ("Group IIIA", "groupIIIA");
  ("Group IIIB", "groupIIIB");
  ("P1", "PD1");
  ("P2", "PD2");
  ("P3", "PD3");
  ("OVC-I", "I");
  ("OVC-II", "II");
  ("OVC-III", "III");
  ("OVC-IV", "IV");
  ("planar e", "planarE");
  ("planar er", "planarER");
  ("planar el", "planarEL")
].

Fixpoint lookup (m : list (string * string)) (s : string) : option string :=
  match m with
  | [] => None
  | (k, v) :: r => if String.eqb s k then Some v else lookup r s
  end.

(** src/constructive_models/MasMigration.cpp:172-179: the value under a key
    ["cost"]. *)
Definition migrate_cost (j : json) : json :=
  match j with
  | JNum q => JObj [("currency", JStr "USD"); ("value", JNum q)]
  | JStr _ => JNull
  | _ => j
  end.

(** src/constructive_models/MasMigration.cpp:154-189 [migrate_pre_1_0]. *)
Fixpoint migrate (j : json) : json :=
  match j with
  | JStr s => match lookup mapping s with Some v => JStr v | None => JStr s end
  | JObj l =>
      JObj ((fix go l := match l with
                         | [] => []
                         | (k, v) :: r =>
                             (k, if String.eqb k "cost" then migrate_cost v else migrate v) :: go r
                         end) l)
  | JArr l => JArr (map migrate l)
  | _ => j
  end.
