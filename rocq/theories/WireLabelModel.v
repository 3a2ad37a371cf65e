(** Labels of wire coatings: src/constructive_models/Wire.cpp.
    Text is a string of bytes ([TextModel]); figures are rational, where the code
    has doubles, and are printed and read in exact arithmetic. *)
From Coq Require Import List String Ascii Bool NArith ZArith QArith Qround Decimal DecimalString.
From Verif Require Import Base TextModel.
Import ListNotations.
Local Open Scope outcome_scope.
Local Open Scope string_scope.

(** MAS [InsulationWireCoatingType] *)
Inductive finish := Bare | Enamelled | Extruded | Insulated | Served | Taped.

(** MAS [InsulationWireCoating]: the fields the label speaks of *)
Record coating := mkCoating {
  c_type : option finish; c_layers : option Z; c_grade : option Z;
  c_temperature : option Q; c_breakdown : option Q
}.
Definition blank : coating := mkCoating None None None None None.

(** what the label needs of a wire: its coating, whether it is litz and whether its
    standard is NEMA MW 1000 C, [None] when it has no standard *)
Record labelled := mkLabelled { l_coating : option coating; l_litz : bool; l_nema : option bool }.

(** [std::to_string] and [<<] of a whole number *)
Definition show (n : N) : string := NilEmpty.string_of_uint (N.to_uint n).
Definition show_z (z : Z) : string := if (z <? 0)%Z then "-" ++ show (Z.abs_N z) else show (Z.abs_N z).

(** [std::fixed << std::setprecision(0)] and [(1)]: nearest figure, the even one of
    two as near; the sign is written whenever the value is below zero. *)
Definition half_even (q : Q) : N :=
  let f := Qfloor q in
  let d := (q - inject_Z f)%Q in
  Z.abs_N (if Qlt_bool d (1 # 2) then f else if Qlt_bool (1 # 2) d then f + 1
           else if Z.even f then f else f + 1)%Z.
Definition minus (q : Q) : string := if Qlt_bool q 0 then "-" else "".
Definition magnitude (q : Q) : Q := if Qlt_bool q 0 then (- q)%Q else q.
Definition fixed_0 (q : Q) : string := minus q ++ show (half_even (magnitude q)).
Definition fixed_1 (q : Q) : string :=
  let n := half_even (10 * magnitude q) in minus q ++ show (n / 10) ++ "." ++ show (n mod 10).

(** Wire.cpp:1919-2022 [encode_coating_label]; the coating is resolved before *)
Definition voltage_text (v : Q) : string :=
  if Qlt_bool 1000 v then ", BV " ++ fixed_1 (v / 1000) ++ " kV" else ", BV " ++ fixed_0 v ++ " V".
Definition encode_label (w : labelled) : outcome string :=
  match l_coating w with
  | None => Ok "Bare"
  | Some c =>
      match c_type c with
      | None => Throw "bad_optional_access"
      | Some Insulated =>
          match c_layers c with
          | None => Throw "Missing number of layers in insulated wire"
          | Some n =>
              Ok ((if (n =? 1)%Z then "SIW" else if (n =? 2)%Z then "DIW" else if (n =? 3)%Z then "TIW" else "")
                  ++ match c_temperature c with Some t => ", TR " ++ fixed_0 t | None => "" end
                  ++ match c_breakdown c with Some v => voltage_text v | None => "" end)
          end
      | Some Enamelled =>
          match c_grade c with
          | None => Throw "Missing grade in enamelled wire"
          | Some g =>
              let nema := match l_nema w with Some b => b | None => false end in
              Ok ("Enamel" ++
                  (if (g =? 1)%Z then if nema then " single build" else " grade 1"
                   else if (g =? 2)%Z then if nema then " heavy build" else " grade 2"
                   else if (g =? 3)%Z then if nema then " triple build" else " grade 3"
                   else " FIW" ++ show_z g))
          end
      | Some Served =>
          match c_layers c with
          | None => Throw "Missing number of layers in served wire"
          | Some n => Ok (if (n =? 1)%Z then "Single served" else if (n =? 2)%Z then "Double served" else "")
          end
      | Some Bare => Ok (if l_litz w then "Unserved" else "Bare")
      | Some _ => Throw "Coating type not implemented yet"
      end
  end.

(** [label.find(word) != npos] *)
Definition has (word label : string) : bool :=
  match find_first word label with Some _ => true | None => false end.

(** [split(s, delimiter)[i]]: undefined beyond the pieces *)
Definition piece (s delimiter : string) (i : nat) : outcome string :=
  l <- split s delimiter ;;
  match nth_error l i with Some p => Ok p | None => UB "index beyond the pieces" end.

(** the longest run of decimal digits, and what follows *)
Definition digit (c : ascii) : option (uint -> uint) :=
  match c with
  | "0" => Some D0 | "1" => Some D1 | "2" => Some D2 | "3" => Some D3 | "4" => Some D4
  | "5" => Some D5 | "6" => Some D6 | "7" => Some D7 | "8" => Some D8 | "9" => Some D9
  | _ => None
  end%char.
Fixpoint scan (s : string) : uint * string :=
  match s with
  | EmptyString => (Nil, "")
  | String c r => match digit c with
                  | Some d => let (u, t) := scan r in (d u, t)
                  | None => (Nil, s)
                  end
  end.
Fixpoint skip_spaces (s : string) : string :=
  match s with
  | String c r => if (Ascii.eqb c " " || ((9 <=? nat_of_ascii c) && (nat_of_ascii c <=? 13))%nat)%char%bool then skip_spaces r else s
  | EmptyString => s
  end.
Definition sign_of (s : string) : bool * string :=
  match s with
  | String "-" r => (true, r)
  | String "+" r => (false, r)
  | _ => (false, s)
  end.

(** [std::stoi], base ten *)
Definition stoi (s : string) : outcome Z :=
  let (negative, s) := sign_of (skip_spaces s) in
  match scan s with
  | (Nil, _) => Throw "invalid_argument: stoi"
  | (u, _) =>
      let z := (if negative then - Z.of_N (N.of_uint u) else Z.of_N (N.of_uint u))%Z in
      if ((-2147483648 <=? z) && (z <=? 2147483647))%Z%bool then Ok z else Throw "out_of_range: stoi"
  end.

(** [std::stod] of plain decimal figures: exponents, hexadecimal figures and the
    names of infinity and NaN are not modelled, they end the figure here. *)
Fixpoint count (u : uint) : nat :=
  match u with
  | Nil => 0
  | D0 u | D1 u | D2 u | D3 u | D4 u | D5 u | D6 u | D7 u | D8 u | D9 u => S (count u)
  end.
Definition fraction (u : uint) : Q := (Z.of_N (N.of_uint u) # Pos.of_nat (10 ^ count u)).
Definition stod (s : string) : outcome Q :=
  let (negative, s) := sign_of (skip_spaces s) in
  let (whole, r) := scan s in
  let decimals := match r with String "." r => fst (scan r) | _ => Nil end in
  match whole, decimals with
  | Nil, Nil => Throw "invalid_argument: stod"
  | _, _ =>
      let q := (inject_Z (Z.of_N (N.of_uint whole)) + fraction decimals)%Q in
      Ok (if negative then (- q)%Q else q)
  end.

(** Wire.cpp:2024-2103 [decode_coating_label], one clause after the other on the
    coating and the flag [matched] *)
Definition clause := (coating * bool)%type.
Definition with_type (f : finish) (n : option Z) (s : clause) : clause :=
  let c := fst s in
  (mkCoating (Some f) (match n with Some _ => n | None => c_layers c end) (c_grade c) (c_temperature c) (c_breakdown c), true).
Definition with_temperature (t : Q) (s : clause) : clause :=
  let c := fst s in (mkCoating (c_type c) (c_layers c) (c_grade c) (Some t) (c_breakdown c), true).
Definition with_breakdown (v : Q) (s : clause) : clause :=
  let c := fst s in (mkCoating (c_type c) (c_layers c) (c_grade c) (c_temperature c) (Some v), true).
Definition with_grade (g : Z) (s : clause) : clause :=
  let c := fst s in (mkCoating (c_type c) (c_layers c) (Some g) (c_temperature c) (c_breakdown c), snd s).
Definition if_has (word label : string) (f : clause -> clause) (s : clause) : clause :=
  if has word label then f s else s.

Definition read_voltage (label : string) (s : clause) : outcome clause :=
  if has ", BV " label then
    aux <- piece label ", BV " 1 ;;
    s <- (if has " kV" aux then
            p <- piece aux " kV" 0 ;; v <- stod p ;; Ok (with_breakdown (v * 1000) s)
          else Ok s) ;;
    if has " V" aux then
      p <- piece aux " V" 0 ;; v <- stod p ;; Ok (with_breakdown v s)
    else Ok s
  else Ok s.
Definition read_grade (label : string) (s : clause) : outcome clause :=
  if has "Enamel" label then
    let s := with_type Enamelled None s in
    if has "grade 1" label || has "single build" label then Ok (with_grade 1 s)
    else if has "grade 2" label || has "heavy build" label then Ok (with_grade 2 s)
    else if has "grade 3" label || has "triple build" label then Ok (with_grade 3 s)
    else aux <- piece label "FIW" 1 ;; g <- stoi aux ;; Ok (with_grade g s)
  else Ok s.
Definition decode_label (label : string) : outcome (option coating) :=
  let s := if has "Bare" label || has "Unserved" label then with_type Bare None (blank, false) else (blank, false) in
  let s := if_has "SIW" label (with_type Insulated (Some 1%Z)) s in
  let s := if_has "DIW" label (with_type Insulated (Some 2%Z)) s in
  let s := if_has "TIW" label (with_type Insulated (Some 3%Z)) s in
  let s := if_has "TR 155" label (with_temperature 155) s in
  let s := if_has "TR 180" label (with_temperature 180) s in
  s <- read_voltage label s ;;
  s <- read_grade label s ;;
  let s := if_has "Single served" label (with_type Served (Some 1%Z)) s in
  let s := if_has "Double served" label (with_type Served (Some 2%Z)) s in
  Ok (if snd s then Some (fst s) else None).
