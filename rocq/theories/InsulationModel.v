(** Model of src/constructive_models/Insulation.cpp and Insulation.h: the table
    interpolation, the four insulation standards, the coordinator that combines
    them, the insulation between two sections and the insulation required from
    the wires.

    The tables of the standards are parameters (records below), so the theorems
    hold for whatever data the caller loads; InsulationData.v has the bundled
    ones.  A table is a list of rows; a [std::map] keyed by the name of an
    enumerated value is a function of that value, a missing key is the empty
    table that [operator[]] would insert.

    Simplifications: doubles are exact rationals; [sqrt(2)] is the exact value
    of the double; the skin depth of copper at 20 degrees is a parameter; the
    error texts are shortened; the log entries are left out. *)
From Coq Require Import ZArith QArith Qround List String Bool.
From Verif Require Import Base.
Import ListNotations.
Open Scope Q_scope.
Open Scope outcome_scope.
Open Scope string_scope.
Open Scope list_scope.

(** ** Enumerations (MAS.hpp; only the values the code names) *)

Inductive wiring := WOUND | PRINTED.
Inductive pollution := PD1 | PD2 | PD3.
Inductive cti := GROUP_I | GROUP_II | GROUP_IIIA | GROUP_IIIB.
Inductive category := OVC_I | OVC_II | OVC_III | OVC_IV.
Inductive class := FUNCTIONAL | BASIC | SUPPLEMENTARY | REINFORCED | DOUBLE.
Inductive standard := IEC_603351 | IEC_606641 | IEC_615581 | IEC_623681.

Definition is_printed (w : option wiring) : bool :=
  match w with Some PRINTED => true | _ => false end.
Definition is_wound (w : option wiring) : bool :=
  match w with Some WOUND => true | _ => false end.
Definition class_eqb (a b : class) : bool :=
  match a, b with
  | FUNCTIONAL, FUNCTIONAL | BASIC, BASIC | SUPPLEMENTARY, SUPPLEMENTARY
  | REINFORCED, REINFORCED | DOUBLE, DOUBLE => true
  | _, _ => false
  end.
(** The test [REINFORCED || DOUBLE] repeated all over the file. *)
Definition strong (c : class) : bool := class_eqb c REINFORCED || class_eqb c DOUBLE.
Definition pd_eqb (a b : pollution) : bool :=
  match a, b with PD1, PD1 | PD2, PD2 | PD3, PD3 => true | _, _ => false end.

(** ** Inputs

    src/processors/Inputs.cpp:2919-3262: the getters used by the file, as the
    values they answer.  [vrms]/[vpeak] are the maxima over windings and
    operating points, [vrms0]/[vpeak0] those of the first winding.  A getter
    whose field is missing throws before anything else happens; here the
    insulation requirements, when present, are complete. *)
Record requirements := mk_requirements {
  q_type : class;
  q_standards : list standard;
  q_altitude : Q;
  q_cti : cti;
  q_supply : Q;
  q_category : category;
  q_pollution : pollution }.

Record inputs := mk_inputs {
  i_insulation : option requirements;
  i_wiring : option wiring;
  i_sides : option (list nat);
  i_ratios : nat;
  i_vrms : Q;
  i_vrms0 : Q;
  i_vpeak : Q;
  i_vpeak0 : Q;
  i_freq : Q }.

(** ** Tables *)

Definition row := (Q * Q)%type.
Definition table := list row.

Definition DBL_MAX : Q := inject_Z (2 ^ 1024 - 2 ^ 971).

(** [std::lerp] on finite values. *)
Definition lerp (a b t : Q) : Q := a + t * (b - a).

(** Insulation.cpp:26-34, the search for the bracketing rows. *)
Fixpoint bracket (t : table) (x : Q) : Q :=
  match t with
  | r :: ((s :: _) as rest) =>
      if Qle_bool (fst r) x && Qle_bool x (fst s)
      then lerp (snd r) (snd s) ((x - fst r) / (fst s - fst r))
      else bracket rest x
  | _ => DBL_MAX
  end.

(** Insulation.cpp:11-35 [linear_table_interpolation]. [table.back()] of an
    empty table is undefined. *)
Definition interp (t : table) (x : Q) : outcome Q :=
  match t with
  | [] => UB "back of an empty table"
  | first :: _ =>
      let back := last t first in
      if Qlt_bool (fst back) x then
        if Nat.ltb (List.length t) 2 then Ok (snd back)
        else
          let prev := last (removelast t) first in
          Ok ((x - fst back) * ((snd back - snd prev) / (fst back - fst prev)) + snd back)
      else if Qlt_bool x (fst first) then Ok (snd first)
      else Ok (bracket t x)
  end.

(** The loops that return the value of the first row whose abscissa is not
    below (respectively is above) the argument, e.g. Insulation.cpp:517-521 and
    561-565. *)
Fixpoint lookup_le (t : table) (x : Q) : option Q :=
  match t with
  | [] => None
  | r :: rest => if Qle_bool x (fst r) then Some (snd r) else lookup_le rest x
  end.

Fixpoint lookup_lt (t : table) (x : Q) : option Q :=
  match t with
  | [] => None
  | r :: rest => if Qlt_bool x (fst r) then Some (snd r) else lookup_lt rest x
  end.

(** The same loop answering the next row (reinforced insulation goes one step
    up), Insulation.cpp:496-510: the flag says whether the row found was the
    last one. *)
Fixpoint lookup_next (t : table) (x : Q) : option (Q * bool) :=
  match t with
  | [] => None
  | r :: rest =>
      if Qle_bool x (fst r)
      then match rest with
           | s :: _ => Some (snd s, false)
           | [] => Some (snd r, true)
           end
      else lookup_next rest x
  end.

Definition or_throw {A} (o : option A) (why : string) : outcome A :=
  match o with Some a => Ok a | None => Throw why end.

(** ** Solid insulation at high frequency *)

(** Insulation.cpp:469-482 (and 1248-1261, the same code)
    [electric_field_strength_is_valid]. *)
Definition electric_field_strength_is_valid (dti voltage : Q) : bool :=
  if Qeq_bool dti 0 then false
  else if Qlt_bool dti (30 # 1000000) then Qlt_bool (voltage / dti) 10000000
  else if Qlt_bool (75 # 100000) dti then Qlt_bool (voltage / dti) 2000000
  else Qlt_bool (voltage / dti) (((25 # 100) / (dti * 1000) + (1667 # 1000)) * 1000000).

(** Insulation.cpp:486-488 (and 1265-1267): the loop, [k] micrometres in.  The
    repeated [dti += 1e-6] is exact here. *)
Fixpoint dti_search (fuel : nat) (k : Z) (voltage : Q) : outcome Q :=
  let dti := inject_Z k * (1 # 1000000) in
  if electric_field_strength_is_valid dti voltage then Ok dti
  else match fuel with
       | O => OutOfFuel
       | S f => dti_search f (k + 1) voltage
       end.

(** Insulation.cpp:484-491 (and 1263-1270)
    [calculate_distance_through_insulation_over_30kHz]. *)
Definition dti_over_30kHz (voltage : Q) : outcome Q :=
  dti_search (Z.to_nat (Qfloor voltage) + 800) 0 voltage.

(** ** IEC 60664 *)

(** Insulation.h:83-94: the tables of the model ([F5] for wound technology, the
    default argument every caller uses; [None] is a combination the table does
    not have), and the skin depth of copper at 20 degrees. *)
Record tables60664 := mk_60664 {
  A2 : table;
  F1 : category -> table;
  F2 : pollution -> table;
  F3 : table;
  F5 : pollution -> cti -> option table;
  F8 : table;
  P4T1 : table;
  P4T2 : list (Q * table);
  P5T2 : table;
  P5T3 : table;
  P5T4 : pollution -> cti -> option table;
  skin_depth : Q -> Q }.

(** Insulation.h:57-58: the frequency and altitude limits. *)
Definition maximum_standard_frequency : Q := 30000.
Definition lower_altitude_limit : Q := 2000.

(** 6369051672525773 / 2^52, the double nearest to the square root of 2. *)
Definition sqrt2 : Q := 6369051672525773 # 4503599627370496.

Section IEC60664.
Variable T : tables60664.

(** Insulation.cpp:493-512 [get_rated_impulse_withstand_voltage]. *)
Definition rated_impulse_60664 (c : category) (v : Q) (ty : class) : outcome Q :=
  if strong ty then
    match lookup_next (F1 T c) v with
    | Some (y, false) => Ok y
    | Some (y, true) => Ok (y * (16 # 10))
    | None => Throw "Too much voltage for IEC 60664-1"
    end
  else or_throw (lookup_le (F1 T c) v) "Too much voltage for IEC 60664-1".

(** Insulation.cpp:514-523 [get_clearance_table_f2]. *)
Definition clearance_f2 (p : pollution) (v : Q) : outcome Q :=
  or_throw (lookup_le (F2 T p) v) "Too much voltage for IEC 60664-1".

(** Insulation.cpp:525-534 [get_clearance_table_f8]. *)
Definition clearance_f8 (v : Q) : outcome Q :=
  or_throw (lookup_le (F8 T) v) "Too much voltage for IEC 60664-1".

(** Insulation.cpp:545-557 and 640-652: interpolate only when some row is above
    the voltage. *)
Definition planar_lookup (t : table) (v : Q) : outcome (option Q) :=
  if existsb (fun r => Qlt_bool v (fst r)) t
  then y <- interp t v ;; Ok (Some y)
  else Ok None.

(** Insulation.cpp:536-558 [get_clearance_planar]. *)
Definition clearance_planar (altitude v : Q) : outcome (option Q) :=
  planar_lookup (if Qle_bool altitude lower_altitude_limit then P5T2 T else P5T3 T) v.

(** Insulation.cpp:560-567 [get_rated_insulation_voltage]. *)
Definition rated_insulation_voltage (v : Q) : outcome Q :=
  or_throw (lookup_lt (F3 T) v) "Too much voltage for IEC 60664-1".

(** Insulation.cpp:569-588 [get_creepage_distance]. *)
Definition creepage_f5 (p : pollution) (g : cti) (v : Q) : outcome Q :=
  match F5 T p g with
  | None => Throw "not supported in IEC 60664"
  | Some t => or_throw (lookup_lt t v) "Too much voltage for IEC 60664-1"
  end.

(** Insulation.cpp:599-626 and 1359-1386: interpolation over frequency as well,
    in a map from frequency to table.  The loop, with the previous row. *)
Fixpoint by_frequency (m : list (Q * table)) (prev : Q) (prevt : table) (v f : Q) : outcome Q :=
  match m with
  | [] => Throw "Too much frequency for IEC 60664-4"
  | (sf, t) :: rest =>
      if Qle_bool prev f && Qle_bool f sf then
        top <- interp t v ;;
        match prevt with
        | [] => Ok top
        | _ =>
            bottom <- interp prevt v ;;
            Ok (lerp bottom top ((f - prev) / (sf - prev)))
        end
      else by_frequency rest sf t v f
  end.

Definition clamp_frequency (m : list (Q * table)) (f : Q) : Q :=
  match m with
  | [] => f
  | first :: _ => let top := fst (last m first) in if Qlt_bool top f then top else f
  end.

(** Insulation.cpp:590-627 [get_creepage_distance_over_30kHz]. *)
Definition creepage_over_30kHz_60664 (v f : Q) : outcome Q :=
  by_frequency (P4T2 T) maximum_standard_frequency [] v (clamp_frequency (P4T2 T) f).

(** Insulation.cpp:629-653 [get_creepage_distance_planar]. *)
Definition creepage_planar (p : pollution) (g : cti) (v : Q) : outcome (option Q) :=
  match P5T4 T p g with
  | None => Throw "not supported in IEC 60664-5"
  | Some t => planar_lookup t v
  end.

(** Insulation.cpp:659-682 [get_clearance_over_30kHz]. *)
Definition clearance_over_30kHz_60664 (v f current : Q) : outcome Q :=
  if Qle_bool (current * (2 # 10)) (skin_depth T f) then
    let critical := (2 # 10) / current in
    let fMHz := f / 1000000 in
    if Qlt_bool fMHz critical then Ok current
    else if Qlt_bool 3 fMHz then Ok (current * (125 # 100))
    else Ok (current * (1 + (fMHz - critical) / (3 - critical) * (25 # 100)))
  else interp (P4T1 T) v.

(** Insulation.cpp:684-693 [calculate_distance_through_insulation]. *)
Definition dti_60664 (i : inputs) : outcome Q :=
  d <- (if Qlt_bool maximum_standard_frequency (i_freq i)
        then x <- dti_over_30kHz (i_vrms i) ;; Ok (cmax 0 x)
        else Ok 0) ;;
  Ok (ceilFloat d 5).

(** Insulation.cpp:695-715 [calculate_withstand_voltage]. *)
Definition withstand_60664 (i : inputs) (q : requirements) : outcome Q :=
  transient <- rated_impulse_60664 (q_category q) (i_vrms i) (q_type q) ;;
  let temporary :=
    if strong (q_type q) then (i_vrms i + 1200) * 2 else i_vrms i + 1200 in
  let recurring0 := (12 # 10) * (11 # 10) * sqrt2 * i_vrms i in
  let recurring := if strong (q_type q) then recurring0 * (125 # 100) else recurring0 in
  Ok (cmax transient (cmax temporary (cmax recurring (i_vpeak i)))).

(** Insulation.cpp:717-767 [calculate_clearance]. *)
Definition clearance_60664 (i : inputs) (q : requirements) : outcome Q :=
  impulse <- rated_impulse_60664 (q_category q) (i_vrms i) (q_type q) ;;
  let peak := if strong (q_type q) then i_vpeak i * (16 # 10) else i_vpeak i in
  planar1 <- (if is_printed (i_wiring i)
              then clearance_planar (q_altitude q) impulse else Ok None) ;;
  transient <- match planar1 with
               | Some c => Ok c
               | None => clearance_f2 (q_pollution q) impulse
               end ;;
  planar2 <- (if is_printed (i_wiring i)
              then clearance_planar (q_altitude q) peak else Ok None) ;;
  steady <- match planar2 with
            | Some c => Ok c
            | None =>
                c <- clearance_f8 peak ;;
                if Qlt_bool maximum_standard_frequency (i_freq i)
                then clearance_over_30kHz_60664 peak (i_freq i) c
                else Ok c
            end ;;
  let c := cmax transient steady in
  if Qlt_bool lower_altitude_limit (q_altitude q)
  then factor <- interp (A2 T) (q_altitude q) ;; Ok (c * factor)
  else Ok c.

(** Insulation.cpp:796-805: the factors of pollution degrees 2 and 3. *)
Definition pollution_factor (p : pollution) (x : Q) : Q :=
  match p with PD1 => x | PD2 => x * (12 # 10) | PD3 => x * (14 # 10) end.

(** Insulation.cpp:769-830 [calculate_creepage_distance]. *)
Definition creepage_60664 (i : inputs) (q : requirements) (include_clearance : bool) : outcome Q :=
  rated <- rated_insulation_voltage (q_supply q) ;;
  let v := cmax (i_vrms i) (cmax (i_vrms i) rated) in
  planar <- (if is_printed (i_wiring i)
             then creepage_planar (q_pollution q) (q_cti q) v else Ok None) ;;
  c0 <- match planar with
        | Some c => Ok c
        | None =>
            c <- creepage_f5 (q_pollution q) (q_cti q) v ;;
            if Qlt_bool maximum_standard_frequency (i_freq i)
            then
              hf <- creepage_over_30kHz_60664 (i_vpeak i) (i_freq i) ;;
              Ok (cmax c (pollution_factor (q_pollution q) hf))
            else Ok c
        end ;;
  let c1 := if strong (q_type q) then c0 * 2 else c0 in
  allow_smaller <-
    (if pd_eqb (q_pollution q) PD1 || pd_eqb (q_pollution q) PD2
     then
       impulse <- rated_impulse_60664 (q_category q) (i_vrms i) (q_type q) ;;
       transient <- clearance_f2 (q_pollution q) impulse ;;
       Ok (Qlt_bool transient c1)
     else Ok false) ;;
  c2 <- (if negb allow_smaller && include_clearance
         then cl <- clearance_60664 i q ;; Ok (cmax c1 cl)
         else Ok c1) ;;
  Ok (roundFloat c2 5).
End IEC60664.

(** ** IEC 62368 *)

(** The keys "Basic" and "Reinforced". *)
Inductive degree := Basic | Reinforced.
Definition degree_of (ty : class) : degree := if strong ty then Reinforced else Basic.

(** Insulation.h:178-194 (tables 15, 21, 22 and G.4 are loaded but not used by
    the requirements). *)
Record tables62368 := mk_62368 {
  U10 : degree -> pollution -> table;
  U11 : degree -> table;
  U12 : category -> table;
  U14 : degree -> pollution -> table;
  U16 : table;
  U17 : pollution -> cti -> table;
  U18 : list (Q * table);
  U25 : degree -> table;
  U26 : degree -> table;
  U27 : degree -> table;
  UG13 : degree -> table }.

Section IEC62368.
Variable T : tables62368.

(** Insulation.cpp:844-852 [get_voltage_due_to_temporary_overvoltages_procedure_1]. *)
Definition temporary_procedure_1 (supply : Q) : Q :=
  if Qle_bool supply 250 then cmax 2000 (supply + 1200) else cmax 2500 (supply + 1200).

(** Insulation.cpp:854-863, 865-874, 876-890. *)
Definition transient_overvoltage (v : Q) (ty : class) : outcome Q :=
  interp (U25 T (degree_of ty)) v.
Definition recurring_peak (v : Q) (ty : class) : outcome Q :=
  interp (U26 T (degree_of ty)) v.
Definition temporary_overvoltage (v : Q) (ty : class) : outcome Q :=
  or_throw (lookup_lt (U27 T (degree_of ty)) v) "Too much voltage for IEC 62368-1 in table 27".

(** Insulation.cpp:915-920: the rounding of the clearance tables. *)
Definition round_clearance (x : Q) : Q :=
  if Qlt_bool x (5 # 1000) then ceilFloat x 5 else ceilFloat x 4.

(** Insulation.cpp:903-921 [get_clearance_table_10]. *)
Definition clearance_10 (v : Q) (ty : class) (p : pollution) : outcome Q :=
  x <- interp (U10 T (degree_of ty) p) v ;; Ok (round_clearance x).

(** Insulation.cpp:923-941 [get_clearance_table_14]. *)
Definition clearance_14 (v : Q) (ty : class) (p : pollution) : outcome Q :=
  x <- interp (U14 T (degree_of ty) p) v ;; Ok (round_clearance x).

(** Insulation.cpp:943-970 [get_clearance_table_11]. *)
Definition clearance_11 (v : Q) (ty : class) (p : pollution) : outcome Q :=
  x <- interp (U11 T (degree_of ty)) v ;;
  Ok (round_clearance
        (match p with PD1 => x * (8 # 10) | PD3 => x * (14 # 10) | PD2 => x end)).

(** Insulation.cpp:972-983 [get_distance_table_G13]. *)
Definition distance_G13 (v : Q) (ty : class) : outcome Q :=
  x <- interp (UG13 T (degree_of ty)) v ;; Ok (ceilFloat x 4).

(** Insulation.cpp:985-998 [get_creepage_distance_table_17]. *)
Definition creepage_17 (v : Q) (ty : class) (p : pollution) (g : cti) : outcome Q :=
  x <- interp (U17 T p g) v ;;
  Ok (if strong ty then ceilFloat (x * 2) 4 else ceilFloat x 4).

(** Insulation.cpp:1001-1011: the loop over the frequencies of table 18. *)
Fixpoint find_table_18 (m : list (Q * table)) (prev f : Q) : option table :=
  match m with
  | [] => None
  | (sf, t) :: rest =>
      if (Qle_bool prev f && Qle_bool f sf) || Qeq_bool sf 400000
      then Some t
      else find_table_18 rest sf f
  end.

(** Insulation.cpp:1000-1033 [get_creepage_distance_table_18].  A table whose
    interpolation gives [DBL_MAX] is also answered with the error. *)
Definition creepage_18 (v f : Q) (p : pollution) (ty : class) : outcome Q :=
  match find_table_18 (U18 T) maximum_standard_frequency f with
  | None => Throw "Too much frequency for IEC 62368-1 in table 18"
  | Some t =>
      x <- interp t v ;;
      if Qeq_bool x DBL_MAX then Throw "Too much frequency for IEC 62368-1 in table 18"
      else
        let r := pollution_factor p x in
        Ok (if strong ty then ceilFloat (2 * r) 5 else ceilFloat r 5)
  end.

(** Insulation.cpp:1035-1042 [get_altitude_factor]. *)
Definition altitude_factor (altitude : Q) : outcome Q :=
  x <- interp (U16 T) altitude ;; Ok (ceilFloat (cmax 1 x) 5).

(** Insulation.cpp:1044-1053 [get_mains_transient_voltage]. *)
Definition mains_transient (v : Q) (c : category) : outcome Q :=
  or_throw (lookup_le (U12 T c) v) "Too much voltage for IEC 62368-1 in table 12".

(** Insulation.cpp:1055-1068 [get_es2_voltage_limit]. *)
Definition es2_voltage_limit (f : Q) : Q :=
  if Qlt_bool f 1 then 120
  else if Qlt_bool f 1000 then 50
  else if Qlt_bool f 100000 then 50 + (9 # 10) * (f / 1000)
  else 140.

(** Insulation.cpp:1070-1094 [calculate_withstand_voltage]. *)
Definition withstand_62368 (i : inputs) (q : requirements) : outcome Q :=
  transient <- transient_overvoltage (i_vpeak i) (q_type q) ;;
  recurring <- recurring_peak (i_vpeak i) (q_type q) ;;
  temporary <- temporary_overvoltage (q_supply q) (q_type q) ;;
  Ok (cmax transient (cmax recurring temporary)).

(** Insulation.cpp:1096-1113 [calculate_distance_through_insulation]. *)
Definition dti_62368 (i : inputs) (q : requirements) : outcome Q :=
  if Qle_bool (i_vrms i) (es2_voltage_limit (i_freq i)) then Ok 0
  else match q_type q with
       | FUNCTIONAL | BASIC => Ok 0
       | _ => Ok (4 # 10000)
       end.

(** Insulation.cpp:1115-1148 [calculate_clearance]. *)
Definition clearance_62368 (i : inputs) (q : requirements) : outcome Q :=
  let procedure1 := cmax (i_vpeak i) (cmax (i_vpeak i) (temporary_procedure_1 (q_supply q))) in
  if is_printed (i_wiring i) then distance_G13 (i_vpeak i) (q_type q)
  else
    c1 <- (if Qle_bool (i_freq i) maximum_standard_frequency
           then clearance_10 procedure1 (q_type q) (q_pollution q)
           else clearance_11 (i_vpeak i) (q_type q) (q_pollution q)) ;;
    mains <- mains_transient (q_supply q) (q_category q) ;;
    c2 <- clearance_14 (cmax (i_vpeak i) mains) (q_type q) (q_pollution q) ;;
    factor <- altitude_factor (q_altitude q) ;;
    Ok (ceilFloat (factor * cmax c1 c2) 5).

(** Insulation.cpp:1150-1180 [calculate_creepage_distance]. *)
Definition creepage_62368 (i : inputs) (q : requirements) (include_clearance : bool) : outcome Q :=
  if is_printed (i_wiring i) then distance_G13 (i_vpeak i) (q_type q)
  else
    c <- (if Qle_bool (i_freq i) maximum_standard_frequency
          then creepage_17 (i_vrms i) (q_type q) (q_pollution q) (q_cti q)
          else
            a <- creepage_17 (i_vrms i) (q_type q) (q_pollution q) (q_cti q) ;;
            b <- creepage_18 (i_vrms i) (i_freq i) (q_pollution q) (q_type q) ;;
            Ok (cmax a b)) ;;
    if include_clearance
    then cl <- clearance_62368 i q ;; Ok (cmax c cl)
    else Ok c.
End IEC62368.

(** ** IEC 61558 *)

(** Insulation.h:275-288 (tables 23 and 102 are loaded but not used; table 22
    for thin layers, the default argument the coordinator uses, and solid). *)
Record tables61558 := mk_61558 {
  V14 : category -> class -> table;
  V20 : category -> class -> pollution -> table;
  V21 : cti -> class -> pollution -> table;
  V22thin : class -> table;
  V22solid : class -> table;
  V103 : degree -> table;
  V104 : degree -> table;
  V105 : degree -> pollution -> list (Q * table)  (* tables 105 to 110 *) }.

Section IEC61558.
Variable T6 : tables60664.
Variable T : tables61558.

Definition minimum_working_voltage : Q := 25.
Definition maximum_supply_voltage : Q := 1100.

(** Insulation.cpp:1190-1196 [get_withstand_voltage_table_14]. *)
Definition withstand_14 (c : category) (ty : class) (v : Q) : outcome Q :=
  interp (V14 T c ty) v.

(** Insulation.cpp:1198-1214 [get_clearance_table_20]. *)
Definition clearance_20 (c : category) (p : pollution) (ty : class) (v : Q) : outcome Q :=
  if Qlt_bool v minimum_working_voltage || pd_eqb p PD1 || class_eqb ty FUNCTIONAL then Ok 0
  else or_throw (lookup_le (V20 T c ty p) v) "Too much voltage for IEC 61558-1".

(** Insulation.cpp:1216-1229 [get_creepage_distance_table_21]. *)
Definition creepage_21 (g : cti) (p : pollution) (ty : class) (v : Q) : outcome Q :=
  if Qlt_bool v minimum_working_voltage || class_eqb ty FUNCTIONAL then Ok 0
  else interp (V21 T g ty p) v.

(** Insulation.cpp:1231-1246 [get_distance_through_insulation_table_22]. *)
Definition dti_22 (ty : class) (v : Q) (thin : bool) : outcome Q :=
  if Qlt_bool v minimum_working_voltage || class_eqb ty FUNCTIONAL || class_eqb ty BASIC then Ok 0
  else interp (if thin then V22thin T ty else V22solid T ty) v.

(** Insulation.cpp:1272-1318 [calculate_clearance_over_30kHz]. *)
Definition clearance_over_30kHz_61558 (ty : class) (v : Q) : outcome Q :=
  if Qlt_bool v minimum_working_voltage || class_eqb ty FUNCTIONAL then Ok 0
  else
    let c103 := match lookup_le (V103 T (degree_of ty)) v with Some y => y | None => DBL_MAX end in
    let c := match lookup_le (V104 T (degree_of ty)) v with Some y => cmax c103 y | None => c103 end in
    if Qeq_bool c DBL_MAX then Throw "Too much voltage for IEC 61558-1" else Ok c.

(** Insulation.cpp:1320-1387 [calculate_creepage_distance_over_30kHz]. *)
Definition creepage_over_30kHz_61558 (ty : class) (p : pollution) (f v : Q) : outcome Q :=
  if Qlt_bool v minimum_working_voltage || class_eqb ty FUNCTIONAL then Ok 0
  else
    let m := V105 T (degree_of ty) p in
    by_frequency m maximum_standard_frequency [] v (clamp_frequency m f).

Definition check_supply (q : requirements) : outcome unit :=
  if Qlt_bool maximum_supply_voltage (q_supply q)
  then Throw "Too much supply voltage for IEC 61558-1" else Ok tt.

(** Insulation.cpp:1389-1407 [calculate_distance_through_insulation]. *)
Definition dti_61558 (i : inputs) (q : requirements) (thin : bool) : outcome Q :=
  _ <- check_supply q ;;
  if class_eqb (q_type q) FUNCTIONAL then Ok 0
  else
    d <- dti_22 (q_type q) (i_vrms i) thin ;;
    d2 <- (if Qlt_bool maximum_standard_frequency (i_freq i)
           then x <- dti_over_30kHz (i_vrms i) ;; Ok (cmax d x)
           else Ok d) ;;
    Ok (ceilFloat d2 5).

(** Insulation.cpp:1409-1426 [calculate_withstand_voltage]. *)
Definition withstand_61558 (i : inputs) (q : requirements) : outcome Q :=
  _ <- check_supply q ;;
  w <- withstand_14 (q_category q) (q_type q) (i_vrms i) ;;
  Ok (if Qlt_bool maximum_standard_frequency (i_freq i)
      then cmax w (i_vrms i + 500) else w).

(** Insulation.cpp:1428-1467 [calculate_clearance]. *)
Definition clearance_61558 (i : inputs) (q : requirements) : outcome Q :=
  _ <- check_supply q ;;
  if class_eqb (q_type q) FUNCTIONAL then Ok 0
  else
    let p := if is_printed (i_wiring i) then PD1 else q_pollution q in
    c <- clearance_20 (q_category q) p (q_type q) (i_vrms i) ;;
    if Qlt_bool lower_altitude_limit (q_altitude q) then clearance_60664 T6 i q
    else
      c2 <- (if Qlt_bool maximum_standard_frequency (i_freq i)
             then x <- clearance_over_30kHz_61558 (q_type q) (i_vpeak i) ;; Ok (cmax c x)
             else Ok c) ;;
      Ok (ceilFloat c2 5).

(** Insulation.cpp:1469-1501 [calculate_creepage_distance]. *)
Definition creepage_61558 (i : inputs) (q : requirements) (include_clearance : bool) : outcome Q :=
  _ <- check_supply q ;;
  if class_eqb (q_type q) FUNCTIONAL then Ok 0
  else
    let p := if is_printed (i_wiring i) then PD1 else q_pollution q in
    c <- creepage_21 (q_cti q) p (q_type q) (i_vrms i) ;;
    c2 <- (if Qlt_bool maximum_standard_frequency (i_freq i)
           then x <- creepage_over_30kHz_61558 (q_type q) p (i_freq i) (i_vpeak i) ;; Ok (cmax c x)
           else Ok c) ;;
    c3 <- (if include_clearance then cl <- clearance_61558 i q ;; Ok (cmax c2 cl) else Ok c2) ;;
    Ok (ceilFloat c3 5).
End IEC61558.

(** ** IEC 60335 *)

(** Insulation.h:421-427. [W7] has no functional insulation. *)
Record tables60335 := mk_60335 {
  W7 : class -> option table;
  W15 : category -> table;
  W16 : table;
  W17 : pollution -> cti -> table;
  W18 : pollution -> cti -> table;
  W19 : category -> table }.

Section IEC60335.
Variable T6 : tables60664.
Variable T : tables60335.

(** Insulation.cpp:1503-1512 [get_rated_impulse_withstand_voltage]. *)
Definition rated_impulse_60335 (c : category) (v : Q) : outcome Q :=
  or_throw (lookup_le (W15 T c) v) "Too much voltage for IEC 60335-1".

(** Insulation.cpp:1514-1550 [get_clearance_table_16]. *)
Definition clearance_16 (p : pollution) (w : option wiring) (ty : class) (v : Q) : outcome Q :=
  if strong ty then
    match lookup_next (W16 T) v with
    | None => Throw "Too much voltage for IEC 60335-1"
    | Some (y, _) =>
        let r1 := if Qle_bool v 800 && pd_eqb p PD3 then 8 # 10000 else y in
        Ok (if Qle_bool v 500 && (pd_eqb p PD1 || pd_eqb p PD2) && is_printed w
            then 2 # 10000 else r1)
    end
  else
    match lookup_le (W16 T) v with
    | None => Throw "Too much voltage for IEC 60335-1"
    | Some y =>
        let r1 := if Qle_bool v 1500 && pd_eqb p PD3 then 8 # 10000 else y in
        Ok (if Qle_bool v 800 && (pd_eqb p PD1 || pd_eqb p PD2) && is_printed w
            then 2 # 10000 else r1)
    end.

(** Insulation.cpp:1552-1561 [get_distance_through_insulation_table_19]. *)
Definition dti_19 (c : category) (v : Q) : outcome Q :=
  or_throw (lookup_le (W19 T c) v) "Too much voltage for IEC 60335-1".

(** Insulation.cpp:1563-1587 [get_withstand_voltage_table_7]. *)
Definition withstand_7 (ty : class) (v : Q) : outcome Q :=
  match ty, W7 T ty with
  | FUNCTIONAL, _ => Throw "IEC 60335-1 Table 7 does not cover insulation class"
  | _, None => Throw "IEC 60335-1 Table 7 data is missing insulation class"
  | _, Some t => or_throw (lookup_le t v) "Too much voltage for IEC 60335-1"
  end.

(** Insulation.cpp:1589-1600 [get_withstand_voltage_formula_table_7]. *)
Definition withstand_formula_7 (ty : class) (v : Q) : Q :=
  match ty with
  | BASIC => (12 # 10) * v + 950
  | SUPPLEMENTARY => (12 # 10) * v + 1450
  | REINFORCED | DOUBLE => (24 # 10) * v + 2400
  | FUNCTIONAL => 0
  end.

(** Insulation.cpp:1603-1613 and 1615-1625. *)
Definition creepage_t17 (g : cti) (p : pollution) (v : Q) : outcome Q :=
  or_throw (lookup_le (W17 T p g) v) "Too much voltage for IEC 60335-1 Table 17".
Definition creepage_t18 (g : cti) (p : pollution) (v : Q) : outcome Q :=
  or_throw (lookup_le (W18 T p g) v) "Too much voltage for IEC 60335-1 Table 18".

Definition check_category (q : requirements) : outcome unit :=
  match q_category q with
  | OVC_IV => Throw "Overvoltage Category IV not supported in standard IEC 60335-1"
  | _ => Ok tt
  end.

(** Insulation.cpp:1628-1648 [calculate_distance_through_insulation]. *)
Definition dti_60335 (i : inputs) (q : requirements) : outcome Q :=
  _ <- check_category q ;;
  match q_type q with
  | REINFORCED =>
      x <- dti_19 (q_category q) (cmax (q_supply q) (i_vrms0 i)) ;; Ok (cmax (2 # 1000) x)
  | SUPPLEMENTARY | DOUBLE => Ok (1 # 1000)
  | _ => Ok 0
  end.

(** Insulation.cpp:1650-1665 [calculate_withstand_voltage]. *)
Definition withstand_60335 (i : inputs) (q : requirements) : outcome Q :=
  match q_type q with
  | FUNCTIONAL => Ok 0
  | ty =>
      w <- withstand_7 ty (cmax (q_supply q) (i_vrms0 i)) ;;
      Ok (cmax w (withstand_formula_7 ty (i_vpeak i)))
  end.

(** Insulation.cpp:1667-1705 [calculate_clearance]. *)
Definition clearance_60335 (i : inputs) (q : requirements) : outcome Q :=
  _ <- check_category q ;;
  impulse <- rated_impulse_60335 (q_category q) (cmax (q_supply q) (i_vrms0 i)) ;;
  c <- clearance_16 (q_pollution q) (i_wiring i) (q_type q) impulse ;;
  if Qlt_bool (i_vrms0 i) (i_vrms i) || Qlt_bool lower_altitude_limit (q_altitude q)
     || Qlt_bool maximum_standard_frequency (i_freq i)
  then x <- clearance_60664 T6 i q ;; Ok (cmax c x)
  else Ok c.

(** Insulation.cpp:1707-1745 [calculate_creepage_distance]. *)
Definition creepage_60335 (i : inputs) (q : requirements) (include_clearance : bool) : outcome Q :=
  c <- (if Qle_bool (i_freq i) maximum_standard_frequency then
          match q_type q with
          | FUNCTIONAL => creepage_t18 (q_cti q) (q_pollution q) (i_vpeak0 i)
          | ty =>
              x <- creepage_t17 (q_cti q) (q_pollution q) (i_vpeak0 i) ;;
              Ok (if strong ty then x * 2 else x)
          end
        else creepage_60664 T6 i q false) ;;
  c2 <- (if include_clearance then cl <- clearance_60335 i q ;; Ok (cmax c cl) else Ok c) ;;
  Ok (roundFloat c2 5).
End IEC60335.

(** ** The coordinator *)

Record standards_data := mk_data {
  d60664 : tables60664;
  d62368 : tables62368;
  d61558 : tables61558;
  d60335 : tables60335 }.

Section Coordinator.
Variable D : standards_data.

(** The four virtual functions, dispatched on the standard. *)
Definition std_withstand (i : inputs) (q : requirements) (s : standard) : outcome Q :=
  match s with
  | IEC_603351 => withstand_60335 (d60335 D) i q
  | IEC_606641 => withstand_60664 (d60664 D) i q
  | IEC_615581 => withstand_61558 (d61558 D) i q
  | IEC_623681 => withstand_62368 (d62368 D) i q
  end.

Definition std_clearance (i : inputs) (q : requirements) (s : standard) : outcome Q :=
  match s with
  | IEC_603351 => clearance_60335 (d60664 D) (d60335 D) i q
  | IEC_606641 => clearance_60664 (d60664 D) i q
  | IEC_615581 => clearance_61558 (d60664 D) (d61558 D) i q
  | IEC_623681 => clearance_62368 (d62368 D) i q
  end.

Definition std_creepage (include_clearance : bool) (i : inputs) (q : requirements)
    (s : standard) : outcome Q :=
  match s with
  | IEC_603351 => creepage_60335 (d60664 D) (d60335 D) i q include_clearance
  | IEC_606641 => creepage_60664 (d60664 D) i q include_clearance
  | IEC_615581 => creepage_61558 (d60664 D) (d61558 D) i q include_clearance
  | IEC_623681 => creepage_62368 (d62368 D) i q include_clearance
  end.

Definition std_dti (i : inputs) (q : requirements) (s : standard) : outcome Q :=
  match s with
  | IEC_603351 => dti_60335 (d60335 D) i q
  | IEC_606641 => dti_60664 i
  | IEC_615581 => dti_61558 (d61558 D) i q true
  | IEC_623681 => dti_62368 i q
  end.

(** The loop common to the four functions of the coordinator. *)
Fixpoint fold_standards (f : standard -> outcome Q) (acc : Q) (l : list standard) : outcome Q :=
  match l with
  | [] => Ok acc
  | s :: rest => x <- f s ;; fold_standards f (cmax acc x) rest
  end.

(** Insulation.cpp:356-382 [InsulationCoordinator::calculate_withstand_voltage]. *)
Definition calculate_withstand_voltage (i : inputs) : outcome Q :=
  match i_insulation i with
  | None => Ok 0
  | Some q => fold_standards (std_withstand i q) 0 (q_standards q)
  end.

(** Insulation.cpp:384-411 [InsulationCoordinator::calculate_clearance]. *)
Definition calculate_clearance (i : inputs) : outcome Q :=
  match i_insulation i with
  | None => Ok 0
  | Some q => fold_standards (std_clearance i q) 0 (q_standards q)
  end.

(** Insulation.cpp:413-439 [InsulationCoordinator::calculate_creepage_distance]. *)
Definition calculate_creepage_distance (i : inputs) (include_clearance : bool) : outcome Q :=
  match i_insulation i with
  | None => Ok 0
  | Some q => fold_standards (std_creepage include_clearance i q) 0 (q_standards q)
  end.

(** Insulation.cpp:441-467
    [InsulationCoordinator::calculate_distance_through_insulation]. *)
Definition calculate_distance_through_insulation (i : inputs) : outcome Q :=
  match i_insulation i with
  | None => Ok 0
  | Some q => fold_standards (std_dti i q) 0 (q_standards q)
  end.

Record coordination := mk_coordination {
  co_clearance : Q; co_creepage : Q; co_withstand : Q; co_dti : Q }.

(** Insulation.cpp:37-45 [calculate_insulation_coordination]. *)
Definition calculate_insulation_coordination (i : inputs) : outcome coordination :=
  cl <- calculate_clearance i ;;
  cr <- calculate_creepage_distance i true ;;
  w <- calculate_withstand_voltage i ;;
  d <- calculate_distance_through_insulation i ;;
  Ok (mk_coordination cl cr w d).

(** Insulation.cpp:48-56 [can_fully_insulated_wire_be_used]. *)
Definition can_fully_insulated_wire_be_used (q : requirements) : bool :=
  negb (existsb (fun s => match s with IEC_603351 | IEC_606641 => true | _ => false end)
          (q_standards q)).

(** ** Insulation between two sections *)

(** The coating of a wire, as far as this file reads it. *)
Record coating := mk_coating {
  c_breakdown : option Q;
  c_layers : option nat;
  c_grade : option nat }.

(** The wire: whether it is litz, its coating and the coating of its strand.
    [insulation_distance_provided_by_wires] (lines 130-182) has no caller and is
    not modelled. *)
Record wire := mk_wire {
  w_litz : bool;
  w_coating : option coating;
  w_strand : option coating }.

(** Insulation.cpp:66-69 and 97-100: a litz wire without a
    breakdown voltage of its own uses the coating of its strand. *)
Definition effective_coating (w : wire) (c : coating) : outcome coating :=
  match w_litz w, c_breakdown c with
  | true, None => or_throw (w_strand w) "bad optional access"
  | _, _ => Ok c
  end.

(** Insulation.cpp:75-92 and 107-124: what one coating adds. *)
Definition coating_times (c : coating) (bd v : Q) (fiw : bool) : nat :=
  if Qlt_bool v bd then
    match c_layers c, c_grade c with
    | Some n, _ => n
    | None, Some g => if fiw then (if Nat.ltb 3 g then 3 else 1) else 1
    | None, None => 1
    end
  else 0.

(** Insulation.cpp:58-128 [times_withstand_voltage_is_covered_by_wires]. *)
Definition times_covered (left right : wire) (v : Q) (fiw : bool) : outcome nat :=
  let right_part (n : nat) : outcome nat :=
    match w_coating right with
    | None => Ok n
    | Some c0 =>
        c <- effective_coating right c0 ;;
        match c_breakdown c with
        | None => Ok 0%nat
        | Some bd => Ok (n + coating_times c bd v fiw)%nat
        end
    end in
  match w_coating left with
  | None => right_part 0%nat
  | Some c0 =>
      c <- effective_coating left c0 ;;
      match c_breakdown c with
      | None => Ok 0%nat
      | Some bd => right_part (coating_times c bd v fiw)
      end
  end.

(** src/constructive_models/InsulationMaterial.cpp:33-48 [get_thicker_tape]: the
    thickness and strength of the thickest tape; points without thickness are
    skipped. *)
Definition thicker_tape (points : list (option Q * Q)) : Q * Q :=
  fold_left (fun acc p =>
    match fst p with
    | None => acc
    | Some t => if Qlt_bool (fst acc) t then (t, snd p) else acc
    end) points (0, 0).

Inductive purpose := MECHANICAL | INSULATING.

Record interface := mk_interface {
  f_purpose : purpose;
  f_layers : Z;
  f_thickness : Q;
  f_margin : Q }.

(** Insulation.cpp:226 and its copies: the number of layers of tape for a
    voltage.  A tape without dielectric strength makes the quotient infinite,
    which has no value as an integer (0/0 loses against 1). *)
Definition layers_for (v strength thickness : Q) : outcome Z :=
  if Qeq_bool strength 0 then
    (if Qeq_bool v 0 then Ok 1%Z else UB "conversion of infinity to size_t")
  else Ok (Z.max 1 (Qceiling (roundFloat (v / strength / thickness) 1))).

Definition set_type (i : inputs) (ty : class) : inputs :=
  match i_insulation i with
  | None => i
  | Some q =>
      mk_inputs
        (Some (mk_requirements ty (q_standards q) (q_altitude q) (q_cti q) (q_supply q)
                 (q_category q) (q_pollution q)))
        (i_wiring i) (i_sides i) (i_ratios i)
        (i_vrms i) (i_vrms0 i) (i_vpeak i) (i_vpeak0 i) (i_freq i)
  end.

(** What a computation does to the caller's inputs and what it answers. *)
Definition result (A : Type) : Type := (inputs * outcome A)%type.

(** Insulation.cpp:217-281: functional, basic and supplementary insulation; only
    functional sets the purpose when the voltage is covered twice. *)
Definition layers_single (ty : class) (times : nat) (allow_wire : bool) (creepage v strength thickness : Q)
    : outcome (Z * purpose * Q) :=
  if Nat.ltb 0 times && allow_wire then
    if Qlt_bool 0 creepage && Nat.leb 3 times then Ok (1%Z, MECHANICAL, 0)
    else if Qlt_bool 0 creepage && Nat.eqb times 2 then
      n <- layers_for v strength thickness ;;
      Ok (n, if class_eqb ty FUNCTIONAL then MECHANICAL else INSULATING, 0)
    else Ok (1%Z, INSULATING, creepage)
  else n <- layers_for v strength thickness ;; Ok (n, INSULATING, creepage).

(** Insulation.cpp:286-298 and 311-323: one of the two estimates for double
    insulation. *)
Definition layers_double (times : nat) (allow_wire : bool) (creepage v strength thickness : Q)
    (p : purpose) : outcome (Z * purpose * Q) :=
  if Nat.leb 3 times && allow_wire then Ok (1%Z, MECHANICAL, 0)
  else
    n <- layers_for v strength thickness ;;
    if Qlt_bool 0 creepage && Nat.eqb times 2 && allow_wire then Ok (n, p, 0)
    else Ok (n, p, creepage).

(** Insulation.cpp:342-353: the distance through insulation and the result. *)
Definition finish_interface (n : Z) (p : purpose) (creepage dti thickness : Q) (allow_margin : bool)
    : option interface :=
  let n' := if Qle_bool (thickness * inject_Z n) dti
            then Qceiling (roundFloat (dti / thickness) 1) else n in
  if Qlt_bool 0 creepage && negb allow_margin then None
  else Some (mk_interface p n' (thickness * inject_Z n') creepage).

(** Insulation.cpp:184-354 [calculate_coil_section_interface_layers]. *)
Definition section_interface (allow_margin allow_wire : bool) (i : inputs) (left right : wire)
    (tape : list (option Q * Q)) : result (option interface) :=
  match i_insulation i with
  | None => (i, Throw "Missing insulation in designRequirements")
  | Some q =>
    let fiw := can_fully_insulated_wire_be_used q in
    let thickness := fst (thicker_tape tape) in
    let strength := snd (thicker_tape tape) in
    if Qeq_bool thickness 0 then (i, Ok None)
    else match calculate_insulation_coordination i with
    | Ok co =>
      let v := co_withstand co in
      let creepage := co_creepage co in
      if negb allow_margin && negb allow_wire
      then (i, Throw "One of the options {allowMarginTape, allowInsulatedWire} must be allowed")
      else
      match q_type q with
      | FUNCTIONAL | BASIC | SUPPLEMENTARY =>
          (i, times <- times_covered left right v fiw ;;
              r <- layers_single (q_type q) times allow_wire creepage v strength thickness ;;
              Ok (finish_interface (fst (fst r)) (snd (fst r)) (snd r) (co_dti co) thickness allow_margin))
      | REINFORCED =>
          (i, times <- times_covered left right v fiw ;;
              if Nat.leb 3 times && allow_wire
              then Ok (finish_interface 1 MECHANICAL 0 (co_dti co) thickness allow_margin)
              else
                n <- layers_for v strength thickness ;;
                Ok (finish_interface n INSULATING creepage (co_dti co) thickness allow_margin))
      | DOUBLE =>
          match
            (times <- times_covered left right v fiw ;;
             layers_double times allow_wire creepage v strength thickness INSULATING) with
          | Ok (together, p1, creepage1) =>
              match calculate_withstand_voltage (set_type i BASIC) with
              | Ok vb =>
                  match calculate_withstand_voltage (set_type i SUPPLEMENTARY) with
                  | Ok vs =>
                      let sep := cmax vb vs in
                      (set_type i DOUBLE,
                       times <- times_covered left right sep fiw ;;
                       r <- layers_double times allow_wire creepage1 sep strength thickness p1 ;;
                       Ok (finish_interface (Z.min together (fst (fst r))) (snd (fst r)) (snd r)
                             (co_dti co) thickness allow_margin))
                  | Throw w => (set_type i SUPPLEMENTARY, Throw w)
                  | UB w => (set_type i SUPPLEMENTARY, UB w)
                  | OutOfFuel => (set_type i SUPPLEMENTARY, OutOfFuel)
                  end
              | Throw w => (set_type i BASIC, Throw w)
              | UB w => (set_type i BASIC, UB w)
              | OutOfFuel => (set_type i BASIC, OutOfFuel)
              end
          | Throw w => (i, Throw w)
          | UB w => (i, UB w)
          | OutOfFuel => (i, OutOfFuel)
          end
      end
    | Throw w => (i, Throw w)
    | UB w => (i, UB w)
    | OutOfFuel => (i, OutOfFuel)
    end
  end.

(** ** Insulation required from the wires *)

Record wire_requirement := mk_wire_requirement {
  r_grade : option Z;
  r_layers : option Z;
  r_breakdown : option Q }.

Definition or_zero (o : option Z) : Z := match o with Some z => z | None => 0%Z end.

(** Insulation.cpp:1762-1779: one pair of neighbours; an index outside the
    requirements is undefined. *)
Definition pair_needs_margin (reqs : list wire_requirement) (l r : nat) : outcome bool :=
  match nth_error reqs l, nth_error reqs r with
  | Some a, Some b =>
      Ok ((or_zero (r_layers a) + or_zero (r_layers b) <? 3)%Z
          && (or_zero (r_grade a) + or_zero (r_grade b) <? 4)%Z)
  | _, _ => UB "index outside the requirements"
  end.

(** Insulation.cpp:1748-1781, from a position of the pattern on. *)
Fixpoint needs_margin_from (reqs : list wire_requirement) (first : nat) (pattern : list nat)
    (repetitions : nat) : outcome bool :=
  match pattern with
  | [] => Ok false
  | l :: rest =>
      match rest with
      | [] =>
          if Nat.eqb repetitions 0 then Ok false
          else pair_needs_margin reqs l first
      | r :: _ =>
          b <- pair_needs_margin reqs l r ;;
          if b then Ok true else needs_margin_from reqs first rest repetitions
      end
  end.

(** Insulation.cpp:1747-1782 [needs_margin]. *)
Definition needs_margin (reqs : list wire_requirement) (pattern : list nat) (repetitions : nat)
    : outcome bool :=
  match pattern with
  | [] => Ok false
  | first :: _ => needs_margin_from reqs first pattern repetitions
  end.

(** Insulation.cpp:1784-1790, 1792-1800, 1802-1810. *)
Definition functional_requirement : wire_requirement :=
  mk_wire_requirement (Some 1%Z) (Some 1%Z) (Some 0).
Definition basic_requirement (v : Q) (fiw : bool) : wire_requirement :=
  mk_wire_requirement (if fiw then Some 3%Z else None) (Some 1%Z) (Some v).
Definition reinforced_requirement (v : Q) (fiw : bool) : wire_requirement :=
  mk_wire_requirement (if fiw then Some 3%Z else None) (Some 3%Z) (Some v).

(** Insulation.cpp:1812-1821 [remove_combination_that_need_margin]. *)
Fixpoint without_margin (l : list (list wire_requirement)) (pattern : list nat) (repetitions : nat)
    : outcome (list (list wire_requirement)) :=
  match l with
  | [] => Ok []
  | c :: rest =>
      b <- needs_margin c pattern repetitions ;;
      k <- without_margin rest pattern repetitions ;;
      Ok (if b then k else c :: k)
  end.

(** src/support/Utils.cpp:2033-2039 [get_isolation_side_from_index]: twelve
    sides, numbered; beyond them the conversion throws (Definitions.h:134-147,
    168-184). *)
Definition side_from_index (k : nat) : outcome nat :=
  if Nat.ltb k 12 then Ok k else Throw "Unexpected value in enumeration OrderedIsolationSide".

Fixpoint sides_from (start count : nat) : outcome (list nat) :=
  match count with
  | O => Ok []
  | S c => s <- side_from_index start ;; l <- sides_from (S start) c ;; Ok (s :: l)
  end.

Definition set_sides (i : inputs) (l : list nat) : inputs :=
  mk_inputs (i_insulation i) (i_wiring i) (Some l) (i_ratios i)
    (i_vrms i) (i_vrms0 i) (i_vpeak i) (i_vpeak0 i) (i_freq i).

Fixpoint dedup (seen l : list nat) : list nat :=
  match l with
  | [] => []
  | s :: rest => if existsb (Nat.eqb s) seen then dedup seen rest else s :: dedup (seen ++ [s]) rest
  end.

(** src/processors/Inputs.cpp:3417-3450 [get_isolation_sides_used]: fills in the
    missing sides in the caller's inputs and answers the distinct ones. *)
Definition isolation_sides_used (i : inputs) : result (list nat) :=
  let windings := S (i_ratios i) in
  match i_sides i with
  | None =>
      match sides_from 1 (windings - 1) with
      | Ok l => (set_sides i (0%nat :: l), Ok (dedup [] (0%nat :: l)))
      | Throw w => (i, Throw w)
      | UB w => (i, UB w)
      | OutOfFuel => (i, OutOfFuel)
      end
  | Some l =>
      if Nat.ltb (List.length l) windings then
        match sides_from (List.length l) (windings - List.length l) with
        | Ok more => (set_sides i (l ++ more), Ok (dedup [] (l ++ more)))
        | Throw w => (i, Throw w)
        | UB w => (i, UB w)
        | OutOfFuel => (i, OutOfFuel)
        end
      else (i, Ok (dedup [] l))
  end.

(** Insulation.cpp:1864-1875 and 1901-1912: one combination per side, that side
    without insulation and the others with it. *)
Definition per_side (used sides : list nat) (req : wire_requirement) : list (list wire_requirement) :=
  map (fun bare => map (fun s => if Nat.eqb s bare then functional_requirement else req) sides) used.

(** Insulation.cpp:1845-1849: without margin tape basic and supplementary
    insulation are raised to double. *)
Definition raised_type (allow_margin : bool) (ty : class) : class :=
  match ty with
  | BASIC | SUPPLEMENTARY => if allow_margin then ty else DOUBLE
  | _ => ty
  end.

(** Insulation.cpp:1878-1914: the combinations of basic insulation. *)
Definition basic_combinations (ty : class) (used sides : list nat) (v : Q) (fiw : bool)
    : list (list wire_requirement) :=
  (if class_eqb ty DOUBLE || Nat.eqb (List.length used) 1
   then [repeat (basic_requirement v fiw) (List.length sides)] else [])
  ++ (if Nat.ltb 1 (List.length used) then per_side used sides (basic_requirement v fiw) else []).

(** Insulation.cpp:1823-1923 [get_solid_insulation_requirements_for_wires].  The
    combinations of double insulation are completed after the second withstand
    voltage is known; an error there leaves the caller's inputs with basic
    insulation. *)
Definition solid_requirements (allow_margin : bool) (i0 : inputs) (pattern : list nat)
    (repetitions : nat) : result (list (list wire_requirement)) :=
  match isolation_sides_used i0 with
  | (i, Ok used) =>
    match calculate_withstand_voltage i with
    | Ok v =>
      let windings := S (i_ratios i) in
      match i_insulation i with
      | None => (i, Ok [repeat functional_requirement windings])
      | Some q =>
          let fiw := can_fully_insulated_wire_be_used q in
          let sides := match i_sides i with Some l => l | None => [] end in
          let ty := raised_type allow_margin (q_type q) in
          let bare := if allow_margin then [repeat functional_requirement windings] else [] in
          let finish (l : list (list wire_requirement)) :=
            if allow_margin then Ok l else without_margin l pattern repetitions in
          match ty with
          | FUNCTIONAL => (i, finish bare)
          | REINFORCED =>
              (i, finish (bare ++ per_side used sides (reinforced_requirement v fiw)))
          | DOUBLE =>
              match calculate_withstand_voltage (set_type i BASIC) with
              | Ok vb =>
                  (set_type i DOUBLE,
                   finish (bare ++ per_side used sides (reinforced_requirement v fiw)
                                ++ basic_combinations DOUBLE used sides vb fiw))
              | Throw w => (set_type i BASIC, Throw w)
              | UB w => (set_type i BASIC, UB w)
              | OutOfFuel => (set_type i BASIC, OutOfFuel)
              end
          | _ => (i, finish (bare ++ basic_combinations ty used sides v fiw))
          end
      end
    | Throw w => (i, Throw w)
    | UB w => (i, UB w)
    | OutOfFuel => (i, OutOfFuel)
    end
  | (i, Throw w) => (i, Throw w)
  | (i, UB w) => (i, UB w)
  | (i, OutOfFuel) => (i, OutOfFuel)
  end.
End Coordinator.
