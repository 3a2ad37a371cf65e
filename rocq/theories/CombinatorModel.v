(** Model of src/advisers/MagneticCombinator.cpp: series and parallel combinations
    of the windings of a catalogue magnetic, and back. *)
From Coq Require Import ZArith QArith List String Ascii Bool Arith DecimalString.
From Verif Require Import Base StrMap TextModel UtilsNumModel.
Import ListNotations.
Open Scope outcome_scope.
Open Scope nat_scope.
Open Scope string_scope.

(** MAS::IsolationSide; the sides after the fourth are numbered. *)
Inductive side := PRIMARY | SECONDARY | TERTIARY | QUATERNARY | FURTHER (n : nat).
Definition side_eqb (a b : side) : bool :=
  match a, b with
  | PRIMARY, PRIMARY | SECONDARY, SECONDARY | TERTIARY, TERTIARY | QUATERNARY, QUATERNARY => true
  | FURTHER m, FURTHER n => Nat.eqb m n
  | _, _ => false
  end.

(** MAS::ConnectionElement: only direction and pin name are looked at. *)
Inductive direction := INPUT | OUTPUT.
Definition direction_eqb (a b : direction) : bool :=
  match a, b with INPUT, INPUT | OUTPUT, OUTPUT => true | _, _ => false end.
Record connection := mkConnection { c_direction : option direction; c_pin : option string }.

(** MAS::Winding: the fields the combinator reads.  Numbers of turns and parallels
    are unbounded here and [size_t] in the code. *)
Record winding := mkWinding {
  w_name : string; w_connections : option (list connection);
  w_turns : nat; w_parallels : nat; w_side : side }.

(** src/advisers/MagneticCombinator.h:34-74 [WindingCombination]. *)
Inductive combination : Type :=
  Combination (name : string) (connections : option (list connection)) (turns parallels : nat)
    (indexes : list nat) (is_parallel : bool) (isolation : side) (parts : list combination).
Definition cb_name c := let '(Combination n _ _ _ _ _ _ _) := c in n.
Definition cb_connections c := let '(Combination _ n _ _ _ _ _ _) := c in n.
Definition cb_turns c := let '(Combination _ _ n _ _ _ _ _) := c in n.
Definition cb_parallels c := let '(Combination _ _ _ n _ _ _ _) := c in n.
Definition cb_indexes c := let '(Combination _ _ _ _ n _ _ _) := c in n.
Definition cb_is_parallel c := let '(Combination _ _ _ _ _ n _ _) := c in n.
Definition cb_side c := let '(Combination _ _ _ _ _ _ n _) := c in n.
Definition cb_parts c := let '(Combination _ _ _ _ _ _ _ n) := c in n.

(** MagneticCombinator.cpp:17-27 [repeated_windings]. *)
Definition repeated_windings (l r : list nat) : bool :=
  existsb (fun i => existsb (Nat.eqb i) r) l.

(** [std::to_string] of a [size_t]. *)
Definition to_string (n : nat) : string := NilEmpty.string_of_uint (Nat.to_uint n).

(** MagneticCombinator.cpp:29-37 [vector_to_string].  [pop_back] on an empty
    string is undefined. *)
Definition remove_last_char (s : string) : string := take (String.length s - 1) s.
Definition vector_to_string (l : list nat) : outcome string :=
  match l with
  | [] => UB "pop_back on an empty string"
  | _ => Ok (remove_last_char (fold_left (fun s e => (s ++ to_string e) ++ ",") l ""))
  end.

(** The pairs of a list with the places of its elements. *)
Definition numbered {A} (l : list A) : list (nat * A) := combine (seq 0 (List.length l)) l.

(** MagneticCombinator.cpp:53-65: what one connection of winding [k] is tapped to. *)
Definition tapped (k : nat) (all : list combination) (c : connection) : list string :=
  match c_direction c, c_pin c with
  | Some d, Some p =>
      flat_map (fun ix =>
        if Nat.eqb (fst ix) k then [] else
        match cb_connections (snd ix) with
        | None => []
        | Some cs =>
            flat_map (fun c' =>
              match c_direction c', c_pin c' with
              | Some d', Some p' =>
                  if negb (direction_eqb d' d) && String.eqb p p' then [cb_name (snd ix)] else []
              | _, _ => []
              end) cs
        end) (numbered all)
  | _, _ => []
  end.

(** MagneticCombinator.cpp:39-71 [get_compulsory_series_connections]. *)
Definition get_compulsory_series_connections (k : nat) (first : combination) (all : list combination) : list string :=
  match cb_connections first with
  | None => []
  | Some cs => flat_map (tapped k all) cs
  end.

(** MagneticCombinator.cpp:370-378 and 405-413. *)
Definition joined_connections (a b : combination) : option (list connection) :=
  match cb_connections a, cb_connections b with
  | Some x, Some y => Some (x ++ y)%list
  | _, _ => None
  end.

(** MagneticCombinator.cpp:361-386: the two in series. *)
Definition in_series (a b : combination) : combination :=
  Combination (cb_name a ++ "-" ++ cb_name b) (joined_connections a b)
    (cb_turns a + cb_turns b) (Nat.max (cb_parallels a) (cb_parallels b))
    (cb_indexes a ++ cb_indexes b)%list false (cb_side a) [a; b].

(** MagneticCombinator.cpp:398-422: the two in parallel. *)
Definition in_parallel (a b : combination) : combination :=
  Combination (cb_name a ++ "-" ++ cb_name b) (joined_connections a b)
    (cb_turns a) (cb_parallels a + cb_parallels b)
    (cb_indexes a ++ cb_indexes b)%list true (cb_side a) [a; b].

(** MagneticCombinator.cpp:338-423: what is made of two combinations.  The second
    operand of the test for parallels is looked at twice, the first never, as in
    line 395. *)
Definition pairing (all : list combination) (maximumWindings : nat)
    (first : nat * combination) (b : combination) : list combination :=
  let a := snd first in
  if repeated_windings (cb_indexes a) (cb_indexes b) then [] else
  if negb (side_eqb (cb_side a) (cb_side b)) then [] else
  if side_eqb (cb_side a) TERTIARY || side_eqb (cb_side b) TERTIARY then [] else
  if side_eqb (cb_side a) QUATERNARY || side_eqb (cb_side b) QUATERNARY then [] else
  let compulsory := get_compulsory_series_connections (fst first) a all in
  if negb (Nat.eqb (List.length compulsory) 0) && negb (existsb (String.eqb (cb_name b)) compulsory) then [] else
  ((if Nat.leb (List.length (cb_indexes a) + List.length (cb_indexes b)) maximumWindings
    then [in_series a b] else [])
   ++ (if Nat.eqb (cb_turns a) (cb_turns b) && negb (cb_is_parallel b) && negb (cb_is_parallel b)
       then [in_parallel a b] else []))%list.

(** MagneticCombinator.cpp:332-428 [calculate_combinations]. *)
Definition calculate_combinations (source : list combination) (maximumWindings : nat) : list combination :=
  flat_map (fun first =>
    flat_map (pairing source maximumWindings first) (skipn (S (fst first)) source))
  (numbered source).

(** MagneticCombinator.cpp:308-319: a winding by itself. *)
Definition alone (iw : nat * winding) : combination :=
  let w := snd iw in
  Combination (w_name w) (w_connections w) (w_turns w) (w_parallels w) [fst iw] false (w_side w) [].

(** MagneticCombinator.cpp:321-327: [levels] rounds. *)
Fixpoint rounds (levels maximumWindings : nat) (combinations : list combination) : list combination :=
  match levels with
  | O => combinations
  | S l => rounds l maximumWindings (combinations ++ calculate_combinations combinations maximumWindings)%list
  end.

(** MagneticCombinator.cpp:301-330 [calculate_coil_combinations], for a number of
    desired windings that is not negative. *)
Definition maximumNumberCombinationLevels : nat := 3.
Definition calculate_coil_combinations (coil : list winding) (desired : nat) : list combination :=
  if Nat.ltb (List.length coil) desired then [] else
  rounds (Nat.min maximumNumberCombinationLevels (List.length coil - desired))
         (List.length coil - desired + 1) (map alone (numbered coil)).

(** A winding of a virtual magnetic; [v_wire] is the physical winding whose wire it
    takes (MagneticCombinator.cpp:142-149, 180-186). *)
Record vwinding := mkVWinding {
  v_name : string; v_connections : option (list connection); v_side : side;
  v_turns : nat; v_parallels : nat; v_wire : option nat }.

(** MagneticCombinator.cpp:75-106 [get_most_restrictive_wire]: the narrowest
    conductor; [dimension] is the one the switch over wire types picks. *)
Definition get_most_restrictive_wire (dimension : nat -> Q) (indexes : list nat) : option nat :=
  option_map fst
    (fold_left (fun best i =>
       match best with
       | Some (_, m) => if Qlt_bool (dimension i) m then Some (i, dimension i) else best
       | None => Some (i, dimension i)
       end) indexes (None : option (nat * Q))).

Definition virtual_winding (dimension : nat -> Q) (c : combination) : outcome vwinding :=
  name <- vector_to_string (cb_indexes c) ;;
  Ok (mkVWinding name (cb_connections c) (cb_side c) (cb_turns c) (cb_parallels c)
        (get_most_restrictive_wire dimension (cb_indexes c))).

(** [std::stoul] of a string of digits; anything else is an error (leading blanks,
    signs and trailing text, which the code would accept, do not occur in names made
    by [vector_to_string]). *)
Definition stoul (s : string) : outcome nat :=
  match s with
  | EmptyString => Throw "stoul"
  | _ => match NilEmpty.uint_of_string s with
         | Some d => Ok (Nat.of_uint d)
         | None => Throw "stoul"
         end
  end.

Fixpoint each {A B} (f : A -> outcome B) (l : list A) : outcome (list B) :=
  match l with
  | [] => Ok []
  | x :: r => y <- f x ;; ys <- each f r ;; Ok (y :: ys)
  end.

(** MagneticCombinator.cpp:108-116 [get_winding_indexes]. *)
Definition get_winding_indexes (m : list vwinding) : outcome (list nat) :=
  l <- each (fun w => pieces <- split (v_name w) "," ;; each stoul pieces) m ;;
  Ok (List.concat l).

(** Virtual magnetics under construction and the combinations they use. *)
Definition used := @smap combination.

(** MagneticCombinator.cpp:134-166: single-winding magnetics with enough inductance.
    [inductance] is what the inductance model computes for the core of the magnetic
    wound with that winding alone. *)
Fixpoint primaries (dimension : nat -> Q) (inductance : vwinding -> Q) (requirement : dwt)
    (todo : list combination) (u : used) (vs : list (list vwinding)) : outcome (used * list (list vwinding)) :=
  match todo with
  | [] => Ok (u, vs)
  | c :: rest =>
      w <- virtual_winding dimension c ;;
      valid <- check_requirement requirement (inductance w) ;;
      if valid then primaries dimension inductance requirement rest (insert (v_name w) c u) (vs ++ [[w]])%list
      else primaries dimension inductance requirement rest u vs
  end.

(** MagneticCombinator.cpp:176: the ratio of turns; a winding has at least one. *)
Definition turns_ratio (a b : nat) : Q := (inject_Z (Z.of_nat a) / inject_Z (Z.of_nat b))%Q.

(** MagneticCombinator.cpp:190-209: the same physical windings in the same order. *)
Fixpoint already (current : list nat) (temporal : list (list vwinding)) : outcome bool :=
  match temporal with
  | [] => Ok false
  | t :: rest =>
      l <- get_winding_indexes t ;;
      if list_eq_dec Nat.eq_dec l current then Ok true else already current rest
  end.

(** MagneticCombinator.cpp:173-215: [v] extended with each combination that fits. *)
Fixpoint extend (dimension : nat -> Q) (ratio : dwt) (current : list nat) (v : list vwinding)
    (todo : list combination) (u : used) (temporal : list (list vwinding)) : outcome (used * list (list vwinding)) :=
  match todo with
  | [] => Ok (u, temporal)
  | c :: rest =>
      if repeated_windings current (cb_indexes c) then extend dimension ratio current v rest u temporal else
      match v with
      | [] => UB "first winding of none"
      | w0 :: _ =>
          valid <- check_requirement ratio (turns_ratio (v_turns w0) (cb_turns c)) ;;
          if negb valid then extend dimension ratio current v rest u temporal else
          w <- virtual_winding dimension c ;;
          let v' := (v ++ [w])%list in
          newCurrent <- get_winding_indexes v' ;;
          found <- already newCurrent temporal ;;
          if found then extend dimension ratio current v rest u temporal
          else extend dimension ratio current v rest (insert (v_name w) c u) (temporal ++ [v'])%list
      end
  end.

(** MagneticCombinator.cpp:170-217. *)
Fixpoint extend_all (dimension : nat -> Q) (ratio : dwt) (combinations : list combination)
    (vs : list (list vwinding)) (u : used) (temporal : list (list vwinding)) : outcome (used * list (list vwinding)) :=
  match vs with
  | [] => Ok (u, temporal)
  | v :: rest =>
      current <- get_winding_indexes v ;;
      r <- extend dimension ratio current v combinations u temporal ;;
      extend_all dimension ratio combinations rest (fst r) (snd r)
  end.

(** MagneticCombinator.cpp:168-218. *)
Fixpoint ratios_loop (dimension : nat -> Q) (combinations : list combination) (ratios : list dwt)
    (u : used) (vs : list (list vwinding)) : outcome (used * list (list vwinding)) :=
  match ratios with
  | [] => Ok (u, vs)
  | r :: rest =>
      s <- extend_all dimension r combinations vs u [] ;;
      ratios_loop dimension combinations rest (fst s) (snd s)
  end.

(** MagneticCombinator.cpp:220-229: the references given.  [reference] is the
    manufacturer information of the magnetic, if any, and the reference in it, if
    any: reading through an absent one is undefined, [value()] of an absent
    reference throws. *)
Fixpoint label_all (reference : option (option string)) (index : nat) (vs : list (list vwinding))
  : outcome (list (string * list vwinding)) :=
  match vs with
  | [] => Ok []
  | v :: rest =>
      match reference with
      | None => UB "no manufacturer information"
      | Some None => Throw "bad optional access"
      | Some (Some r) =>
          l <- label_all reference (S index) rest ;;
          Ok ((r ++ " virtual magnetic " ++ to_string index, v) :: l)
      end
  end.

(** MagneticCombinator.cpp:118-232 [calculate_virtual_magnetics].  Processing of
    the core and its gaps is left out. *)
Definition calculate_virtual_magnetics (coil : list winding) (dimension : nat -> Q)
    (inductance : vwinding -> Q) (requirement : dwt) (ratios : list dwt)
    (reference : option (option string)) : outcome (used * list (string * list vwinding)) :=
  let combinations := calculate_coil_combinations coil (List.length ratios + 1) in
  let primary := filter (fun c => side_eqb (cb_side c) PRIMARY) combinations in
  p <- primaries dimension inductance requirement primary [] [] ;;
  r <- ratios_loop dimension combinations ratios (fst p) (snd p) ;;
  l <- label_all reference 0 (snd r) ;;
  Ok (fst r, l).

(** MAS::OperatingPointExcitation: frequency and the data of the current and voltage
    waveforms; harmonics and processed figures, which follow from them, are left out. *)
Record excitation := mkExcitation { e_frequency : Q; e_current : option (list Q); e_voltage : option (list Q) }.

(** Inputs.cpp:1052-1067 [get_excitation_with_proportional_current]. *)
Definition with_proportional_current (e : excitation) (p : Q) : outcome excitation :=
  match e_current e with
  | None => Throw "Excitation is missing current"
  | Some d => Ok (mkExcitation (e_frequency e) (Some (map (fun x => (x * p)%Q) d)) (e_voltage e))
  end.

(** Inputs.cpp:1070-1085 [get_excitation_with_proportional_voltage]. *)
Definition with_proportional_voltage (e : excitation) (p : Q) : outcome excitation :=
  match e_voltage e with
  | None => Throw "Excitation is missing voltage"
  | Some d => Ok (mkExcitation (e_frequency e) (e_current e) (Some (map (fun x => (x * p)%Q) d)))
  end.

(** MagneticCombinator.cpp:246-263: the first virtual winding that holds physical
    winding [i], with its place.  A name the map does not hold gives an empty
    combination. *)
Definition holds (data : used) (i : nat) (w : vwinding) : option combination :=
  match find (v_name w) data with
  | Some c => if existsb (Nat.eqb i) (cb_indexes c) then Some c else None
  | None => None
  end.
Fixpoint holder (data : used) (i k : nat) (v : list vwinding) : option (nat * combination) :=
  match v with
  | [] => None
  | w :: rest => match holds data i w with Some c => Some (k, c) | None => holder data i (S k) rest end
  end.

(** MagneticCombinator.cpp:244-289: the excitation of physical winding [i]; [done]
    are those of the windings before.  [idle] is the sinusoid of [create_waveform]
    for one unit at a frequency; the magnetizing current is left out. *)
Definition devirtualize_winding (data : used) (v : list vwinding) (excitations : list excitation)
    (idle : Q -> list Q) (done : list excitation) (iw : nat * winding) : outcome excitation :=
  match holder data (fst iw) 0 v with
  | Some (k, c) =>
      let proportion := turns_ratio (w_turns (snd iw)) (cb_turns c) in
      match nth_error excitations k with
      | None => UB "no excitation for that winding"
      | Some e => if cb_is_parallel c then with_proportional_voltage e proportion
                  else with_proportional_current e proportion
      end
  | None =>
      match done with
      | [] => UB "first excitation of none"
      | d :: _ => Ok (mkExcitation (e_frequency d) (Some (idle (e_frequency d))) (Some (idle (e_frequency d))))
      end
  end.
Fixpoint devirtualize_windings (data : used) (v : list vwinding) (excitations : list excitation)
    (idle : Q -> list Q) (todo : list (nat * winding)) (done : list excitation) : outcome (list excitation) :=
  match todo with
  | [] => Ok done
  | iw :: rest =>
      e <- devirtualize_winding data v excitations idle done iw ;;
      devirtualize_windings data v excitations idle rest (done ++ [e])%list
  end.

(** MagneticCombinator.cpp:234-299 [devirtualize_mas]: one list of excitations per
    operating point. *)
Definition devirtualize_mas (coil : list winding) (data : used) (v : list vwinding) (idle : Q -> list Q)
    (points : list (list excitation)) : outcome (list (list excitation)) :=
  each (fun excitations => devirtualize_windings data v excitations idle (numbered coil) []) points.
