(** Stray capacitance of a wound coil (src/physical_models/StrayCapacitance.cpp).
    Exact arithmetic; a value that is not a number is [None].  The capacitance of
    one pair of turns and of one turn to the core are inputs. *)
From Coq Require Import QArith Qabs List Bool String ZArith.
From Verif Require Import Base StrMap.
Import ListNotations.
Local Open Scope Q_scope.
Local Open Scope outcome_scope.

Record winding := { wname : string; wturns : Z }.
Record turn := { twinding : string; tparallel : nat }.

(** * Voltages *)

(** [numberTurnsPerWinding[...]], lines 545-548: the last winding of a name
    wins, a name that is not there counts zero turns. *)
Definition turn_counts (ws : list winding) : smap Z :=
  fold_left (fun m w => insert (wname w) (wturns w) m) ws [].
Definition at_or {A} (d : A) (k : string) (m : smap A) : A :=
  match find k m with Some v => v | None => d end.

(** [turnIndexPerWindingPerParallel], lines 550-555 and 586: a counter for each
    winding and parallel, zero at first. *)
Definition counters := list ((string * nat) * nat).
Definition same_strand (k k' : string * nat) : bool := String.eqb (fst k) (fst k') && Nat.eqb (snd k) (snd k').
Fixpoint counter (k : string * nat) (cs : counters) : nat :=
  match cs with
  | [] => 0%nat
  | (k', n) :: r => if same_strand k k' then n else counter k r
  end.

(** The divider at the start, at the end and at the centre of one turn, lines
    564-577. *)
Definition dividers (n : Z) (index : nat) : Q * Q * Q :=
  let i := inject_Z (Z.of_nat index) in
  if (1 <? n)%Z
  then ((inject_Z n - i) / inject_Z n, (inject_Z n - i - 1) / inject_Z n,
        (inject_Z (n - 1) - i) / inject_Z (n - 1))
  else (1, 0, 1 # 2).

(** StrayCapacitance.cpp:539-595 [calculate_voltages_per_turn]: for every turn
    the start divider, the end divider and the voltage.  [rms] holds the voltage
    of each winding; a name that is not there is zero volts.  Exact values are
    never not a number or infinite, so the two checks do nothing. *)
Fixpoint voltages_go (counts : smap Z) (rms : smap Q) (cs : counters) (ts : list turn) : list (Q * Q * Q) :=
  match ts with
  | [] => []
  | t :: r =>
      let k := (twinding t, tparallel t) in
      let n := counter k cs in
      let '(start, finish, centre) := dividers (at_or 0%Z (twinding t) counts) n in
      (start, finish, at_or 0 (twinding t) rms * centre) :: voltages_go counts rms ((k, S n) :: cs) r
  end.
Definition voltages_per_turn (ws : list winding) (rms : smap Q) (ts : list turn) : list (Q * Q * Q) :=
  voltages_go (turn_counts ws) rms [] ts.

(** StrayCapacitance.cpp:1848-1856 [calculate_capacitance] without an operating
    point: ten volts on the first winding, the others by turns ratio.  A coil
    without windings reads before the start of a vector. *)
Definition default_voltages (ws : list winding) : outcome (smap Q) :=
  match ws with
  | [] => UB "functional_description[0]"
  | p :: _ =>
      Ok (fold_left (fun m w => insert (wname w) (10 / (inject_Z (wturns p) / inject_Z (wturns w))) m) ws [])
  end.

(** * Pairs of turns *)
Definition pair_eqb (p q : nat * nat) : bool := Nat.eqb (fst p) (fst q) && Nat.eqb (snd p) (snd q).
Definition flip {A} (p : A * A) : A * A := (snd p, fst p).
Definition met (p : nat * nat) (seen : list (nat * nat)) : bool :=
  existsb (pair_eqb p) seen || existsb (pair_eqb (flip p)) seen.
Fixpoint lookup {A} (p : nat * nat) (m : list ((nat * nat) * A)) : option A :=
  match m with
  | [] => None
  | (q, a) :: r => if pair_eqb p q then Some a else lookup p r
  end.

(** StrayCapacitance.cpp:1719-1757 [calculate_capacitance_among_turns].  [near]
    lists the turns around each turn (get_surrounding_turns), [static] is the
    capacitance of two turns (calculate_static_capacitance_between_two_turns),
    which may throw.  A map is a list, the latest entry first. *)
Fixpoint among_pairs (static : nat -> nat -> outcome Q) (ps : list (nat * nat))
    (seen : list (nat * nat)) (m : list ((nat * nat) * Q)) : outcome (list ((nat * nat) * Q)) :=
  match ps with
  | [] => Ok m
  | p :: r =>
      if met p seen then among_pairs static r seen m
      else c <- static (fst p) (snd p) ;;
           among_pairs static r (p :: seen) ((flip p, c) :: (p, c) :: m)
  end.
Definition among_turns (static : nat -> nat -> outcome Q) (near : list (list nat)) : outcome (list ((nat * nat) * Q)) :=
  among_pairs static (flat_map (fun x => map (fun j => (fst x, j)) (snd x)) (combine (seq 0 (List.length near)) near)) [] [].

(** * The core as a floating node *)

(** StrayCapacitance.cpp:1692-1705: the core sits where the charge balances. *)
Definition core_potential (cv : list (Q * Q)) : Q :=
  fold_left (fun acc x => acc + fst x * snd x) cv 0 / fold_left (fun acc x => acc + fst x) cv 0.
Definition core_energy (cv : list (Q * Q)) : Q :=
  fold_left (fun acc x => acc + (1 # 2) * fst x * ((snd x - core_potential cv) * (snd x - core_potential cv))) cv 0.

(** StrayCapacitance.cpp:1654-1706 [calculate_winding_to_core_self_energy]; the
    list holds the capacitance to the core and the voltage of each turn of the
    winding. *)
Definition self_energy (cv : list (Q * Q)) : Q :=
  if Qle_bool (fold_left (fun acc x => acc + fst x) cv 0) 0 then 0 else core_energy cv.

Definition largest (l : list Q) : option Q :=
  match l with [] => None | x :: r => Some (fold_left cmax r x) end.
Definition smallest (l : list Q) : option Q :=
  match l with [] => None | x :: r => Some (fold_left cmin r x) end.

(** StrayCapacitance.cpp:1560-1652 [calculate_through_core_capacitance]; the
    list holds the turns of both windings, the potentials of the second negated.
    When no potential is below zero, or none is at least zero, the sentinel of
    the limit that was not touched makes the differential voltage negative. *)
Definition through_core (cv : list (Q * Q)) : Q :=
  if Qle_bool (fold_left (fun acc x => acc + fst x) cv 0) 0 then 0
  else
    match largest (filter (fun v => Qle_bool 0 v) (map snd cv)), smallest (filter (fun v => negb (Qle_bool 0 v)) (map snd cv)) with
    | Some hi, Some lo =>
        let d := hi - lo in
        if Qle_bool d 0 then 0 else 2 * core_energy cv / (d * d)
    | _, _ => 0
    end.

(** * Pairs of windings *)

(** What [calculate_capacitance_with_voltages] works on: the windings, the
    turns, the voltage of each turn, the capacitances among turns, and the
    capacitance of each turn to the core when a core is given. *)
Record scene := {
  windings : list winding;
  turns_ : list turn;
  volts : list Q;
  among : list ((nat * nat) * Q);
  core : option (list Q)
}.

(** Coil.cpp:5451-5461 [get_turns_indexes_by_winding]. *)
Definition indexes (sc : scene) (name : string) : list nat :=
  filter (fun i => match nth_error (turns_ sc) i with Some t => String.eqb (twinding t) name | None => false end)
         (seq 0 (List.length (turns_ sc))).
Definition volt (sc : scene) (i : nat) : Q := nth i (volts sc) 0.

(** The set of combinations of lines 1924-1952. *)
Fixpoint fresh (seen ps : list (nat * nat)) : list (nat * nat) :=
  match ps with
  | [] => []
  | p :: r => if met p seen then fresh seen r else p :: fresh (p :: seen) r
  end.
Definition counted (sc : scene) (a b : string) : list ((nat * nat) * Q) :=
  flat_map (fun p => match lookup p (among sc) with Some c => [(p, c)] | None => [] end)
           (fresh [] (list_prod (indexes sc a) (indexes sc b))).

(** Line 1939-1941: the second winding opposes the first. *)
Definition second_volt (sc : scene) (same : bool) (j : nat) : Q := if same then volt sc j else - volt sc j.
(** Line 1955. *)
Definition drop (sc : scene) (same : bool) (v3 : Q) (p : nat * nat) : Q :=
  v3 + volt sc (fst p) - second_volt sc same (snd p).
(** Lines 1956-1959, all the pairs of one pass; the pairs keep their drop and
    energy. *)
Definition pair_rows (sc : scene) (same : bool) (v3 : Q) (cs : list ((nat * nat) * Q)) : list ((nat * nat) * (Q * Q)) :=
  map (fun x => (fst x, ((1 # 2) * snd x * (drop sc same v3 (fst x) * drop sc same v3 (fst x)), drop sc same v3 (fst x)))) cs.
Definition rows_energy (rows : list ((nat * nat) * (Q * Q))) : Q := fold_left (fun acc x => acc + fst (snd x)) rows 0.

(** The turn-to-core elements of a winding, or of two with the second negated. *)
Definition core_elements (sc : scene) (cc : list Q) (a : string) : list (Q * Q) :=
  map (fun i => (nth i cc 0, volt sc i)) (indexes sc a).
Definition both_elements (sc : scene) (cc : list Q) (a b : string) : list (Q * Q) :=
  flat_map (fun i => match nth_error (turns_ sc) i with
                     | Some t => if String.eqb (twinding t) a then [(nth i cc 0, volt sc i)]
                                 else if String.eqb (twinding t) b then [(nth i cc 0, - volt sc i)] else []
                     | None => []
                     end) (seq 0 (List.length (turns_ sc))).

(** StrayCapacitance.cpp:1797-1820 [calculate_capacitance_matrix_between_windings]:
    the entries 11, 12, 13, 22, 23, 33 for a total capacitance [c0] and a turns
    ratio. *)
Definition multipole (c0 ratio : Q) : Q * Q * Q * Q * Q * Q :=
  let g1 := - c0 / 6 in let g2 := - c0 / 6 in let g3 := c0 / 3 in
  let g4 := c0 / 3 in let g5 := c0 / 6 in let g6 := c0 / 6 in
  (g1 + ratio * (g4 + g5), - (2) * g4, 2 * ratio * g5, g2 + g4 + g6, 2 * g6, g3 + g5 + g6).

(** [std::numeric_limits<double>::min()]. *)
Definition smallest_double : Q := 1 # (2 ^ 1022).
(** The test of the [while], line 1915; a comparison with a value that is not a
    number fails. *)
Definition moved (v3 : Q) (calculated : option Q) : bool :=
  match calculated with
  | None => false
  | Some c => Qlt_bool ((1 # 1000) * cmax (Qabs v3) smallest_double) (Qabs (v3 - c))
  end.

Record settled := { capacity : Q; shift : Q; rows : list ((nat * nat) * (Q * Q)) }.

(** The [while] of StrayCapacitance.cpp:1902-2026 for one pair of windings.  On
    exact values the energy is never not a number (1962-1973).  With an energy of
    zero the total capacitance is zero and line 2007 divides zero by zero; with a
    voltage drop of zero it divides infinities; both give [None].  The division
    by the number of turns of the second winding (1998) is exact, so a winding of
    zero turns is not represented. *)
Fixpoint settle (fuel : nat) (sc : scene) (a b : winding) (first : bool) (v3 : Q) (calculated : option Q)
    (last : settled) : outcome settled :=
  if first || moved v3 calculated
  then
    match fuel, calculated with
    | O, _ => OutOfFuel
    | S _, None => Ok last
    | S f, Some v3 =>
        let same := String.eqb (wname a) (wname b) in
        let cs := counted sc (wname a) (wname b) in
        let pr := pair_rows sc same v3 cs in
        let energy := rows_energy pr +
          match core sc with
          | Some cc => if same then self_energy (core_elements sc cc (wname a)) else 0
          | None => 0
          end in
        match cs with
        | [] =>
            let c := match core sc with
                     | Some cc => if same then 0 else through_core (both_elements sc cc (wname a) (wname b))
                     | None => 0
                     end in
            settle f sc a b false v3 (Some v3) {| capacity := c; shift := v3; rows := [] |}
        | _ =>
            match largest (map (volt sc) (indexes sc (wname a))), smallest (map (second_volt sc same) (indexes sc (wname b))) with
            | Some hi, Some lo =>
                let d := hi - lo + v3 in
                let ratio := inject_Z (wturns a) / inject_Z (wturns b) in
                let next :=
                  if same then Some v3
                  else if Qeq_bool energy 0 || Qeq_bool d 0 then None
                  else
                    let '(_, _, m13, _, m23, m33) := multipole (energy * 2 / (d * d)) ratio in
                    Some (Qred (Qabs (- (m13 * hi + m23 * Qabs lo) / m33))) in
                if Qeq_bool energy 0
                then settle f sc a b false v3 next {| capacity := 0; shift := v3; rows := pr |}
                else if Qeq_bool d 0 then Throw "NaNResult"
                else settle f sc a b false v3 next {| capacity := energy * 2 / (d * d); shift := v3; rows := pr |}
            | _, _ => UB "unreachable: a counted pair has a turn in both windings"
            end
        end
    end
  else Ok last.

Definition nothing : settled := {| capacity := 0; shift := 0; rows := [] |}.
(** Enough fuel for every pair, see C199. *)
Definition enough : nat := 3.

Definition name_pair_eqb (p q : string * string) : bool := String.eqb (fst p) (fst q) && String.eqb (snd p) (snd q).
Fixpoint find_pair {A} (p : string * string) (m : list ((string * string) * A)) : option A :=
  match m with
  | [] => None
  | (q, a) :: r => if name_pair_eqb p q then Some a else find_pair p r
  end.
Definition has_pair {A} (p : string * string) (m : list ((string * string) * A)) : bool :=
  match find_pair p m with Some _ => true | None => false end.

(** The two loops over windings, lines 1894-2035: a pair done in either order is
    skipped. *)
Fixpoint all_pairs (sc : scene) (ps : list (winding * winding)) (done : list ((string * string) * settled))
    : outcome (list ((string * string) * settled)) :=
  match ps with
  | [] => Ok done
  | (a, b) :: r =>
      let k := (wname a, wname b) in
      if has_pair k done || has_pair (flip k) done then all_pairs sc r done
      else s <- settle enough sc a b true 0 (Some 0) nothing ;;
           all_pairs sc r ((k, s) :: done)
  end.
Definition pairs_done (sc : scene) : outcome (list ((string * string) * settled)) :=
  all_pairs sc (list_prod (windings sc) (windings sc)) [].

(** * Outputs *)

(** StrayCapacitance.cpp:2037-2057, the capacitance among windings. *)
Definition among_windings (ws : list winding) (done : list ((string * string) * settled)) : list ((string * string) * Q) :=
  fold_left (fun m ab =>
    let k := (wname (fst ab), wname (snd ab)) in
    match find_pair k done with
    | Some s => (flip k, capacity s) :: (k, capacity s) :: m
    | None => m
    end) (list_prod ws ws) [].

(** StrayCapacitance.cpp:1835-1846 [calculate_six_capacitor_network]. *)
Definition six_network (c0 : Q) : Q * Q * Q * Q * Q * Q :=
  (- c0 / 6, - c0 / 6, c0 / 3, c0 / 3, c0 / 6, c0 / 6).

(** StrayCapacitance.cpp:2066-2088: the three capacitors of each pair, the same
    under both orders of the names. *)
Fixpoint later_pairs (ws : list winding) : list (winding * winding) :=
  match ws with [] => [] | a :: r => map (fun b => (a, b)) r ++ later_pairs r end.
Definition or_zero (o : option Q) : Q := match o with Some c => c | None => 0 end.
Definition tripoles (ws : list winding) (static : list ((string * string) * Q)) : list ((string * string) * (Q * Q * Q)) :=
  fold_left (fun m ab =>
    let i := wname (fst ab) in
    let j := wname (snd ab) in
    match find_pair (i, j) static with
    | Some c =>
        let tri := (or_zero (find_pair (i, i) static), or_zero (find_pair (j, j) static), c) in
        ((j, i), tri) :: ((i, j), tri) :: m
    | None => m
    end) (later_pairs ws) [].

(** StrayCapacitance.cpp:2090-2131, one entry of the three tables over turns;
    the tables are keyed by index here, by the names of the turns in the code. *)
Definition all_rows (done : list ((string * string) * settled)) : list ((nat * nat) * (Q * Q)) :=
  flat_map (fun x => rows (snd x)) done.
Definition energy_out (rs : list ((nat * nat) * (Q * Q))) (p : nat * nat) : Q :=
  match lookup p rs with
  | Some r => fst r
  | None => match lookup (flip p) rs with Some r => fst r | None => 0 end
  end.
Definition drop_out (rs : list ((nat * nat) * (Q * Q))) (p : nat * nat) : Q :=
  match lookup p rs with
  | Some r => snd r
  | None => match lookup (flip p) rs with Some r => - snd r | None => 0 end
  end.
Definition capacitance_out (m : list ((nat * nat) * Q)) (p : nat * nat) : Q :=
  match lookup p m with
  | Some c => c
  | None => match lookup (flip p) m with Some c => c | None => 0 end
  end.

(** StrayCapacitance.cpp:2142-2172 [calculate_maxwell_capacitance_matrix].  The
    exception for a winding without a row is the one that "should not happen":
    every winding has a row (2038-2042), possibly an empty one. *)
Definition maxwell_row (static : list ((string * string) * Q)) (ws : list winding) (a : winding)
    (m : list ((string * string) * Q)) : list ((string * string) * Q) :=
  let '(sum, m) :=
    fold_left (fun st b =>
      match find_pair (wname a, wname b) static with
      | Some c =>
          (fst st + c,
           if String.eqb (wname a) (wname b) then snd st
           else ((wname b, wname a), - c) :: ((wname a, wname b), - c) :: snd st)
      | None => st
      end) ws (0, m) in
  ((wname a, wname a), sum) :: m.
Definition maxwell (ws : list winding) (static : list ((string * string) * Q)) : list ((string * string) * Q) :=
  fold_left (fun m a => maxwell_row static ws a m) ws [].
