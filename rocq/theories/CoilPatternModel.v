(** Section patterns, insulation between sections, and windings wound together
    (src/constructive_models/Coil.cpp). *)
From Coq Require Import ZArith QArith Qround List String Bool Arith.
From Verif Require Import Base.
Import ListNotations.
Open Scope Q_scope.
Open Scope string_scope.
Open Scope list_scope.

(** ** Ordered sections *)

(** Coil.cpp:6545-6550: numberSectionsPerWinding. *)
Definition number_sections (pattern : list nat) (repetitions : nat) (w : nat) : nat :=
  (count_occ Nat.eq_dec pattern w * repetitions)%nat.

(** Coil.cpp:6553-6560: one section of the inner loop; reading a share that does
    not exist is out of range. *)
Definition ordered_section (space : Q) (shares : list Q) (pattern : list nat) (repetitions : nat) (w : nat)
  : outcome (nat * Q) :=
  match nth_error shares w with
  | None => UB "proportionPerWinding[windingIndex] out of range"
  | Some share =>
      if Qlt_bool 1 (roundFloat share 6) then Throw "proportionPerWinding[windingIndex] cannot be greater than 1"
      else Ok (w, roundFloat (space * share / inject_Z (Z.of_nat (number_sections pattern repetitions w))) 9)
  end.

Fixpoint map_outcome {A B : Type} (f : A -> outcome B) (l : list A) : outcome (list B) :=
  match l with
  | [] => Ok []
  | a :: t => bind (f a) (fun b => bind (map_outcome f t) (fun bs => Ok (b :: bs)))
  end.

(** Coil.cpp:6541-6563 [get_ordered_sections]. *)
Definition get_ordered_sections (windings : nat) (space : Q) (shares : list Q) (pattern : list nat)
  (repetitions : nat) : outcome (list (nat * Q)) :=
  if existsb (fun w => Nat.leb windings w) pattern then Throw "Winding index does not exist in winding"
  else map_outcome (ordered_section space shares pattern repetitions)
         (List.concat (repeat pattern repetitions)).

(** ** Insulation between sections *)

Inductive electrical_type := CONDUCTION | INSULATION.

(** Coil.cpp:6565-6590: half of each insulation section is taken from the
    section on its left and half from the one on its right.  [insulation] is
    _insulationSections with the dimension that counts for the orientation
    ([0] overlapping, [1] contiguous). *)
Fixpoint carve (insulation : nat -> nat -> option Q) (lft : nat * Q) (rest : list (nat * Q)) : list (nat * Q) :=
  match rest with
  | [] => [lft]
  | rgt :: t =>
      match insulation (fst lft) (fst rgt) with
      | None => lft :: carve insulation rgt t
      | Some d => (fst lft, snd lft - d / 2) :: carve insulation (fst rgt, snd rgt - d / 2) t
      end
  end.

(** A section of the result: an insulation section belongs to no winding
    (SIZE_MAX in the code). *)
Definition section_entry : Type := (electrical_type * (option nat * Q))%type.

(** Coil.cpp:6592-6612. *)
Fixpoint interpose (insulation : nat -> nat -> option Q) (lft : nat) (rest : list (nat * Q)) : list section_entry :=
  match rest with
  | [] => []
  | rgt :: t =>
      match insulation lft (fst rgt) with
      | Some d => (INSULATION, (None, d)) :: (CONDUCTION, (Some (fst rgt), snd rgt)) :: interpose insulation (fst rgt) t
      | None => (CONDUCTION, (Some (fst rgt), snd rgt)) :: interpose insulation (fst rgt) t
      end
  end.

(** Coil.cpp:6565-6639 [add_insulation_to_sections]; [wrap] is the condition of
    line 6619 (not contiguous, or not a rectangular window). *)
Definition add_insulation_to_sections (insulation : nat -> nat -> option Q) (wrap : bool)
  (sections : list (nat * Q)) : outcome (list section_entry) :=
  match sections with
  | [] => UB "orderedSections[0] of an empty vector"
  | first :: rest =>
      match carve insulation first rest with
      | [] => UB "unreachable"
      | f :: r =>
          Ok ((CONDUCTION, (Some (fst f), snd f)) :: interpose insulation (fst f) r ++
              (if wrap then
                 match insulation (fst (last sections first)) (fst first) with
                 | Some d => [(INSULATION, (None, d))]
                 | None => []
                 end
               else []))
      end
  end.

(** ** Shares of the window *)

(** Coil.cpp:6641-6657 [get_proportion_per_winding_based_on_wires]; for every
    winding its wire's width and height, its turns and its parallels. *)
Definition winding_area (w : Q * Q * Z * Z) : Q :=
  let '(width, height, n, p) := w in width * height * inject_Z n * inject_Z p.
Definition get_proportion_per_winding (windings : list (Q * Q * Z * Z)) : list Q :=
  let areas := map winding_area windings in
  let total := fold_left Qplus areas 0 in
  map (fun a => a / total) areas.

(** ** Compression and integrity of patterns *)

(** Coil.cpp:8202-8213 [compress_pattern]; [back] is newPattern.back(). *)
Fixpoint compress_from (back : nat) (pattern : list nat) : list nat :=
  match pattern with
  | [] => []
  | w :: t => if Nat.eqb back w then compress_from back t else w :: compress_from w t
  end.
Definition compress_pattern (pattern : list nat) : list nat :=
  match pattern with
  | [] => []
  | w :: t => w :: compress_from w t
  end.

(** Coil.cpp:13994-14020 [check_pattern_and_repetitions_integrity]; [phys] are the
    physical turns (turns times parallels) of every winding. *)
Definition check_pattern_and_repetitions_integrity (phys : list nat) (pattern : list nat) (repetitions : nat)
  : outcome (list nat * nat) :=
  if existsb (fun n => Nat.ltb n repetitions) phys then
    if forallb (fun w => Nat.ltb w (List.length phys)) pattern || Nat.eqb repetitions 0 then
      Ok (flat_map (fun repetition => filter (fun w => Nat.leb repetition (nth w phys O)) pattern)
            (seq 1 repetitions), 1%nat)
    else UB "get_functional_description()[windingIndex] out of range"
  else Ok (pattern, repetitions).

(** ** Windings wound together *)

(** The parts of MAS::Winding that matter here. The wire is a code, equal codes
    meaning equal wires. *)
Record winding := {
  name : string;
  number_turns : nat;
  number_parallels : nat;
  isolation_side : nat;
  wire : nat;
  wound_with : list string (* empty when absent *)
}.

(** Coil.cpp:5620-5627 [get_winding_index_by_name] (the memo in front of it,
    5610-5618, is emptied by create_virtualization_map and only repeats
    answers). *)
Fixpoint index_by_name_from (i : nat) (coil : list winding) (n : string) : outcome nat :=
  match coil with
  | [] => Throw "No such a winding name in functionalDescription"
  | w :: t => if String.eqb (name w) n then Ok i else index_by_name_from (S i) t n
  end.
Definition get_winding_index_by_name (coil : list winding) (n : string) : outcome nat :=
  index_by_name_from 0 coil n.

(** Coil.cpp:8158-8167 [get_winding_group_minimum_index]. *)
Fixpoint minimum_index (coil : list winding) (current : nat) (names : list string) : outcome nat :=
  match names with
  | [] => Ok current
  | n :: t => bind (get_winding_index_by_name coil n) (fun i => minimum_index coil (Nat.min i current) t)
  end.
Definition get_winding_group_minimum_index (coil : list winding) (w : nat) : outcome nat :=
  match nth_error coil w with
  | None => UB "get_functional_description()[currentWindingIndex] out of range"
  | Some x => minimum_index coil w (wound_with x)
  end.

(** Coil.cpp:8131-8149: the virtual index of every winding, in order. [inv] is
    inversedVirtualizationMap, whose keys are 0 .. length inv - 1. *)
Fixpoint assign_virtual (coil : list winding) (inv : list nat) (next : nat) (todo : nat) : outcome (list nat) :=
  match todo with
  | O => Ok inv
  | S k =>
      bind (get_winding_group_minimum_index coil (List.length inv)) (fun m =>
      match nth_error inv m with
      | Some v => assign_virtual coil (inv ++ [v]) next k
      | None => assign_virtual coil (inv ++ [next]) (S next) k
      end)
  end.
Definition virtual_indexes (coil : list winding) : outcome (list nat) :=
  assign_virtual coil [] O (List.length coil).

(** Coil.cpp:8150-8155: the members of every virtual winding, windings in
    increasing order. *)
Definition members (inv : list nat) (v : nat) : list nat :=
  filter (fun w => Nat.eqb (nth w inv O) v) (seq 0 (List.length inv)).
Definition virtualization_map (inv : list nat) : list (list nat) :=
  map (members inv) (seq 0 (fold_right Nat.max O (map S inv))).

(** Coil.cpp:8131-8156 [create_virtualization_map]. *)
Definition create_virtualization_map (coil : list winding) : outcome (list (list nat)) :=
  bind (virtual_indexes coil) (fun inv => Ok (virtualization_map inv)).

(** Coil.cpp:7772-7802, one virtual winding: turns add up; parallels, isolation
    side and wire must agree. Connections and the virtual name are left out. The
    code starts with numberParallels = 0 standing for "not yet set". *)
Fixpoint merge_windings (acc : nat * nat * option nat * option nat) (ws : list winding)
  : outcome (nat * nat * option nat * option nat) :=
  match ws with
  | [] => Ok acc
  | w :: t =>
      let '(n, p, side, wr) := acc in
      if (negb (Nat.eqb p 0) && negb (Nat.eqb p (number_parallels w)))%bool
      then Throw "Windings wound together must have the same number of parallels"
      else if match side with Some s => negb (Nat.eqb s (isolation_side w)) | None => false end
      then Throw "Windings wound together must have the same isolation side"
      else if match wr with Some x => negb (Nat.eqb x (wire w)) | None => false end
      then Throw "Windings wound together must have the same wire"
      else
        merge_windings
          ((n + number_turns w)%nat,
           (if Nat.eqb p 0 then number_parallels w else p),
           (match side with Some s => Some s | None => Some (isolation_side w) end),
           (match wr with Some x => Some x | None => Some (wire w) end)) t
  end.
Definition dummy_winding : winding :=
  {| name := ""; number_turns := 0; number_parallels := 0; isolation_side := 0; wire := 0; wound_with := [] |}.
Definition virtual_winding (coil : list winding) (ms : list nat) : outcome (nat * nat) :=
  bind (merge_windings (0%nat, 0%nat, None, None) (map (fun i => nth i coil dummy_winding) ms))
    (fun '(n, p, _, _) => Ok (n, p)).
Definition virtualize_functional_description (coil : list winding) (vmap : list (list nat))
  : outcome (list (nat * nat)) := map_outcome (virtual_winding coil) vmap.

(** Coil.cpp:8170-8200: the virtual index of every entry, then compression.
    [wound_with] absent or empty: the winding itself is searched (an empty list
    gives the same minimum). The last group containing the index wins; groups
    are disjoint. *)
Definition virtualize_pattern (coil : list winding) (inv : list nat) (pattern : list nat) : outcome (list nat) :=
  bind (map_outcome (fun w =>
          bind (get_winding_group_minimum_index coil w) (fun m =>
          match nth_error inv m with
          | Some v => Ok v
          | None => Throw "Something wrong happened looking for virtual indexes"
          end)) pattern)
    (fun l => Ok (compress_pattern l)).

(** Coil.cpp:8215-8229 [virtualize_proportion_per_winding]. *)
Definition virtualize_proportions (vmap : list (list nat)) (shares : list Q) : list Q :=
  map (fun ms => fold_left Qplus (map (fun w => nth w shares 0) ms) 0) vmap.

(** *** Handing the turns of a virtual winding back to its members *)

(** Coil.cpp:8013-8046: physical turns of each member, and the dealing pattern,
    in which each member appears round(its turns / fewest turns) times. *)
Definition physical (w : winding) : nat := (number_turns w * number_parallels w)%nat.
Definition fewest (l : list nat) : nat := fold_right Nat.min (hd O l) l.
Definition dealing_pattern (phys : list nat) : list nat :=
  flat_map (fun '(i, n) =>
    repeat i (Z.to_nat (qround (inject_Z (Z.of_nat n) / inject_Z (Z.of_nat (fewest phys))))))
    (combine (seq 0 (List.length phys)) phys).

(** Coil.cpp:8050-8081: search, from [index] on and around, the next pattern
    entry whose member still has turns to take; [timeout] entries are tried. *)
Fixpoint next_member (timeout : nat) (pattern : list nat) (index : nat) (remaining : list nat) : option nat :=
  match timeout with
  | O => None
  | S k =>
      if Nat.ltb 0 (nth (nth index pattern O) remaining O) then Some index
      else next_member k pattern (Nat.modulo (S index) (List.length pattern)) remaining
  end.

Fixpoint decrement (l : list nat) (i : nat) : list nat :=
  match l, i with
  | [], _ => []
  | x :: t, O => pred x :: t
  | x :: t, S j => x :: decrement t j
  end.
Fixpoint increment (l : list nat) (i : nat) : list nat :=
  match l, i with
  | [], _ => []
  | x :: t, O => S x :: t
  | x :: t, S j => x :: increment t j
  end.

(** Coil.cpp:8049-8084: every turn of the virtual winding in order gets a member
    (an index into the group) and a parallel of it. [ns] and [ps] are the turns
    and parallels of the members. *)
Fixpoint deal {T : Type} (ns ps : list nat) (pattern : list nat) (index : nat)
  (remaining assigned : list nat) (turns : list T) : outcome (list (T * nat * nat)) :=
  match turns with
  | [] => Ok []
  | t :: rest =>
      match next_member (S (List.length pattern)) pattern index remaining with
      | None => Throw "Something wrong happened devirtualizing turns 3"
      | Some j =>
          let m := nth j pattern O in
          let parallel := Nat.div (nth m assigned O) (nth m ns O) in
          let parallel := if Nat.leb (nth m ps O) parallel then (nth m ps O - 1)%nat else parallel in
          bind (deal ns ps pattern (Nat.modulo (S j) (List.length pattern))
                  (decrement remaining m) (increment assigned m) rest)
            (fun l => Ok ((t, m, parallel) :: l))
      end
  end.

(** Coil.cpp:8007-8088, one virtual winding. A member without turns divides by
    zero. *)
Definition devirtualize_turns {T : Type} (group : list winding) (turns : list T)
  : outcome (list (T * nat * nat)) :=
  let phys := map physical group in
  if negb (Nat.eqb (fold_right Nat.add O phys) (List.length turns))
  then Throw "Something wrong happened devirtualizing turns 1"
  else if (existsb (Nat.eqb O) phys)%bool then UB "division by zero"
  else deal (map number_turns group) (map number_parallels group) (dealing_pattern phys) O
         phys (map (fun _ => O) group) turns.

(** ** Proposed patterns *)

(** Inputs.cpp:3441-3449: the isolation sides in order of first use. *)
Fixpoint sides_used_from (seen : list nat) (sides : list nat) : list nat :=
  match sides with
  | [] => seen
  | s :: t => if existsb (Nat.eqb s) seen then sides_used_from seen t else sides_used_from (seen ++ [s]) t
  end.
Definition sides_used (sides : list nat) : list nat := sides_used_from [] sides.

(** std::next_permutation on distinct elements, on the reversed list: [step]
    walks from the right end. [suffix] is the part already passed, whose
    elements, read from left to right, are descending; [rrest] is what is left of
    it, nearest first. When the next element is smaller than its right neighbour
    it is the pivot: it is exchanged with the last element of the suffix greater
    than it, and the suffix is reversed. *)
Fixpoint swap_with_last_greater (pivot : nat) (descending : list nat) : list nat * nat :=
  match descending with
  | [] => ([], pivot)
  | x :: t =>
      if Nat.ltb pivot x then
        match t with
        | y :: _ => if Nat.ltb pivot y
                    then let '(t', chosen) := swap_with_last_greater pivot t in (x :: t', chosen)
                    else (pivot :: t, x)
        | [] => (pivot :: t, x)
        end
      else (descending, pivot)
  end.
Fixpoint next_permutation_from (rrest suffix : list nat) : list nat :=
  match rrest with
  | [] => rev suffix (* was the last permutation: back to the first *)
  | p :: r =>
      match suffix with
      | x :: _ =>
          if Nat.ltb p x then
            let '(s', chosen) := swap_with_last_greater p suffix in
            rev r ++ chosen :: rev s'
          else next_permutation_from r (p :: suffix)
      | [] => next_permutation_from r [p]
      end
  end.
Definition next_permutation (l : list nat) : list nat := next_permutation_from (rev l) [].

(** Coil.cpp:37-43 [factorial]: exact as long as it fits 64 bits, which the
    number of isolation sides (at most twelve) guarantees. *)
Definition pattern_bound (sides : nat) : nat := Nat.max 1 (Nat.div (fact sides) 2).

(** Coil.cpp:13808-13816: the windings side after side. *)
Definition side_pattern (windings : nat) (requirement : list nat) (sides : list nat) : list nat :=
  flat_map (fun side => filter (fun w => Nat.eqb (nth w requirement O) side) (seq 0 windings)) sides.

(** Defaults.h:60 *)
Definition maximum_coil_pattern : nat := 6.

(** Coil.cpp:13807-13823: one pattern per permutation of the sides; stops after
    [bound] patterns or once there are maximumCoilPattern. *)
Fixpoint side_patterns (bound : nat) (windings : nat) (requirement : list nat) (sides : list nat) (have : nat)
  : list (list nat) :=
  match bound with
  | O => []
  | S k =>
      side_pattern windings requirement sides ::
      (if Nat.leb maximum_coil_pattern (S have) then []
       else side_patterns k windings requirement (next_permutation sides) (S have))
  end.

(** "Add if it's a new pattern" (13862-13871, 13884-13893, 13923-13932). *)
Definition pattern_eqb (a b : list nat) : bool := if list_eq_dec Nat.eq_dec a b then true else false.
Definition add_if_new (patterns : list (list nat)) (p : list nat) : list (list nat) :=
  if existsb (pattern_eqb p) patterns then patterns else patterns ++ [p].

(** Coil.cpp:13827-13834: windings on another side than winding 0. *)
Definition secondary_windings (windings : nat) (requirement : list nat) : list nat :=
  filter (fun w => negb (Nat.eqb (nth w requirement O) (nth 0 requirement O))) (seq 1 (windings - 1)).

(** Coil.cpp:13853-13860: replace the secondaries of the pattern, in order, by
    the given ones. *)
Fixpoint replace_secondaries (is_secondary : nat -> bool) (pattern replacement : list nat) : list nat :=
  match pattern with
  | [] => []
  | w :: t =>
      if is_secondary w then
        match replacement with
        | r :: rs => r :: replace_secondaries is_secondary t rs
        | [] => w :: replace_secondaries is_secondary t [] (* secIdx never passes the end *)
        end
      else w :: replace_secondaries is_secondary t replacement
  end.

(** Coil.cpp:13825-13896: extra orderings for three windings or more. *)
Definition secondary_orderings (windings : nat) (requirement : list nat) (patterns : list (list nat))
  : list (list nat) :=
  if (Nat.leb 3 windings && Nat.ltb (List.length patterns) maximum_coil_pattern)%bool then
    let secondaries := secondary_windings windings requirement in
    let is_secondary := fun w => existsb (Nat.eqb w) secondaries in
    let patterns1 :=
      if (Nat.leb 2 (List.length secondaries) && Nat.ltb (List.length patterns) maximum_coil_pattern)%bool then
        let base := hd [] patterns in
        let inPattern := filter is_secondary base in
        if Nat.leb 2 (List.length inPattern)
        then add_if_new patterns (replace_secondaries is_secondary base (rev inPattern))
        else patterns
      else patterns in
    if (Nat.eqb windings 3 && Nat.eqb (List.length secondaries) 2 &&
        Nat.ltb (List.length patterns1) maximum_coil_pattern)%bool then
      add_if_new patterns1 [nth 0 secondaries O; O; nth 1 secondaries O]
    else patterns1
  else patterns.

(** Coil.cpp:13898-13902: toroids drop the last combinations. The count is
    computed in size_t, so asking for more than there are moves the iterator
    beyond the end. *)
Definition toroidal_cut (sides : nat) (patterns : list (list nat)) : outcome (list (list nat)) :=
  let keep := Nat.max 1 (sides - 1) in
  if Nat.ltb (List.length patterns) keep then UB "sectionPatterns.end() - (size() - elementsToKeep) beyond the end"
  else Ok (firstn keep patterns).

(** Coil.cpp:13917-13934: reversals appended under real winding geometry; [todo]
    are the base patterns still to look at. *)
Fixpoint add_reversals (todo patterns : list (list nat)) : list (list nat) :=
  match todo with
  | [] => patterns
  | p :: t =>
      if Nat.ltb (List.length patterns) maximum_coil_pattern
      then add_reversals t (add_if_new patterns (rev p))
      else patterns
  end.

(** Coil.cpp:13790-13938 [get_patterns]. [requirement] is the isolation side of
    every winding (get_isolation_sides_used, Inputs.cpp:3417-3439, has already
    extended it to at least one per winding). *)
Definition get_patterns (windings : nat) (requirement : list nat) (toroidal realWinding : bool)
  : outcome (list (list nat)) :=
  let sides := sides_used requirement in
  let patterns := side_patterns (pattern_bound (List.length sides)) windings requirement sides 0 in
  let patterns := secondary_orderings windings requirement patterns in
  bind (if toroidal then toroidal_cut (List.length sides) patterns else Ok patterns) (fun patterns =>
  Ok (if realWinding then add_reversals patterns patterns else patterns)).
