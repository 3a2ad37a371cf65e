(** Distribution of the turns of a winding over sections and layers
    (src/constructive_models/Coil.cpp).  Proportions are exact rationals. *)
From Coq Require Import ZArith QArith Qround List String Bool.
From Verif Require Import Base.
Import ListNotations.
Open Scope Q_scope.
Open Scope string_scope.

(** MAS::WindingStyle. *)
Inductive winding_style := WIND_BY_CONSECUTIVE_TURNS | WIND_BY_CONSECUTIVE_PARALLELS.

(** [round(remainingParallelsProportion[p] * numberTurns)]
    (Coil.cpp:6038, 6056, 6081). *)
Definition whole_turns (N : Z) (proportion : Q) : Z := qround (proportion * inject_Z N).

Definition zsum (l : list Z) : Z := fold_left Z.add l 0%Z.

(** Coil.cpp:6047-6053: the first parallel that still has something left, 0 when
    there is none; here, the number of leading parallels to skip. *)
Fixpoint leading_empty (rem : list Q) : nat :=
  match rem with
  | [] => O
  | r :: t => if Qlt_bool 0 r then O else S (leading_empty t)
  end.
Definition first_active (rem : list Q) : nat :=
  let n := leading_empty rem in if Nat.eqb n (List.length rem) then O else n.

(** Coil.cpp:6055-6067: the [while] loop that fills one parallel after another,
    from [currentParallel] on.  Running past the last parallel reads out of
    range. *)
Fixpoint fill_consecutive (N : Z) (left : Z) (rem : list Q) : outcome (list Q) :=
  if (left <=? 0)%Z then Ok (map (fun _ => 0) rem)
  else match rem with
       | [] => UB "remainingParallelsProportion[currentParallel] out of range"
       | r :: t =>
           let fit := whole_turns N r in
           if (fit <=? left)%Z then
             bind (fill_consecutive N (left - fit) t)
                  (fun l => Ok (inject_Z fit / inject_Z N :: l))
           else Ok (inject_Z left / inject_Z N :: map (fun _ => 0) t)
       end.

(** Coil.cpp:6086-6095: one pass of the round robin over the parallels. Returns
    the new placement, the new total and whether anything was placed. *)
Fixpoint rr_pass (avail place : list Z) (placed target : Z) : list Z * Z * bool :=
  match avail, place with
  | a :: at_, p :: pt =>
      if (placed <? target)%Z then
        if (p <? a)%Z then
          let '(r, n, _) := rr_pass at_ pt (placed + 1)%Z target in (((p + 1)%Z :: r), n, true)
        else
          let '(r, n, b) := rr_pass at_ pt placed target in (p :: r, n, b)
      else (place, placed, false)
  | _, _ => (place, placed, false)
  end.

(** Coil.cpp:6086-6096: the [while (placed < turnsToPlace && progress)] loop. *)
Fixpoint rr_loop (fuel : nat) (avail place : list Z) (placed target : Z) : outcome (list Z * Z) :=
  match fuel with
  | O => OutOfFuel
  | S f =>
      if (placed <? target)%Z then
        let '(place', placed', progress) := rr_pass avail place placed target in
        if progress then rr_loop f avail place' placed' target else Ok (place', placed')
      else Ok (place, placed)
  end.

(** Coil.cpp:6103-6117: the default branch for one parallel: turns to add and
    proportion given. [s] is the number of remaining slots. *)
Definition even_split (s : Z) (N : Z) (rel : Q) (r : Q) : Z * Q :=
  let before := inject_Z N * r in
  let add := Qceiling (roundFloat (before / inject_Z s * rel) 10) in
  let after := before - inject_Z add in
  let add := if Qlt_bool after (inject_Z (s - 1))
             then Qceiling (roundFloat (before / inject_Z s) 10) else add in
  (add, cmin r (inject_Z add / inject_Z N)).

(** Coil.cpp:6029-6121 [get_parallels_proportions].
    Simplifications: [totalParallelsProportion] is unused by the code and left
    out; [slotIndex >= slots] (division by a zero or wrapped count) and
    [numberTurns = 0] (division by zero turned into an integer) are [UB]. The
    [numberParallels] argument is the length of the remaining list, as in every
    caller. *)
Definition get_parallels_proportions (slotIndex slots : nat) (N : Z) (rem : list Q)
  (style : winding_style) (rel : Q) (absolute : option Z) : outcome (Z * list Q) :=
  if (Nat.leb slots slotIndex || (N <=? 0)%Z)%bool then UB "division by zero"
  else
  let s := (Z.of_nat slots - Z.of_nat slotIndex)%Z in
  match style, absolute with
  | WIND_BY_CONSECUTIVE_TURNS, _ =>
      let total := zsum (map (whole_turns N) rem) in
      let phys := match absolute with
                  | Some a => a
                  | None => Z.min total (Qceiling (inject_Z total / inject_Z s * rel))
                  end in
      let skip := first_active rem in
      bind (fill_consecutive N phys (skipn skip rem)) (fun l =>
      Ok (phys, (map (fun _ => 0) (firstn skip rem) ++ l)%list))
  | WIND_BY_CONSECUTIVE_PARALLELS, Some a =>
      let avail := map (whole_turns N) rem in
      bind (rr_loop (S (Z.to_nat a)) avail (map (fun _ => 0%Z) rem) 0 a) (fun '(place, placed) =>
      Ok (placed, map (fun p => inject_Z p / inject_Z N) place))
  | WIND_BY_CONSECUTIVE_PARALLELS, None =>
      let each := map (even_split s N rel) rem in
      Ok (zsum (map fst each), map snd each)
  end.

(** The loop around it: Coil.cpp:8474-8590 (sections), 9642-9707 (layers),
    10016-10090 (toroidal layers): for every slot, take the slot's proportions
    and subtract them from what remains.  [rels] and [forced] give for every slot
    its relative proportion and its forced number of physical turns. Returns
    what each slot got and what remains. *)
Fixpoint split_slots (slotIndex slots : nat) (N : Z) (rem : list Q) (style : winding_style)
  (args : list (Q * option Z)) : outcome (list (Z * list Q) * list Q) :=
  match args with
  | [] => Ok ([], rem)
  | (rel, forced) :: rest =>
      bind (get_parallels_proportions slotIndex slots N rem style rel forced) (fun '(phys, props) =>
      let rem' := map (fun '(a, b) => a - b) (combine rem props) in
      bind (split_slots (S slotIndex) slots N rem' style rest) (fun '(out, final) =>
      Ok ((phys, props) :: out, final)))
  end.

(** Sections and rectangular layers: relative proportion 1 (the default
    argument, Coil.cpp:6032) and no forced count. *)
Definition split_evenly (slots : nat) (N : Z) (rem : list Q) (style : winding_style) :=
  split_slots 0 slots N rem style (repeat (1, None) slots).

(** A fresh winding: every parallel whole (Coil.cpp:8432-8434). *)
Definition fresh (parallels : nat) : list Q := repeat 1 parallels.

(** Coil.cpp:8669-8675: after all sections, anything left unassigned is an error. *)
Definition check_assigned (rem : list Q) : outcome unit :=
  if forallb (fun r => Qeq_bool (roundFloat r 9) 0) rem then Ok tt
  else Throw "There are unassigned parallel proportion in a section, something went wrong".

(** Coil.cpp:5120-5197 [wind_by_consecutive_turns] for one winding of the list;
    [override] is get_winding_style_override. *)
Definition choose_section_style (override : option winding_style) (N P slots : Z)
  : outcome winding_style :=
  if (slots <=? 0)%Z then Throw "Number of slots cannot be less than 1"
  else if ((N <? slots) && (1 <? P))%Z%bool then Ok WIND_BY_CONSECUTIVE_TURNS
  else match override with
  | Some s => Ok s
  | None =>
    if (N =? slots)%Z then Ok WIND_BY_CONSECUTIVE_PARALLELS
    else if (P =? slots)%Z then Ok WIND_BY_CONSECUTIVE_TURNS
    else if ((1 <? P) && (N mod slots =? 0))%Z%bool then Ok WIND_BY_CONSECUTIVE_PARALLELS
    else if ((1 <? P) && ((1 <? slots) && ((N * P) mod slots =? 0)))%Z%bool
         then Ok WIND_BY_CONSECUTIVE_PARALLELS
    else if (P mod slots =? 0)%Z then Ok WIND_BY_CONSECUTIVE_TURNS
    else if (N mod slots =? 0)%Z then Ok WIND_BY_CONSECUTIVE_PARALLELS
    else if (1 <? P)%Z then Ok WIND_BY_CONSECUTIVE_PARALLELS
    else Ok WIND_BY_CONSECUTIVE_TURNS
  end.

(** Coil.cpp:5207-5262, the scalar overload used for layers: no check for zero
    slots (the remainders are then undefined), and the physical-turns test does
    not require more than one slot. *)
Definition choose_layer_style (override : option winding_style) (N P slots : Z)
  : outcome winding_style :=
  if ((N <? slots) && (1 <? P))%Z%bool then Ok WIND_BY_CONSECUTIVE_TURNS
  else match override with
  | Some s => Ok s
  | None =>
    if (N =? slots)%Z then Ok WIND_BY_CONSECUTIVE_PARALLELS
    else if (P =? slots)%Z then Ok WIND_BY_CONSECUTIVE_TURNS
    else if (slots =? 0)%Z then UB "remainder by zero"
    else if ((1 <? P) && (N mod slots =? 0))%Z%bool then Ok WIND_BY_CONSECUTIVE_PARALLELS
    else if ((1 <? P) && ((N * P) mod slots =? 0))%Z%bool then Ok WIND_BY_CONSECUTIVE_PARALLELS
    else if (P mod slots =? 0)%Z then Ok WIND_BY_CONSECUTIVE_TURNS
    else if (N mod slots =? 0)%Z then Ok WIND_BY_CONSECUTIVE_PARALLELS
    else if (1 <? P)%Z then Ok WIND_BY_CONSECUTIVE_PARALLELS
    else Ok WIND_BY_CONSECUTIVE_TURNS
  end.

(** Coil.cpp:6697-6735 [get_length_proportions]: each section's length over the
    average length of the sections of its winding, plus one for the last
    section of the list. *)
Definition lengths_of (w : nat) (lengths : list (Q * nat)) : list Q :=
  map fst (filter (fun '(_, i) => Nat.eqb i w) lengths).
Definition average_of (w : nat) (lengths : list (Q * nat)) : Q :=
  let l := lengths_of w lengths in
  fold_left Qplus l 0 / inject_Z (Z.of_nat (List.length l)).
Fixpoint length_proportions_from (all : list (Q * nat)) (l : list (Q * nat)) : list Q :=
  match l with
  | [] => []
  | [(x, w)] => [1 + x / average_of w all]
  | (x, w) :: t => x / average_of w all :: length_proportions_from all t
  end.
Definition get_length_proportions (lengths : list (Q * nat)) : list Q :=
  length_proportions_from lengths lengths.

(** ** All the windings of a coil at once *)

(** Functional map update, for the per-winding vectors of the section loop. *)
Definition upd {A : Type} (f : nat -> A) (w : nat) (x : A) : nat -> A :=
  fun v => if Nat.eqb v w then x else f v.

(** What the section loop reads about one winding: number of turns, number of
    parallels, style (already chosen in plan_section_group, Coil.cpp:8392-8400) and
    number of sections. *)
Record winding_plan := { turns : Z; parallels : nat; style : winding_style; sections_of : nat }.

(** Coil.cpp:8474-8590 (rectangular) and 8821-8948 (round): the loop over the
    conduction sections in wound order.  [rem] is remainingParallelsProportion,
    [cur] is currentSectionPerWinding; a section is its winding and its relative
    proportion.  Geometry (coordinates, margins, filling factor) and insulation
    sections, which do not touch these variables, are left out. *)
Fixpoint wind_sections (coil : nat -> winding_plan) (rem : nat -> list Q) (cur : nat -> nat)
  (sections : list (nat * Q)) : outcome (list (nat * (Z * list Q)) * (nat -> list Q)) :=
  match sections with
  | [] => Ok ([], rem)
  | (w, rel) :: rest =>
      let c := coil w in
      bind (get_parallels_proportions (cur w) (sections_of c) (turns c) (rem w) (style c) rel None)
        (fun '(phys, props) =>
      let rem' := upd rem w (map (fun '(a, b) => a - b) (combine (rem w) props)) in
      bind (wind_sections coil rem' (upd cur w (S (cur w))) rest) (fun '(out, final) =>
      Ok ((w, (phys, props)) :: out, final)))
  end.

(** Coil.cpp:8669-8675 and 9029-9035: the closing check over all the windings. *)
Definition check_all_assigned (n : nat) (rem : nat -> list Q) : outcome unit :=
  if forallb (fun w => forallb (fun r => Qeq_bool (roundFloat r 9) 0) (rem w)) (seq 0 n) then Ok tt
  else Throw "There are unassigned parallel proportion in a section, something went wrong".

Definition wind_coil_sections (n : nat) (coil : nat -> winding_plan) (sections : list (nat * Q))
  : outcome (list (nat * (Z * list Q))) :=
  bind (wind_sections coil (fun w => repeat 1 (parallels (coil w))) (fun _ => O) sections)
    (fun '(out, final) =>
  bind (check_all_assigned n final) (fun _ => Ok out)).

(** Rectangular winding windows, and round ones wound CONTIGUOUS: every relative
    proportion is one (Coil.cpp:8500-8506, 8817-8819). *)
Definition wind_rectangular_sections (n : nat) (coil : nat -> winding_plan) (order : list nat) :=
  wind_coil_sections n coil (map (fun w => (w, 1)) order).

(** Coil.cpp:6747-6764 [get_section_areas], without the common factor
    pi * angle / 360, which cancels in get_length_proportions: the ring of
    thickness [space] laid inwards from the current radius. *)
Fixpoint section_areas (radius : Q) (spaces : list Q) : list Q :=
  match spaces with
  | [] => []
  | s :: t => (radius * radius - (radius - s) * (radius - s)) :: section_areas (radius - s) t
  end.

(** Round winding windows wound OVERLAPPING: Coil.cpp:8812-8816. *)
Definition wind_round_overlapping_sections (n : nat) (coil : nat -> winding_plan)
  (radius : Q) (order : list (nat * Q)) :=
  let areas := section_areas radius (map snd order) in
  wind_coil_sections n coil
    (combine (map fst order) (get_length_proportions (combine areas (map fst order)))).
