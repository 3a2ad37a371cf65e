(** Model of src/advisers/WireAdviser.cpp: which wires of the catalogue are advised for a
    winding, with how many parallels and in what order.

    Simplified throughout: doubles are exact; a figure that is NaN or infinite is [None].
    What the physics says of a wire (resistance, skin losses, parallels needed, sizes,
    insulation) is any function of the wire ([physics]). *)
From Coq Require Import QArith Qround List Bool String ZArith.
From Verif Require Import Base UtilsNumModel GateModel.
Import ListNotations.
Local Open Scope Q_scope.
Local Open Scope outcome_scope.

(** A wire: its type, its standard and its outer dimensions if it has them, whether its
    conducting area is known; [tag] stands for all else. *)
Record strand := mkStrand {
  kind_of : wire_type; standard_of : option nat;
  across : option Q; wide : option Q; high : option Q;
  area_known : bool; tag : nat
}.
(** A winding with a wire, as far as the adviser changes it: wire and parallels. *)
Definition candidate := (strand * Z)%type.
Definition ranked := list (candidate * Q).

(** Settings [wire_adviser_include_*] and [wire_adviser_allow_rectangular_in_toroidal_cores]. *)
Record switches := mkSwitches {
  on_foil : bool; on_planar : bool; on_rectangular : bool; on_litz : bool; on_round : bool; on_toroids : bool
}.
Inductive axes := Cartesian | Polar.
Record place := mkPlace { axes_of : option axes; size_of : Q * Q }.
Definition is_polar (p : place) : bool := match axes_of p with Some Polar => true | _ => false end.
(** [section.get_coordinate_system() == CoordinateSystem::CARTESIAN] on an optional. *)
Definition says_cartesian (p : place) : bool := match axes_of p with Some Cartesian => true | _ => false end.
Definition section_of (p : place) : section := mkSection (is_polar p) (size_of p).

(** WireAdviser.cpp:367-371 and :671-677, the same test twice. *)
Definition switched_on (s : switches) (p : place) (w : strand) : bool :=
  match kind_of w with
  | FOIL => on_foil s
  | PLANAR => on_planar s
  | RECTANGULAR_WIRE => on_rectangular s && (on_toroids s || says_cartesian p)
  | LITZ => on_litz s
  | ROUND_WIRE => on_round s
  end.
(** WireAdviser.cpp:373-378 and :405-408: a wire of no standard is of every standard. *)
Definition of_standard (common : option nat) (w : strand) : bool :=
  match common, standard_of w with
  | Some c, Some x => Nat.eqb x c
  | _, _ => true
  end.
(** WireAdviser.cpp:366-380: the catalogue, loaded. *)
Definition from_catalogue (s : switches) (common : option nat) (p : place) (db : list strand) : list strand :=
  filter (fun w => switched_on s p w && of_standard common w) db.
(** WireAdviser.cpp:402-410: with a constraint on the type, which decides instead of the
    settings; [accepts] is [acceptsWireType]. *)
Definition from_constraint (accepts : wire_type -> bool) (common : option nat) (db : list strand) : list strand :=
  filter (fun w => accepts (kind_of w) && of_standard common w) db.

(** What is known of the wires, for one winding, section, current and temperature:
    [Wire::calculate_number_parallels_needed]; [cut_foil_wire_to_section] and
    [cut_planar_wire_to_section] (other wires are left as they are);
    [get_maximum_outer_width] and [get_maximum_outer_height];
    [calculate_effective_resistance_per_meter] at a frequency;
    [calculate_skin_effect_losses_per_meter]; [get_minimum_conducting_dimension] and the
    number of conductors; MagneticFilterSolidInsulationRequirements;
    [wound_distance_to_angle]; and the double pi. *)
Record physics := mkPhysics {
  needed : strand -> outcome Z;
  cut : strand -> strand;
  outer : strand -> Q * Q;
  resistance : strand -> Q -> option Q;
  skin : strand -> option Q;
  thickness : strand -> Q;
  conductors : strand -> option Z;
  insulated : strand -> outcome (bool * Q);
  angle : Q -> Q -> Q;
  pi_ : Q
}.
(** The job: turns of the winding, its section, the number of sections, the current
    (effective frequency, harmonics or not) and the limits of the adviser. *)
Record job := mkJob {
  turns : Z; where_ : place; sections : positive; frequency : option Q; harmonics : bool;
  most : Z; requirements : bool; switches_of : switches; results : nat
}.

Section Advise.
Variable ph : physics.
Variable j : job.

(** WireAdviser.cpp:670-704, one wire of the list: with the parallels needed and with one
    more.  [needed] is asked of the wire once cut. *)
Definition offers (w : strand) : outcome (list candidate) :=
  if switched_on (switches_of j) (where_ j) w then
    let c := cut ph w in
    match kind_of w with
    | RECTANGULAR_WIRE => Ok ((c, 1%Z) :: if Z.ltb 1 (most j) then [(c, 2%Z)] else [])
    | _ =>
        n <- needed ph c ;;
        if Z.ltb (most j) n then Ok []
        else Ok ((c, n) :: if Z.ltb n (most j) then [(c, (n + 1)%Z)] else [])
    end
  else Ok [].
(** WireAdviser.cpp:647-707 [create_dataset]; the synthesized litz wires of lines 659-662
    are part of the list. *)
Fixpoint dataset (ws : list strand) : outcome ranked :=
  match ws with
  | [] => Ok []
  | w :: rest =>
      a <- offers w ;;
      b <- dataset rest ;;
      Ok (map (fun c => (c, 0)) a ++ b)%list
  end.

(** * Filters *)
(** [std::stable_sort]. *)
Fixpoint insert_by {A : Type} (before : A -> A -> bool) (x : A) (l : list A) : list A :=
  match l with
  | [] => [x]
  | y :: r => if before y x then y :: insert_by before x r else x :: l
  end.
Fixpoint sort_by {A : Type} (before : A -> A -> bool) (l : list A) : list A :=
  match l with [] => [] | x :: r => insert_by before x (sort_by before r) end.
Definition higher (a b : candidate * Q) : bool := Qlt_bool (snd b) (snd a).

(** WireAdviser.cpp:55-90 [normalize_scoring] of this file: a score that is NaN or
    infinite is an error. *)
Definition is_finite (x : option Q) : bool := match x with Some _ => true | None => false end.
Definition rate (l : ranked) (scores : list (option Q)) (invert : bool) : outcome ranked :=
  if forallb is_finite scores then
    n <- normalize_scoring scores 1 invert ;;
    s <- add_scores l n ;;
    Ok (sort_by higher s)
  else Throw "NaN/Inf scoring".
(** WireAdviser.cpp:101-111 and its copies: the scores of the valid ones, the indexes of
    the others. *)
Fixpoint judge (evaluate : candidate -> outcome (bool * option Q)) (i : nat) (l : ranked)
    : outcome (list (option Q) * list nat) :=
  match l with
  | [] => Ok ([], [])
  | x :: r =>
      v <- evaluate (fst x) ;;
      t <- judge evaluate (S i) r ;;
      Ok (if fst v then (snd v :: fst t, snd t) else (fst t, i :: snd t))
  end.
(** WireAdviser.cpp:113-120 and its copies. *)
Fixpoint erase (i : nat) (out : list nat) (l : ranked) : ranked :=
  match l with
  | [] => []
  | x :: r =>
      match out with
      | k :: out' => if Nat.eqb i k then erase (S i) out' r else x :: erase (S i) out r
      | [] => x :: erase (S i) out r
      end
  end.
(** WireAdviser.cpp:92-131 [filter_by_area_no_parallels] and, with their own evaluation and
    direction, :133-180, :182-225, :227-265, :267-310, :312-348. *)
Definition stage (evaluate : candidate -> outcome (bool * option Q)) (invert : bool) (l : ranked) : outcome ranked :=
  t <- judge evaluate 0 l ;;
  let kept := erase 0 (snd t) l in
  if Nat.eqb (List.length kept) (List.length (fst t)) then
    match kept with
    | [] => Ok []
    | _ => rate kept (fst t) invert
    end
  else Throw "Something wrong happened while filtering".

Definition coiled_of (c : candidate) : coiled :=
  mkCoiled (match kind_of (fst c) with FOIL => true | _ => false end)
    (fst (outer ph (fst c))) (snd (outer ph (fst c))) (turns j) (snd c).
(** WireAdviser.cpp:140-146, :710-717. *)
Definition room : Q := section_area (pi_ ph) (section_of (where_ j)).
(** MagneticFilterArea.cpp:287-312; its score is zero. *)
Definition by_size (c : candidate) : outcome (bool * option Q) :=
  Ok (no_parallels_filter (angle ph) (most j) (coiled_of c) (section_of (where_ j)), Some 0).
(** MagneticFilterArea.cpp:337-364. *)
Definition by_area (allow : bool) (c : candidate) : outcome (bool * option Q) :=
  if area_known (fst c) then
    let v := with_parallels_filter (coiled_of c) (sections j) room allow in Ok (fst v, Some (snd v))
  else Throw "Conducting area is missing".
Definition by_insulation (c : candidate) : outcome (bool * option Q) :=
  v <- insulated ph (fst c) ;; Ok (fst v, Some (snd v)).
(** MagneticFilterImpedance.cpp:309-318. *)
Definition by_resistance (f : Q) (c : candidate) : outcome (bool * option Q) := Ok (true, resistance ph (fst c) f).
(** MagneticFilter.cpp:492-498. *)
Definition by_skin (c : candidate) : outcome (bool * option Q) := Ok (true, skin ph (fst c)).
(** MagneticFilterImpedance.cpp:342-355, whose second argument is a skin depth; the adviser
    gives the frequency.  Simplified: integers do not overflow. *)
Definition by_proximity (f : Q) (c : candidate) : outcome (bool * option Q) :=
  let n := inject_Z (match conductors ph (fst c) with Some n => n | None => 1 end * snd c * turns j) in
  Ok (true, if Qeq_bool f 0 then None else Some (thickness ph (fst c) / f * (n * n))).

(** WireAdviser.cpp:26-53 [wire_outer_metric], where [None] is infinite, and
    [break_score_ties]. *)
Definition bulk (w : strand) : option Q :=
  match across w, wide w, high w with
  | Some d, _, _ => Some d
  | None, Some x, Some y => Some (x + y)
  | None, Some x, None => Some x
  | None, None, Some y => Some y
  | None, None, None => None
  end.
Definition thinner (a b : strand) : bool :=
  match bulk a, bulk b with
  | Some x, Some y => Qlt_bool x y
  | Some _, None => true
  | None, _ => false
  end.
Definition ahead (a b : candidate * Q) : bool :=
  if negb (Qeq_bool (snd a) (snd b)) then Qlt_bool (snd b) (snd a) else thinner (fst (fst a)) (fst (fst b)).
(** WireAdviser.cpp:47: fewer than two are left alone. *)
Definition break_ties (l : ranked) : ranked := if Nat.ltb (List.length l) 2 then l else sort_by ahead l.

(** WireAdviser.cpp:709-735 [set_maximum_area_proportion]; a section without area divides
    by zero in the code. *)
Definition proportion (c : candidate) : Q :=
  fst (outer ph (fst c)) * snd (outer ph (fst c)) * (inject_Z (snd c * turns j) / inject_Z (Zpos (sections j))) / room.
Fixpoint measure (seen : Q) (l : ranked) : outcome Q :=
  match l with
  | [] => Ok seen
  | x :: r =>
      if area_known (fst (fst x)) then measure (cmax seen (proportion (fst x))) r
      else Throw "Conducting area is missing"
  end.

(** The last part of both searches: WireAdviser.cpp:747-771 and :807-831.  A current that
    was not processed is dereferenced in the code; here it only lacks its frequency. *)
Definition score_and_cut (seen : Q) (l : ranked) : outcome (ranked * Q) :=
  match frequency j with
  | None => Throw "Current processed is missing field effective frequency"
  | Some f =>
      l <- stage (by_resistance f) true l ;;
      l <- (if harmonics j then stage by_skin true l else Ok l) ;;
      l <- stage (by_proximity f) true l ;;
      let shown := firstn (results j) (break_ties l) in
      m <- measure seen shown ;;
      Ok (shown, m)
  end.
(** WireAdviser.cpp:784-805: the gates. *)
Definition gates (ws : list strand) : outcome ranked :=
  l <- dataset ws ;;
  l <- stage by_size true l ;;
  l <- (if requirements j then stage by_insulation true l else Ok l) ;;
  t <- stage (by_area false) false l ;;
  match t with
  | [] => stage (by_area true) false l
  | _ => Ok t
  end.
(** WireAdviser.cpp:774-832 [get_advised_wire] on a list of wires: the advice and the
    greatest proportion of the section; what was seen before is forgotten. *)
Definition advise (seen : Q) (ws : list strand) : outcome (ranked * Q) :=
  l <- gates ws ;; score_and_cut 0 l.

(** * Planar wires *)
(** WireAdviser.cpp:443-495 [calculate_planar_thickness_penalty], in micrometers. *)
Definition penalty (h : Q) : Q :=
  if Qle_bool h 35 then 0
  else if Qle_bool h 70 then (8 # 100) * ((h - 35) / (70 - 35))
  else if Qle_bool h 105 then (8 # 100) + (10 # 100) * ((h - 70) / (105 - 70))
  else if Qle_bool h 140 then (18 # 100) + (12 # 100) * ((h - 105) / (140 - 105))
  else if Qle_bool h 210 then (30 # 100) + (20 # 100) * ((h - 140) / (210 - 140))
  else let r := cmin 1 ((h - 210) / (350 - 210)) in (50 # 100) + (50 # 100) * r * r.

(** A planar wire of the catalogue is its copper thickness and the rest of it; [sized] is
    the wire with a width; [copper] its thickness in meters. *)
Variable copper : strand -> Q.
Variable sized : strand -> Q -> strand.
Variables border gap : Q.
(** WireAdviser.cpp:511, :554: the width left for the copper of [n] turns. *)
Definition width_for (n : Z) : Q := fst (size_of (where_ j)) - 2 * border - inject_Z (n - 1) * gap.
(** [numberParallels = startParallels .. maximumNumberParallels], WireAdviser.cpp:530. *)
Definition from_to (a b : Z) : list Z := map (fun i => (a + Z.of_nat i)%Z) (seq 0 (Z.to_nat (b - a + 1))).
(** WireAdviser.cpp:518-549; the suffix of the name is not kept. *)
Fixpoint with_parallels (x : Q) (ws : list strand) : outcome ranked :=
  match ws with
  | [] => Ok []
  | w :: rest =>
      if Qlt_bool (copper w) (snd (size_of (where_ j))) then
        n <- needed ph (sized w x) ;;
        r <- with_parallels x rest ;;
        Ok (map (fun p => ((sized w x, p), - penalty (copper w * 1000000))) (from_to (Z.max 2 n) (most j)) ++ r)%list
      else with_parallels x rest
  end.
(** WireAdviser.cpp:560-580. *)
Fixpoint without_parallels (x : Q) (ws : list strand) : outcome ranked :=
  match ws with
  | [] => Ok []
  | w :: rest =>
      if Qlt_bool (copper w) (snd (size_of (where_ j))) then
        n <- needed ph (sized w x) ;;
        r <- without_parallels x rest ;;
        Ok (if Z.leb n 1 then ((sized w x, 1%Z), - penalty (copper w * 1000000)) :: r else r)
      else without_parallels x rest
  end.
(** [ceil(double(turns) / numberSections)]. *)
Definition turns_per_section : Z := Qceiling (inject_Z (turns j) / inject_Z (Zpos (sections j))).
(** WireAdviser.cpp:497-582 [create_planar_dataset]: the planar wires of the catalogue. *)
Definition planar_dataset (ws : list strand) : outcome ranked :=
  if Qlt_bool (width_for (turns j)) 0 then Ok []
  else
    a <- with_parallels (width_for (turns j) / inject_Z (turns j)) ws ;;
    if Qlt_bool (width_for turns_per_section) 0 then Ok a
    else
      b <- without_parallels (width_for turns_per_section / inject_Z turns_per_section) ws ;;
      Ok (a ++ b)%list.
(** WireAdviser.cpp:737-772 [get_advised_planar_wire]: what was seen before stays. *)
Definition advise_planar (seen : Q) (ws : list strand) : outcome (ranked * Q) :=
  l <- planar_dataset ws ;; score_and_cut seen l.
End Advise.
