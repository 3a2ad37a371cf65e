(** Winding a coil: sections, layers and turns of a rectangular winding window, and the turns of a toroid
    (src/constructive_models/Coil.cpp:8423-8680, 9280-9855, 10272-10732 and 10870-11215).

    Real numbers are exact rationals.  The ideal geometry is modelled in full.  Of the real winding geometry
    the forced interleaving of parallels and the choice of the edge a layer starts from are modelled; its
    helical pitch is an argument, and the blocking of turn slots by connection leads is left out
    ([_applyConnectionBlocking] off).  Winding groups: a single one. *)
From Coq Require Import ZArith QArith Qround Qabs List Bool String.
From Verif Require Import Base CoilSplitModel StationModel.
From Verif Require CombinatorModel.
Import ListNotations.
Open Scope outcome_scope.
Open Scope Q_scope.

Notation "' p <- m ;; f" := (bind m (fun x => match x with p => f end))
  (at level 61, p pattern, m at next level, right associativity) : outcome_scope.

(** * The coil *)

Inductive electrical := CONDUCTION | INSULATION | SHIELDING.
Inductive orientation := OVERLAPPING | CONTIGUOUS.
Inductive alignment := INNER_OR_TOP | OUTER_OR_BOTTOM | SPREAD | CENTERED.
Inductive wire_type := ROUND | LITZ | RECTANGULAR | FOIL | PLANAR.
Inductive winding_order := ORDER_U | ORDER_Z.

Definition is_conduction (t : electrical) : bool := match t with CONDUCTION => true | _ => false end.
Definition is_overlapping (o : orientation) : bool := match o with OVERLAPPING => true | CONTIGUOUS => false end.

(** MAS::Winding and its wire: name, turns, parallels, and the wire's type and outer dimensions
    (get_maximum_outer_width, get_maximum_outer_height; both are the outer diameter of a round or litz wire). *)
Record winding := mkWinding {
  w_name : string; w_turns : Z; w_parallels : nat; w_wire : wire_type; w_width : Q; w_height : Q }.

(** MAS::PartialWinding: the winding's name and the proportion of each parallel. *)
Notation partial := (string * list Q)%type.

(** MAS::Section. *)
Record section := mkSection {
  s_name : string; s_type : electrical; s_partials : list partial; s_layers : orientation;
  s_style : option winding_style; s_number_layers : option Z; s_margin : Q * Q;
  s_center : Q * Q; s_size : Q * Q }.

(** MAS::Layer. *)
Record layer := mkLayer {
  l_name : string; l_section : option string; l_type : electrical; l_partials : list partial;
  l_orientation : orientation; l_style : option winding_style; l_alignment : option alignment;
  l_center : Q * Q; l_size : Q * Q }.

(** MAS::Turn. *)
Record turn := mkTurn {
  t_name : string; t_layer : string; t_section : string; t_winding : string; t_parallel : nat;
  t_center : Q * Q; t_size : Q * Q; t_length : Q }.

(** [std::vector::operator\[\]]. *)
Definition at_index {A} (l : list A) (i : nat) : outcome A :=
  match nth_error l i with Some a => Ok a | None => UB "index out of range" end.

(** [std::optional::value()]. *)
Definition value {A} (o : option A) : outcome A :=
  match o with Some a => Ok a | None => Throw "bad optional access" end.

(** Coil.cpp:5601-5627 [get_winding_by_name], [get_winding_index_by_name] (the memo of the latter is
    cleared whenever the windings change). *)
Fixpoint winding_by_name_from (i : nat) (windings : list winding) (name : string) : outcome (nat * winding) :=
  match windings with
  | [] => Throw "No such a winding name"
  | w :: r => if String.eqb (w_name w) name then Ok (i, w) else winding_by_name_from (S i) r name
  end.
Definition winding_by_name := winding_by_name_from 0.

(** Coil.cpp:5274-5298 [get_number_turns] of a section or a layer, from the proportions of its first partial winding. *)
Fixpoint physical_turns (N : Z) (proportions : list Q) (parallels : nat) : outcome Z :=
  match parallels with
  | O => Ok 0%Z
  | S k => match proportions with
           | [] => UB "index out of range"
           | q :: r => n <- physical_turns N r k ;; Ok (whole_turns N q + n)%Z
           end
  end.

(** * Sections *)

(** plan_section_group's result (Coil.cpp:8220-8420) as the section loop reads it: conduction sections and
    insulation in wound order, with winding index and space, and for each winding its style and its number
    of sections. *)
Record group := mkGroup { g_center : Q * Q; g_size : Q * Q; g_orientation : orientation }.

Record section_env := mkSectionEnv {
  se_windings : list winding;
  se_group : group;
  se_items : list (electrical * (nat * Q));
  se_style : nat -> winding_style;
  se_sections : nat -> nat;
  se_margins : list (Q * Q);
  se_insulation : nat -> nat -> option section;
  se_layers : string -> orientation }.

(** Coil.cpp:8518, 8651 section names. *)
Definition section_name (w : string) (i : nat) : string := (w ++ " section " ++ CombinatorModel.to_string i)%string.
Definition insulation_name (a b : string) (i : nat) : string :=
  ("Insulation between " ++ a ++ " and " ++ b ++ " section " ++ CombinatorModel.to_string i)%string.

(** Coil.cpp:8472-8665, the loop over the ordered sections.  State: what is left of each winding, how many
    sections each winding already has, the ordinal of the next conduction section, and the edge the next section starts at.
    [None] is [return false].  Left out: cutting a foil or planar wire without its own size to the section,
    and filling factors. *)
Fixpoint section_loop (e : section_env) (index : nat) (items : list (electrical * (nat * Q)))
  (rem : nat -> list Q) (cur : nat -> nat) (ordinal : nat) (edge : option (Q * Q))
  : outcome (option (list section * (nat -> list Q))) :=
  match items with
  | [] => Ok (Some ([], rem))
  | (type, (w, space)) :: rest =>
      let g := se_group e in
      if is_conduction type then
        winding <- at_index (se_windings e) w ;;
        let edge' := match edge with
                     | Some x => x
                     | None => if is_overlapping (g_orientation g)
                               then (fst (g_center g) - fst (g_size g) / 2, snd (g_center g))
                               else (fst (g_center g), snd (g_center g) + snd (g_size g) / 2)
                     end in
        let width := if is_overlapping (g_orientation g) then space else fst (g_size g) in
        let height := if is_overlapping (g_orientation g) then snd (g_size g) else space in
        props <- get_parallels_proportions (cur w) (se_sections e w) (w_turns winding) (rem w) (se_style e w) 1 None ;;
        margin <- at_index (se_margins e) ordinal ;;
        let name := section_name (w_name winding) (cur w) in
        let size := if is_overlapping (g_orientation g) then (width, height - fst margin - snd margin)
                    else (width - fst margin - snd margin, height) in
        if (if is_overlapping (g_orientation g) then Qlt_bool height (fst margin + snd margin + w_height winding)
            else Qlt_bool width (fst margin + snd margin + w_width winding)) then Ok None
        else if Qlt_bool (fst size) 0 then Throw "Something wrong happened in section dimensions 0"
        else
          let center := if is_overlapping (g_orientation g) then (fst edge' + width / 2, snd edge')
                        else (fst edge', snd edge' - height / 2) in
          if Qlt_bool (fst center) (-1) then Throw "Something wrong happened in section coordinates 0"
          else
            let s := mkSection name CONDUCTION [(w_name winding, snd props)] (se_layers e name)
                               (Some (se_style e w)) None margin center size in
            let rem' := upd rem w (map (fun '(a, b) => a - b) (combine (rem w) (snd props))) in
            let next := if is_overlapping (g_orientation g) then (fst edge' + width, snd edge')
                        else (fst edge', snd edge' - height) in
            r <- section_loop e (S index) rest rem' (upd cur w (S (cur w))) (S ordinal) (Some next) ;;
            Ok (match r with Some (l, final) => Some (s :: l, final) | None => None end)
      else
        match index with
        | O => Throw "Insulation layers cannot be the first one (for now)"
        | S previous =>
            before <- at_index (se_items e) previous ;;
            after <- (if Nat.eqb (S index) (List.length (se_items e)) then at_index (se_items e) 0
                      else at_index (se_items e) (S index)) ;;
            match se_insulation e (fst (snd before)) (fst (snd after)) with
            | None => section_loop e (S index) rest rem cur ordinal edge
            | Some template =>
                wb <- at_index (se_windings e) (fst (snd before)) ;;
                wa <- at_index (se_windings e) (fst (snd after)) ;;
                let edge' := match edge with Some x => x | None => (0, 0) end in
                let size := s_size template in
                let center := if is_overlapping (g_orientation g) then (fst edge' + fst size / 2, snd edge')
                              else (fst edge', snd edge' - snd size / 2) in
                let s := mkSection (insulation_name (w_name wb) (w_name wa) index) (s_type template) (s_partials template)
                                   (s_layers template) (s_style template) (s_number_layers template) (s_margin template)
                                   center size in
                let next := if is_overlapping (g_orientation g) then (fst edge' + fst size, snd edge')
                            else (fst edge', snd edge' - snd size) in
                r <- section_loop e (S index) rest rem cur ordinal (Some next) ;;
                Ok (match r with Some (l, final) => Some (s :: l, final) | None => None end)
            end
        end
  end.

(** Coil.cpp:8423-8680 [wind_by_rectangular_sections], for one group.  The parallels of a winding that has
    none are an empty list. *)
Definition wind_by_rectangular_sections (e : section_env) : outcome (option (list section)) :=
  let parallels w := match nth_error (se_windings e) w with Some x => w_parallels x | None => 0%nat end in
  r <- section_loop e 0 (se_items e) (fun w => repeat 1 (parallels w)) (fun _ => 0%nat) 0 None ;;
  match r with
  | None => Ok None
  | Some (l, final) =>
      _ <- check_all_assigned (List.length (se_windings e)) final ;; Ok (Some l)
  end.

(** * Layers *)

Record layer_env := mkLayerEnv {
  le_windings : list winding;
  le_alignment : string -> alignment;                          (* get_turns_alignment *)
  le_override : nat -> option winding_style;                   (* get_winding_style_override *)
  le_interlayer : nat -> option layer;                         (* _insulationInterLayers *)
  le_intersection : nat -> nat -> option (list layer);         (* _insulationInterSectionsLayers *)
  le_overflow : bool;                                          (* coil_allow_horizontal_overflow *)
  le_one_turn : bool;                                          (* coil_only_one_turn_per_layer_in_contiguous_rectangular *)
  le_real : bool }.                                            (* coil_use_real_winding_geometry *)

(** A quotient of lengths turned into a [uint64_t]: only a nonnegative finite one can be. *)
Definition quotient (a b : Q) : outcome Z :=
  if Qeq_bool b 0 then UB "division by zero turned into an integer"
  else if Qlt_bool (a / b) 0 then UB "negative number turned into an unsigned integer"
  else Ok (Qfloor (a / b)).

(** Coil.cpp:9314-9361: how many layers fit in a section, how many turns fit on a layer, and the layer's size. *)
Definition layer_room (one_turn : bool) (w : winding) (o : orientation) (size : Q * Q) : outcome (Z * Z * (Q * Q)) :=
  let round := match w_wire w with ROUND | LITZ => true | _ => false end in
  if is_overlapping o then
    layers <- quotient (fst size) (w_width w) ;;
    turns <- (match w_wire w with FOIL => Ok 1%Z | _ => quotient (snd size) (if round then w_width w else w_height w) end) ;;
    Ok (layers, turns, (w_width w, snd size))
  else
    layers <- quotient (snd size) (if round then w_width w else w_height w) ;;
    turns <- (match w_wire w with
              | RECTANGULAR => if one_turn then Ok 1%Z else quotient (fst size) (w_width w)
              | _ => quotient (fst size) (w_width w)
              end) ;;
    Ok (layers, turns, (fst size, if round then w_width w else w_height w)).

(** Coil.cpp:9363-9391: how many layers.  A zero room in both directions divides by zero. *)
Definition number_of_layers (overflow : bool) (preset : option Z) (fitting perLayer physical : Z) : outcome Z :=
  n <- (match preset with
        | Some n => Ok n
        | None =>
            if (fitting =? 0)%Z then
              if (perLayer =? 0)%Z then UB "division by zero turned into an integer"
              else Ok (Qceiling (inject_Z physical / inject_Z perLayer))
            else if (perLayer =? 0)%Z then Ok fitting
            else let needed := Qceiling (inject_Z physical / inject_Z perLayer) in
                 Ok (if overflow then needed else Z.min needed fitting)
        end) ;;
  Ok (Z.min n physical).

(** Coil.cpp:9543-9572: more layers when the parallels lie side by side.  [style] is the section's, else the one
    the chooser gives without an override. *)
Definition more_layers_for_rows (preset : option Z) (style : option winding_style) (N P fitting perLayer physical n : Z)
  : outcome Z :=
  if ((1 <? P) && match preset with None => true | _ => false end && (0 <? perLayer) && (0 <? n))%Z%bool then
    tentative <- (match style with Some s => Ok s | None => choose_layer_style None N P n end) ;;
    let rows := (perLayer / P)%Z in
    match tentative with
    | WIND_BY_CONSECUTIVE_TURNS => Ok n
    | WIND_BY_CONSECUTIVE_PARALLELS =>
        if (0 <? rows)%Z then
          let perParallel := Qceiling (inject_Z physical / inject_Z P - 1 / inject_Z 1000000000) in
          let split := Qceiling (inject_Z perParallel / inject_Z n - 1 / inject_Z 1000000000) in
          if (perLayer <? split * P)%Z then
            let n' := Z.max n (Qceiling (inject_Z perParallel / inject_Z rows - 1 / inject_Z 1000000000)) in
            Ok (if (0 <? fitting)%Z then Z.min n' fitting else n')
          else Ok n
        else Ok n
    end
  else Ok n.

(** Coil.cpp:9604-9639: the style of the layers of a section. *)
Definition style_of_layers (real : bool) (style override : option winding_style) (N P perLayer n : Z) : outcome winding_style :=
  s <- (match style with Some s => Ok s | None => choose_layer_style override N P n end) ;;
  let s := if (real && (1 <? P)%Z)%bool then WIND_BY_CONSECUTIVE_PARALLELS else s in
  Ok (match s with
      | WIND_BY_CONSECUTIVE_PARALLELS => if (perLayer <? P)%Z then WIND_BY_CONSECUTIVE_TURNS else s
      | _ => s
      end).

(** Coil.cpp:9580-9602: the centre of the first layer. *)
Definition first_layer_center (a : alignment) (s : section) (n : Z) (size : Q * Q) : Q * Q :=
  let '(cx, cy) := s_center s in let '(sx, sy) := s_size s in let '(w, h) := size in
  if is_overlapping (s_layers s) then (roundFloat (cx - sx / 2 + w / 2) 9, roundFloat cy 9)
  else
    (roundFloat cx 9,
     match a with
     | CENTERED | SPREAD => roundFloat (cy + inject_Z n * h / 2 - h / 2) 9
     | INNER_OR_TOP => roundFloat (cy + sy / 2 - h / 2) 9
     | OUTER_OR_BOTTOM => roundFloat (cy - sy / 2 + inject_Z n * h - h / 2) 9
     end).

(** Half a step across the layers: Coil.cpp:9731-9736 and its repetitions. *)
Definition step_layer (o : orientation) (d : Q) (c : Q * Q) : Q * Q :=
  if is_overlapping o then (roundFloat (fst c + d) 9, snd c) else (fst c, roundFloat (snd c - d) 9).

(** Coil.cpp:9649 layer names, 9757 insulation names. *)
Definition layer_name (section : string) (i : nat) : string := (section ++ " layer " ++ CombinatorModel.to_string i)%string.
Definition sheet_name (section : string) (i : nat) : string :=
  (section ++ " insulation layer " ++ CombinatorModel.to_string i)%string.

(** Coil.cpp:9641-9788: the layers of a conduction section, [count] of them from [index] on. *)
Fixpoint layer_loop (s : section) (w : winding) (sheet : option layer) (style : winding_style) (a : alignment)
  (slots : nat) (size : Q * Q) (count index : nat) (rem : list Q) (center : Q * Q) : outcome (list layer) :=
  match count with
  | O => Ok []
  | S k =>
      props <- get_parallels_proportions index slots (w_turns w) rem style 1 None ;;
      if forallb (fun q => Qeq_bool q 0) (snd props) then Throw "Parallel proportion in layer cannot be all be 0"
      else
        let l := mkLayer (layer_name (s_name s) index) (Some (s_name s)) CONDUCTION [(w_name w, snd props)]
                         (s_layers s) (Some style) (Some a) center size in
        let rem' := map (fun '(x, y) => x - y) (combine rem (snd props)) in
        match k with
        | O => Ok [l]
        | S _ =>
            let half := (if is_overlapping (s_layers s) then fst size else snd size) / 2 in
            let c1 := step_layer (s_layers s) half center in
            let '(sheets, c2) :=
              match sheet with
              | None => ([], c1)
              | Some t =>
                  let thickness := if is_overlapping (l_orientation t) then fst (l_size t) else snd (l_size t) in
                  let c := step_layer (s_layers s) (thickness / 2) c1 in
                  ([mkLayer (sheet_name (s_name s) index) (Some (s_name s)) (l_type t) (l_partials t) (s_layers s)
                            (l_style t) (l_alignment t) c
                            (if is_overlapping (s_layers s) then (thickness, snd size) else (fst size, thickness))],
                   step_layer (s_layers s) (thickness / 2) c)
              end in
            rest <- layer_loop s w sheet style a slots size k (S index) rem' (step_layer (s_layers s) half c2) ;;
            Ok (l :: sheets ++ rest)%list
        end
  end.

(** Coil.cpp:9289-9788: the layers of a conduction section. *)
Definition layers_of_section (e : layer_env) (s : section) : outcome (list layer) :=
  match s_partials s with
  | [] => UB "index out of range"
  | _ :: _ :: _ => Throw "More than one winding per layer not supported yet"
  | [(name, proportions)] =>
      '(i, w) <- winding_by_name (le_windings e) name ;;
      let N := w_turns w in let P := Z.of_nat (w_parallels w) in
      physical <- physical_turns N proportions (w_parallels w) ;;
      '(fitting, perLayer, size) <- layer_room (le_one_turn e) w (s_layers s) (s_size s) ;;
      n <- number_of_layers (le_overflow e) (s_number_layers s) fitting perLayer physical ;;
      n <- more_layers_for_rows (s_number_layers s) (s_style s) N P fitting perLayer physical n ;;
      style <- style_of_layers (le_real e) (s_style s) (le_override e i) N P perLayer n ;;
      let a := le_alignment e (s_name s) in
      layer_loop s w (le_interlayer e i) style a (Z.to_nat n) size (Z.to_nat n) 0
        (firstn (w_parallels w) proportions) (first_layer_center a s n size)
  end.

(** Coil.cpp:9838-9851: the sheets of an insulation section, one against the other. *)
Fixpoint sheets_from (s : section) (size : Q * Q) (index : nat) (center : Q * Q) (sheets : list layer) : list layer :=
  match sheets with
  | [] => []
  | t :: r =>
      mkLayer (sheet_name (s_name s) index) (Some (s_name s)) (l_type t) (l_partials t) (l_orientation t) (l_style t)
              (l_alignment t) center (l_size t)
      :: sheets_from s size (S index)
           (step_layer (s_layers s) (if is_overlapping (s_layers s) then fst size else snd size) center) r
  end.

(** Coil.cpp:9791-9851: the layers of an insulation section. *)
Definition layers_of_insulation (e : layer_env) (sections : list section) (index : nat) (s : section) : outcome (list layer) :=
  match index with
  | O => Throw "inner insulation layers not implemented"
  | S previous =>
      before <- at_index sections previous ;;
      pb <- at_index (s_partials before) 0 ;;
      '(wb, _) <- winding_by_name (le_windings e) (fst pb) ;;
      after <- (if Nat.eqb (S index) (List.length sections) then at_index sections 0
                else
                  a <- at_index sections (S index) ;;
                  if (is_conduction (s_type before) && is_conduction (s_type a))%bool then Ok a
                  else Throw "Previous and next sections must be conductive") ;;
      pa <- at_index (s_partials after) 0 ;;
      '(wa, _) <- winding_by_name (le_windings e) (fst pa) ;;
      match le_intersection e wb wa with
      | None | Some [] => Ok []
      | Some (t :: r) =>
          let size := l_size t in
          let center := if is_overlapping (s_layers s)
                        then (roundFloat (fst (s_center s) - fst (s_size s) / 2 + fst size / 2) 9, roundFloat (snd (s_center s)) 9)
                        else (roundFloat (fst (s_center s)) 9,
                              roundFloat (snd (s_center s) + snd (s_size s) / 2 - snd size / 2) 9) in
          Ok (sheets_from s size 0 center (t :: r))
      end
  end.

Fixpoint layers_from (e : layer_env) (sections : list section) (index : nat) (l : list section) : outcome (list layer) :=
  match l with
  | [] => Ok []
  | s :: r =>
      here <- (if is_conduction (s_type s) then layers_of_section e s else layers_of_insulation e sections index s) ;;
      rest <- layers_from e sections (S index) r ;;
      Ok (here ++ rest)%list
  end.

(** Coil.cpp:9280-9855 [wind_by_rectangular_layers]. *)
Definition wind_by_rectangular_layers (e : layer_env) (sections : list section) : outcome (list layer) :=
  layers_from e sections 0 sections.

(** * Turns *)

Record turn_env := mkTurnEnv {
  te_windings : list winding;
  te_real : bool;                                   (* coil_use_real_winding_geometry *)
  te_planar_layers : nat;                           (* coil_maximum_layers_planar *)
  te_order : string -> winding_order;               (* get_winding_order of a section *)
  te_length : string -> Q -> option Q;              (* get_turn_length_in_frame of a section's column *)
  te_pitch : layer -> Q -> Q;                       (* helical_stacking_pitch, the wire's own height without real winding *)
  te_entrance : string -> option bool }.            (* _terminalEntranceAtTop *)

Definition turn_name (w : string) (p i : nat) : string :=
  (w ++ " parallel " ++ CombinatorModel.to_string p ++ " turn " ++ CombinatorModel.to_string i)%string.

(** Coil.cpp:10638-10640 and 11073-11075: one parallel after the other.  The nested loops of the code are written as the
    list of parallels in the order their turns are laid. *)
Fixpoint turns_lanes (N : Z) (proportions : list Q) (parallels index : nat) : outcome (list nat) :=
  match parallels with
  | O => Ok []
  | S k => match proportions with
           | [] => UB "index out of range"
           | q :: r => rest <- turns_lanes N r k (S index) ;;
                       Ok (repeat index (Z.to_nat (whole_turns N q)) ++ rest)%list
           end
  end.

(** A parallel has turns on the layer: Coil.cpp:10688, 11124. *)
Definition active (q : Q) : bool := Qlt_bool 0 (roundFloat q 10).

(** Coil.cpp:10680-10684, 11117-11121: the first parallel whose proportion is not zero; running past the last one reads out of
    range. *)
Fixpoint first_nonzero (proportions : list Q) : outcome Q :=
  match proportions with
  | [] => UB "index out of range"
  | q :: r => if Qeq_bool (roundFloat q 10) 0 then first_nonzero r else Ok q
  end.

Fixpoint active_from (proportions : list Q) (parallels index : nat) : outcome (list nat) :=
  match parallels with
  | O => Ok []
  | S k => match proportions with
           | [] => UB "index out of range"
           | q :: r => rest <- active_from r k (S index) ;; Ok (if active q then index :: rest else rest)
           end
  end.

(** Coil.cpp:10685-10687, 11122-11123: rows of the active parallels side by side. *)
Definition parallels_lanes (N : Z) (proportions : list Q) (parallels : nat) : outcome (list nat) :=
  q <- first_nonzero proportions ;;
  let rows := Z.to_nat (whole_turns N q) in
  match rows with
  | O => Ok []
  | _ => row <- active_from proportions parallels 0 ;; Ok (List.concat (repeat row rows))
  end.

(** Coil.cpp:10607-10636, 11054-11070: under the real winding geometry several parallels in equal proportions are wound side
    by side (the environment variable that switches this off is not set). *)
Definition side_by_side (proportions : list Q) : bool :=
  match filter active proportions with
  | q :: (_ :: _) as l => forallb (fun p => Qle_bool (Qabs (p - q)) (1 / inject_Z 1000000000)) l
  | _ => false
  end.

Definition lanes (real : bool) (style : winding_style) (N : Z) (proportions : list Q) (parallels : nat) : outcome (list nat) :=
  match style with
  | WIND_BY_CONSECUTIVE_TURNS =>
      if (real && side_by_side proportions)%bool then parallels_lanes N proportions parallels
      else turns_lanes N proportions parallels 0
  | WIND_BY_CONSECUTIVE_PARALLELS => parallels_lanes N proportions parallels
  end.

(** Coil.cpp:10641-10676, 10689-10722, 11076-11115, 11125-11170: laying the turns one by one.  [counters] gives the number of the next
    turn of each parallel of each winding, [step] what is added to the centre after each turn.  [None] is
    [return false]: the column is too small for a turn there. *)
Fixpoint place (length_at : Q -> option Q) (section : string) (l : layer) (i : nat) (w : string) (size : Q * Q)
  (stations : list Q) (axis : nat) (step : Q * Q)
  (order : list nat) (station : nat) (center : Q * Q) (counters : nat -> nat -> nat)
  : outcome (option (list turn * (nat -> nat -> nat))) :=
  match order with
  | [] => Ok (Some ([], counters))
  | p :: rest =>
      '(station', c) <- take_next_spread_station stations station axis center ;;
      match length_at (fst c) with
      | None => Ok None
      | Some len =>
          let t := mkTurn (turn_name w p (counters i p)) (l_name l) section w p c size len in
          r <- place length_at section l i w size stations axis step rest station' (fst c + fst step, snd c + snd step)
                 (upd counters i (upd (counters i) p (S (counters i p)))) ;;
          Ok (match r with Some (ts, counters') => Some (t :: ts, counters') | None => None end)
      end
  end.

(** Maps from winding names, with a default. *)
Definition set_name {A} (f : string -> A) (n : string) (a : A) : string -> A := fun m => if String.eqb m n then a else f m.

Record turn_state := mkTurnState {
  ts_counters : nat -> nat -> nat;
  ts_layers : string -> nat;               (* windingLayerOrderCount *)
  ts_sections : string -> nat;             (* windingSectionOrdinal *)
  ts_last : string -> string;              (* windingLastSection *)
  ts_top : string -> bool;                 (* windingLastLayerFinishedAtTop *)
  ts_single : string -> bool }.            (* windingLastLayerWasSingleTurn *)

Definition start : turn_state :=
  mkTurnState (fun _ _ => 0%nat) (fun _ => 0%nat) (fun _ => 0%nat) (fun _ => ""%string) (fun _ => false) (fun _ => false).

(** Coil.cpp:10375-10503: where the first turn of a layer goes as laid from the top (or from the inside), the step to
    the next one, and the stations of a spread layer. [size] is the wire's width and axial pitch. *)
Definition layer_start (a : alignment) (l : layer) (turns : Z) (size : Q * Q) : (Q * Q) * (Q * Q) * list Q * nat :=
  let '(cx, cy) := l_center l in let '(sx, sy) := l_size l in let '(w, h) := size in
  let bundle := get_layer_bundle_size (l_style l) (match l_partials l with p :: _ => snd p | [] => [] end) in
  if is_overlapping (l_orientation l) then
    let total := roundFloat (inject_Z turns * h) 9 in
    let x := roundFloat cx 9 in
    match a with
    | CENTERED => ((x, roundFloat (cy + total / 2 - h / 2) 9), (0, h), [], 0%nat)
    | INNER_OR_TOP => ((x, roundFloat (cy + sy / 2 - h / 2) 9), (0, h), [], 0%nat)
    | OUTER_OR_BOTTOM => ((x, roundFloat (cy - sy / 2 + total - h / 2) 9), (0, h), [], 0%nat)
    | SPREAD => ((x, 0), (0, 0), rev (compute_spread_turn_stations cy sy h turns bundle), 1%nat)
    end
  else
    let total := roundFloat (inject_Z turns * w) 9 in
    let y := roundFloat cy 9 in
    match a with
    | CENTERED => ((roundFloat (cx - total / 2 + w / 2) 9, y), (w, 0), [], 0%nat)
    | INNER_OR_TOP => ((roundFloat (cx - sx / 2 + w / 2) 9, y), (w, 0), [], 0%nat)
    | OUTER_OR_BOTTOM => ((roundFloat (cx - sx / 2 + (sx - total) + w / 2) 9, y), (w, 0), [], 0%nat)
    | SPREAD => ((0, y), (0, 0), compute_spread_turn_stations cx sx w turns bundle, 0%nat)
    end.

(** Coil.cpp:10505-10573: whether a layer starts from the top, and the state after it. *)
Definition starts_at_top (e : turn_env) (st : turn_state) (l : layer) (section name : string) (parallels : nat) (turns : Z)
  : bool * turn_state :=
  let ordinal := ts_layers st name in
  let sections := if String.eqb (ts_last st name) section then ts_sections st
                  else if String.eqb (ts_last st name) "" then ts_sections st
                  else set_name (ts_sections st) name (S (ts_sections st name)) in
  let base := if (te_real e && is_overlapping (l_orientation l))%bool
              then match te_entrance e name with Some b => b | None => false end else false in
  let top := match te_order e section with
             | ORDER_U => xorb base (Nat.odd ordinal)
             | ORDER_Z => if te_real e then xorb base (Nat.odd (sections name)) else false
             end in
  let single := (turns <=? 2 * Z.max 1 (Z.of_nat parallels))%Z in
  let joined := (single || ts_single st name)%bool in
  let top := if (te_real e && joined && negb (Nat.eqb ordinal 0) && is_overlapping (l_orientation l))%bool
             then ts_top st name else top in
  (top, mkTurnState (ts_counters st) (set_name (ts_layers st) name (S ordinal)) sections
          (if String.eqb (ts_last st name) section then ts_last st else set_name (ts_last st) name section)
          (set_name (ts_top st) name (negb top)) (set_name (ts_single st) name single)).

(** Coil.cpp:10328-10725: the turns of one conduction layer. *)
Definition turns_of_layer (e : turn_env) (st : turn_state) (l : layer) : outcome (option (list turn * turn_state)) :=
  match l_partials l with
  | [] => UB "index out of range"
  | _ :: _ :: _ => Throw "More than one winding per layer not supported yet"
  | [(name, proportions)] =>
      '(i, w) <- winding_by_name (te_windings e) name ;;
      physical <- physical_turns (w_turns w) proportions (w_parallels w) ;;
      a <- value (l_alignment l) ;;
      section <- value (l_section l) ;;
      let size := (w_width w, te_pitch e l (w_height w)) in
      let '(center, step, stations, axis) := layer_start a l physical size in
      let '(top, st') := starts_at_top e st l section name (w_parallels w) physical in
      let '(center, step, stations) :=
        if top then (center, step, stations)
        else ((roundFloat (fst center + inject_Z (physical - 1) * fst step) 9,
               roundFloat (snd center - inject_Z (physical - 1) * snd step) 9),
              (- fst step, - snd step), rev stations) in
      let style := match l_style l with Some s => s | None => WIND_BY_CONSECUTIVE_TURNS end in
      order <- lanes (te_real e) style (w_turns w) proportions (w_parallels w) ;;
      r <- place (te_length e section) section l i name size stations axis (fst step, - snd step)
             order 0 center (ts_counters st') ;;
      Ok (match r with
          | None => None
          | Some (ts, counters) =>
              Some (ts, mkTurnState counters (ts_layers st') (ts_sections st') (ts_last st') (ts_top st') (ts_single st'))
          end)
  end.

Fixpoint turns_from (e : turn_env) (st : turn_state) (layers : list layer) : outcome (option (list turn)) :=
  match layers with
  | [] => Ok (Some [])
  | l :: r =>
      if is_conduction (l_type l) then
        here <- turns_of_layer e st l ;;
        match here with
        | None => Ok None
        | Some (ts, st') =>
            rest <- turns_from e st' r ;;
            Ok (match rest with Some more => Some (ts ++ more)%list | None => None end)
        end
      else turns_from e st r
  end.

(** Coil.cpp:10272-10732 [wind_by_rectangular_turns]; [None] is [return false]. *)
Definition wind_by_rectangular_turns (e : turn_env) (layers : list layer) : outcome (option (list turn)) :=
  if (existsb (fun w => match w_wire w with PLANAR => true | _ => false end) (te_windings e) &&
      Nat.ltb (te_planar_layers e) (List.length (filter (fun l => is_conduction (l_type l)) layers)))%bool
  then Ok None
  else turns_from e start layers.

(** ** Toroids *)

Record round_env := mkRoundEnv {
  re_windings : list winding;
  re_real : bool;
  re_order : string -> winding_order;
  re_overlapping : bool;                            (* get_winding_orientation() is OVERLAPPING *)
  re_window : Q;                                    (* the winding window's radial height *)
  re_angle : Q -> Q -> option Q;                    (* wound_distance_to_angle, None when not a number *)
  re_corridor : layer -> Q -> Q * Q;                (* Coil.cpp:10952-10966: the layer's angular centre and dimension once the connection
                                                       corridor of the real winding geometry is taken out, given the angle of the wire *)
  re_length : Q -> option Q }.                      (* the length of a turn at a radial height *)

(** Coil.cpp:10906-11200: the turns of one layer of a toroid, as radial height and angle. *)
Definition round_turns_of_layer (e : round_env) (counters : nat -> nat -> nat) (ordinals : string -> nat) (l : layer)
  : outcome (option (list turn * (nat -> nat -> nat) * (string -> nat))) :=
  match l_partials l with
  | [] => UB "index out of range"
  | _ :: _ :: _ => Throw "More than one winding per layer not supported yet"
  | [(name, proportions)] =>
      '(i, w) <- winding_by_name (re_windings e) name ;;
      physical <- physical_turns (w_turns w) proportions (w_parallels w) ;;
      a <- value (l_alignment l) ;;
      let radius := match w_wire w with RECTANGULAR => re_window e - fst (l_center l) - w_width w / 2
                                      | _ => re_window e - fst (l_center l) end in
      match re_angle e (w_height w) radius with
      | None => Ok None
      | Some wireAngle =>
          if (Qle_bool radius 0 || Qlt_bool 180 wireAngle)%bool then Ok None
          else if negb (is_overlapping (l_orientation l)) then Throw "Only overlapping layers allowed in toroids"
          else
            let '(centre, dimension) := if re_real e then re_corridor e l wireAngle else (snd (l_center l), snd (l_size l)) in
            let total := inject_Z physical * wireAngle in
            let x := roundFloat (fst (l_center l)) 9 in
            let '(angle, increment) :=
              match a with
              | CENTERED => (roundFloat (centre - total / 2 + wireAngle / 2) 9, wireAngle)
              | INNER_OR_TOP => (roundFloat (centre - dimension / 2 + wireAngle / 2) 9, wireAngle)
              | OUTER_OR_BOTTOM => (roundFloat (centre + dimension / 2 - total + wireAngle / 2) 9, wireAngle)
              | SPREAD => let inc := roundFloat (dimension / inject_Z physical) 9 in
                          (roundFloat (centre - dimension / 2 + inc / 2) 9, inc)
              end in
            let '(angle, increment) :=
              if (re_real e && re_overlapping e)%bool then
                let spread := roundFloat ((dimension - wireAngle) / inject_Z physical) 9 in
                if Qle_bool wireAngle spread
                then (roundFloat (centre - inject_Z physical * spread / 2 + spread / 2) 9, spread)
                else (angle, increment)
              else (angle, increment) in
            section <- value (l_section l) ;;
            let back := match re_order e section with ORDER_U => Nat.odd (ordinals name) | ORDER_Z => false end in
            let x := if back then roundFloat x 9 else x in
            let '(angle, increment) :=
              if back then (roundFloat (angle + inject_Z (physical - 1) * increment) 9, - increment) else (angle, increment) in
            let style := match l_style l with Some s => s | None => WIND_BY_CONSECUTIVE_TURNS end in
            order <- lanes (re_real e) style (w_turns w) proportions (w_parallels w) ;;
            r <- place (re_length e) section l i name (w_width w, w_height w) [] 0 (0, increment) order 0 (x, angle) counters ;;
            Ok (match r with
                | None => None
                | Some (ts, counters') => Some (ts, counters', set_name ordinals name (S (ordinals name)))
                end)
      end
  end.

Fixpoint round_turns_from (e : round_env) (counters : nat -> nat -> nat) (ordinals : string -> nat) (layers : list layer)
  : outcome (option (list turn)) :=
  match layers with
  | [] => Ok (Some [])
  | l :: r =>
      if is_conduction (l_type l) then
        here <- round_turns_of_layer e counters ordinals l ;;
        match here with
        | None => Ok None
        | Some (ts, counters', ordinals') =>
            rest <- round_turns_from e counters' ordinals' r ;;
            Ok (match rest with Some more => Some (ts ++ more)%list | None => None end)
        end
      else round_turns_from e counters ordinals r
  end.

(** The conduction layers of a winding: Coil.cpp:5573-5585 [get_layers_by_winding_index]. *)
Definition layers_of_winding (name : string) (layers : list layer) : list layer :=
  filter (fun l => (is_conduction (l_type l) &&
                    match l_partials l with p :: _ => String.eqb (fst p) name | [] => false end)%bool) layers.

(** Coil.cpp:10870-11208 [wind_by_round_turns], before the conversion to cartesian coordinates.  A layer without a partial winding
    is read out of range there too, and is not told apart from one of another winding. *)
Definition wind_by_round_turns (e : round_env) (layers : list layer) : outcome (option (list turn)) :=
  if existsb (fun w => match w_wire w with
                       | RECTANGULAR => Nat.ltb 1 (List.length (layers_of_winding (w_name w) layers))
                       | _ => false
                       end) (re_windings e)
  then Ok None
  else round_turns_from e (fun _ _ => 0%nat) (fun _ => 0%nat) layers.
