(** Model of the thermal network of src/physical_models/Temperature.cpp: the
    linear solver, the fixed-point iteration over the temperature-dependent
    resistances, the figures of the result, the queries on the solved network
    and the cooling options; and of the radiation coefficient and the
    conductivity table of src/physical_models/ThermalResistance.cpp.  Reals are
    exact rationals, so the check for NaN and infinite temperatures
    (Temperature.cpp:5129-5138) never fires.  The correlations of natural and
    forced convection, which need roots, are parameters. *)
From Coq Require Import ZArith QArith Qabs List String Bool.
From Verif Require Import Base StrMap NetworkModel.
Import ListNotations.
Open Scope Q_scope.
Open Scope outcome_scope.

(** ** The linear solver *)

(** The arrays of the solver hold values: [stored] is the matrix read back from
    the array [data] or [aug] (Temperature.cpp:36, 55-59), [stored_vector] its
    last column. *)
Definition stored (n : nat) (A : matrix) : matrix :=
  let rows := map (fun r => map (fun c => Qred (A r c)) (seq 0 n)) (seq 0 n) in
  fun r c => nth c (nth r rows []) 0.
Definition stored_vector (n : nat) (b : vector) : vector :=
  let entries := map (fun r => Qred (b r)) (seq 0 n) in
  fun r => nth r entries 0.

(** Temperature.cpp:67: a pivot below this is taken for zero. *)
Definition pivot_threshold : Q := 1 # 1000000000000000.

(** Temperature.cpp:60-72: the remaining [count] pivots, from [p] on; the search
    of the pivot, the swap and the elimination are those of the reluctance
    network. *)
Fixpoint reduce (count p n : nat) (A : matrix) (b : vector) : option (matrix * vector) :=
  match count with
  | O => Some (A, b)
  | S count' =>
      let best := best_row n p A in
      let A1 := swap p best A in
      let b1 := swap p best b in
      if Qlt_bool (Qabs (A1 p p)) pivot_threshold then None
      else reduce count' (S p) n (stored n (eliminate_matrix p A1))
             (stored_vector n (eliminate_vector p A1 b1))
  end.

(** Temperature.cpp:51-80 [SimpleMatrix::solve]; [None] is the flag [success]
    set to false.  The right-hand side has the size of the matrix here. *)
Definition matrix_solve (n : nat) (A : matrix) (b : vector) : option (list Q) :=
  match n with
  | O => None
  | _ =>
      match reduce n 0 n (stored n A) (stored_vector n b) with
      | None => None
      | Some (A', b') =>
          let x := back_substitute n n A' b' (fun _ => 0) in
          Some (map (fun r => Qred (x r)) (seq 0 n))
      end
  end.

(** ** Network *)

(** ThermalNode.h [HeatTransferType] and [SurfaceOrientation]. *)
Inductive heat_transfer :=
  CONDUCTION | NATURAL_CONVECTION | FORCED_CONVECTION | RADIATION | HEATSINK_CONVECTION.
Inductive surface_orientation := VERTICAL | HORIZONTAL_TOP | HORIZONTAL_BOTTOM.

(** ThermalNode.h [ThermalNodePartType]. *)
Inductive part :=
  CORE_CENTRAL_COLUMN | CORE_LATERAL_COLUMN | CORE_TOP_YOKE | CORE_BOTTOM_YOKE
| CORE_TOROIDAL_SEGMENT | BOBBIN_CENTRAL_COLUMN | BOBBIN_TOP_YOKE | BOBBIN_BOTTOM_YOKE
| TURN | INSULATION_LAYER | HEATSINK | COLD_PLATE | AMBIENT.

Definition is_ambient (p : part) : bool := match p with AMBIENT => true | _ => false end.

(** ThermalNode.h [ThermalNetworkNode]: the fields the solver and the queries
    read; [t_surface] is [getTotalSurfaceArea()] and [t_x], [t_y] the first two
    physical coordinates. *)
Record thermal_node := mkThermal {
  t_name : string;
  t_part : part;
  t_power : Q;
  t_temperature : Q;
  t_fixed : bool;
  t_winding : option nat;
  t_surface : Q;
  t_x : Q;
  t_y : Q }.

(** ThermalNode.h [ThermalResistanceElement]. *)
Record element := mkElement {
  e_from : nat;
  e_to : nat;
  e_resistance : Q;
  e_kind : heat_transfer;
  e_area : Q;
  e_orientation : surface_orientation }.

(** Temperature.h [TemperatureConfig]; [tc_height] is the height of the
    processed core, if there is one. *)
Record thermal_config := mkConfig {
  tc_ambient : Q;
  tc_emissivity : Q;
  tc_velocity : Q;
  tc_max_iterations : nat;
  tc_tolerance : Q;
  tc_require : bool;
  tc_height : option Q }.

(** Temperature.cpp:5006-5013: the first ambient node, the last node if none. *)
Fixpoint first_ambient (k : nat) (l : list thermal_node) : option nat :=
  match l with
  | [] => None
  | x :: rest => if is_ambient (t_part x) then Some k else first_ambient (S k) rest
  end.
Definition ambient_index (nodes : list thermal_node) : nat :=
  match first_ambient 0 nodes with Some k => k | None => (List.length nodes - 1)%nat end.

Definition no_node : thermal_node := mkThermal "" AMBIENT 0 0 false None 0 0 0.
Definition node_at (nodes : list thermal_node) (k : nat) : thermal_node := nth k nodes no_node.

(** Temperature.cpp:5053: the conductance of an element. *)
Definition conductance (e : element) : Q := 1 / cmax (e_resistance e) (1 # 1000000000).

(** Temperature.cpp:5054-5057. *)
Definition bump (A : matrix) (i j : nat) (v : Q) : matrix :=
  fun r c => if Nat.eqb r i && Nat.eqb c j then A r c + v else A r c.
Definition stamp (A : matrix) (e : element) : matrix :=
  let i := e_from e in let j := e_to e in let g := conductance e in
  bump (bump (bump (bump A i i g) j j g) i j (- g)) j i (- g).

(** Temperature.cpp:5037-5058. *)
Definition in_range (n : nat) (e : element) : bool := Nat.ltb (e_from e) n && Nat.ltb (e_to e) n.
Definition assembled (es : list element) : matrix := fold_left stamp es (fun _ _ => 0).

(** The ambient node and the nodes of fixed temperature, Temperature.cpp:5061-5073. *)
Definition pinned (nodes : list thermal_node) (r : nat) : bool :=
  Nat.eqb r (ambient_index nodes) || t_fixed (node_at nodes r).
Definition system_matrix (nodes : list thermal_node) (es : list element) : matrix :=
  let G := assembled es in
  fun r c => if pinned nodes r then (if Nat.eqb r c then 1 else 0) else G r c.
(** Temperature.cpp:5018-5020, 5063, 5071. *)
Definition imposed (ambient : Q) (nodes : list thermal_node) (r : nat) : Q :=
  if Nat.eqb r (ambient_index nodes) then ambient else t_temperature (node_at nodes r).
Definition system_rhs (ambient : Q) (nodes : list thermal_node) : vector :=
  fun r => if pinned nodes r then imposed ambient nodes r else t_power (node_at nodes r).

(** Temperature.cpp:5076-5085: a free node with no conductance to any other. *)
Definition disconnected (nodes : list thermal_node) (A : matrix) (r : nat) : bool :=
  negb (pinned nodes r) && Qlt_bool (A r r) (1 # 1000000000000).

(** Temperature.cpp:5034-5127: one linear solve with the given resistances. *)
Definition solve_network (ambient : Q) (nodes : list thermal_node) (es : list element) : outcome (list Q) :=
  let n := List.length nodes in
  if negb (forallb (in_range n) es) then Throw "resistance references a node index out of range"
  else
    let A := stored n (system_matrix nodes es) in
    if existsb (disconnected nodes A) (seq 0 n) then Throw "disconnected node(s) found"
    else
      match matrix_solve n A (system_rhs ambient nodes) with
      | None => Throw "Thermal matrix is singular"
      | Some x => Ok x
      end.

(** ** Temperature-dependent resistances *)

(** Constants.h:20-21. *)
Definition kelvin_offset : Q := 27315 # 100.
Definition stefan_boltzmann : Q := 5670374419 # 100000000000000000.

(** ThermalResistance.cpp:146-160 [calculateRadiationCoefficient]. *)
Definition radiation_coefficient (surface ambient emissivity : Q) : Q :=
  let ts := surface + kelvin_offset in
  let ta := ambient + kelvin_offset in
  emissivity * stefan_boltzmann * (ts * ts + ta * ta) * (ts + ta).

(** ThermalResistance.cpp:163-168; [std::clamp]. *)
Definition clamp (v lo hi : Q) : Q := if Qlt_bool v lo then lo else if Qlt_bool hi v then hi else v.
Definition radiation_with_view (surface ambient emissivity view : Q) : Q :=
  radiation_coefficient surface ambient emissivity * clamp view 0 1.

Section Convection.
(** ThermalResistance.cpp:39-101 [calculateNaturalConvectionCoefficient] of
    surface temperature, ambient temperature, length and orientation; and
    ThermalResistance.cpp:103-144 [calculateForcedConvectionCoefficient] of
    velocity, length and temperature. *)
Variable natural : Q -> Q -> Q -> surface_orientation -> Q.
Variable forced : Q -> Q -> Q -> Q.

(** Temperature.cpp:4978, 4982, 4991: replaced only by a positive coefficient. *)
Definition with_resistance (e : element) (r : Q) : element :=
  mkElement (e_from e) (e_to e) r (e_kind e) (e_area e) (e_orientation e).
Definition update_resistance (e : element) (h : Q) : element :=
  if Qlt_bool 0 h then with_resistance e (Qred (1 / (h * e_area e))) else e.

(** Temperature.cpp:4970-4993, one resistance. *)
Definition recalculate_one (c : thermal_config) (height : Q) (temps : list Q) (e : element) : element :=
  if Nat.leb (List.length temps) (e_from e) then e
  else
    let surface := at_ temps (e_from e) in
    match e_kind e with
    | NATURAL_CONVECTION =>
        if Qlt_bool 0 (e_area e) then
          update_resistance e (natural surface (tc_ambient c) height (e_orientation e))
        else e
    | FORCED_CONVECTION =>
        if Qlt_bool 0 (e_area e) then update_resistance e (forced (tc_velocity c) height surface) else e
    | RADIATION =>
        if Qlt_bool 0 (e_area e) then
          let other := if Nat.ltb (e_to e) (List.length temps) then at_ temps (e_to e) else tc_ambient c in
          update_resistance e (radiation_coefficient surface other (tc_emissivity c))
        else e
    | _ => e
    end.

(** Temperature.cpp:4947-4994 [recalculateConvectionResistances]. *)
Definition recalculate (c : thermal_config) (temps : list Q) (es : list element) : outcome (list element) :=
  match tc_height c with
  | None => Throw "core processed description with a positive height is required"
  | Some height =>
      if Qle_bool height 0 then Throw "core processed description with a positive height is required"
      else Ok (map (recalculate_one c height temps) es)
  end.

(** ** The iteration *)

(** Temperature.cpp:5149-5154: half of the new solution, half of the last one. *)
Definition relaxed (nodes : list thermal_node) (fresh old : list Q) : list Q :=
  map (fun r => if pinned nodes r then at_ fresh r
                else Qred ((1 # 2) * at_ fresh r + (1 # 2) * at_ old r)) (seq 0 (List.length nodes)).

(** Temperature.cpp:5156-5162. *)
Definition settled (n : nat) (tolerance : Q) (new old : list Q) : bool :=
  forallb (fun r => negb (Qlt_bool tolerance (Qabs (at_ new r - at_ old r)))) (seq 0 n).

Record loop_state := mkLoop {
  l_converged : bool;
  l_iteration : nat;
  l_elements : list element;
  l_temperatures : list Q }.

(** Temperature.cpp:5024-5166: at most [left] more iterations. *)
Fixpoint iterate (left : nat) (c : thermal_config) (nodes : list thermal_node)
  (iteration : nat) (es : list element) (temps : list Q) : outcome loop_state :=
  match left with
  | O => Ok (mkLoop false iteration es temps)
  | S left' =>
      es' <- match iteration with O => Ok es | _ => recalculate c temps es end ;;
      fresh <- solve_network (tc_ambient c) nodes es' ;;
      let new := match iteration with O => fresh | _ => relaxed nodes fresh temps end in
      if settled (List.length nodes) (tc_tolerance c) new temps
      then Ok (mkLoop true (S iteration) es' new)
      else iterate left' c nodes (S iteration) es' new
  end.

(** ** The result *)

Definition is_core (p : part) : bool :=
  match p with
  | CORE_TOROIDAL_SEGMENT | CORE_CENTRAL_COLUMN | CORE_LATERAL_COLUMN | CORE_TOP_YOKE | CORE_BOTTOM_YOKE => true
  | _ => false
  end.
Definition is_turn (p : part) : bool := match p with TURN => true | _ => false end.

(** Temperature.cpp:5168-5170. *)
Definition with_temperature (x : thermal_node) (t : Q) : thermal_node :=
  mkThermal (t_name x) (t_part x) (t_power x) t (t_fixed x) (t_winding x) (t_surface x) (t_x x) (t_y x).
Definition set_temperatures (nodes : list thermal_node) (temps : list Q) : list thermal_node :=
  map (fun p => with_temperature (fst p) (snd p)) (combine nodes temps).

(** Temperature.h [ThermalResult]; [tr_nodes] is the state of the nodes the
    object keeps for the queries. *)
Record thermal_result := mkThermalResult {
  tr_converged : bool;
  tr_iterations : nat;
  tr_elements : list element;
  tr_maximum : Q;
  tr_temperatures : smap Q;
  tr_total_resistance : Q;
  tr_core : Q;
  tr_coil : Q;
  tr_nodes : list thermal_node }.

(** Temperature.cpp:5250-5255, 5257-5261: over the nodes that are not ambient
    and over all of them. *)
Definition hottest (ambient : Q) (nodes : list thermal_node) : Q :=
  fold_left (fun m x => if is_ambient (t_part x) then m
                        else if Qlt_bool m (t_temperature x) then t_temperature x else m) nodes ambient.
Definition named (nodes : list thermal_node) : smap Q :=
  fold_left (fun m x => if is_ambient (t_part x) then m
                        else insert (t_name x) (t_temperature x) m) nodes [].
Definition total_power (nodes : list thermal_node) : Q :=
  fold_left (fun s x => s + t_power x) nodes 0.

(** Temperature.cpp:5268-5291: mean of the nodes of a kind, ambient if none. *)
Definition mean_of (select : part -> bool) (ambient : Q) (nodes : list thermal_node) : Q :=
  let l := filter (fun x => select (t_part x)) nodes in
  match l with
  | [] => ambient
  | _ => fold_left (fun s x => s + t_temperature x) l 0 / inject_Z (Z.of_nat (List.length l))
  end.

Definition report (c : thermal_config) (nodes : list thermal_node) (s : loop_state) : thermal_result :=
  let solved := set_temperatures nodes (l_temperatures s) in
  let top := hottest (tc_ambient c) solved in
  let power := total_power solved in
  mkThermalResult (l_converged s) (l_iteration s) (l_elements s) top (named solved)
    (if Qlt_bool 0 power then (top - tc_ambient c) / power else 0)
    (mean_of is_core (tc_ambient c) solved) (mean_of is_turn (tc_ambient c) solved) solved.

(** Temperature.cpp:4996-5295 [solveThermalCircuit]. *)
Definition solve_thermal (c : thermal_config) (nodes : list thermal_node) (es : list element) : outcome thermal_result :=
  match nodes with
  | [] => Throw "Thermal network has zero nodes"
  | _ =>
      s <- iterate (tc_max_iterations c) c nodes 0 es (repeat (tc_ambient c) (List.length nodes)) ;;
      if negb (l_converged s) && tc_require c then Throw "Thermal network did not converge"
      else Ok (report c nodes s)
  end.

End Convection.

(** ** Queries on the solved network *)

(** Temperature.cpp:5297-5313 [getBulkThermalResistance]. *)
Definition bulk_resistance (c : thermal_config) (nodes : list thermal_node) : Q :=
  let power := total_power nodes in
  if Qle_bool power 0 then 0
  else
    let top := fold_left (fun m x => if Qlt_bool m (t_temperature x) then t_temperature x else m) nodes (tc_ambient c) in
    (top - tc_ambient c) / power.

(** [std::to_string] of an index is a parameter of the categories. *)
Definition category (show : nat -> string) (x : thermal_node) : option string :=
  match t_part x with
  | CORE_CENTRAL_COLUMN | CORE_LATERAL_COLUMN | CORE_TOP_YOKE | CORE_BOTTOM_YOKE | CORE_TOROIDAL_SEGMENT =>
      Some "core"%string
  | BOBBIN_CENTRAL_COLUMN | BOBBIN_TOP_YOKE | BOBBIN_BOTTOM_YOKE => Some "bobbin"%string
  | TURN => match t_winding x with
            | Some k => Some (String.append "winding " (show k))
            | None => Some "winding"%string
            end
  | INSULATION_LAYER => Some "insulation"%string
  | HEATSINK => Some "heatsink"%string
  | COLD_PLATE => Some "cold plate"%string
  | AMBIENT => None
  end.

(** Temperature.cpp:5353-5361, 5389-5394: keep the larger value of a key. *)
Definition raise_entry (m : smap Q) (key : string) (v : Q) : smap Q :=
  match find key m with
  | None => insert key v m
  | Some old => insert key (cmax old v) m
  end.

(** Temperature.cpp:5315-5364 [getTemperaturesByComponentType]. *)
Definition by_component (show : nat -> string) (nodes : list thermal_node) : smap Q :=
  fold_left (fun m x => match category show x with
                        | None => m
                        | Some key => raise_entry m key (t_temperature x)
                        end) nodes [].

(** Temperature.cpp:5376-5387: the name of a turn without the suffix of its
    half. *)
Definition ends_with (suffix s : string) : bool :=
  Nat.ltb (String.length suffix) (String.length s) &&
  String.eqb (substring (String.length s - String.length suffix) (String.length suffix) s) suffix.
Definition turn_key (name : string) : string :=
  if ends_with "_Inner" name then substring 0 (String.length name - 6) name
  else if ends_with "_Outer" name then substring 0 (String.length name - 6) name
  else name.

(** Temperature.cpp:5366-5396 [getTemperaturePerTurn]. *)
Definition per_turn (nodes : list thermal_node) : smap Q :=
  fold_left (fun m x => if is_turn (t_part x) then raise_entry m (turn_key (t_name x)) (t_temperature x) else m)
    nodes [].

(** ** Cooling *)

(** MAS::Cooling; the velocity is a list of components. *)
Record cooling := mkCooling {
  co_maximum_temperature : option Q;
  co_velocity : option (list Q);
  co_thermal_resistance : option Q;
  co_temperature : option Q;
  co_interface_resistance : option Q;
  co_interface_thickness : option Q }.
Inductive cooling_type := COOL_COLD_PLATE | COOL_FORCED | COOL_HEATSINK | COOL_NATURAL | COOL_UNKNOWN.

(** Temperature.cpp:88-111 [detectCoolingType]. *)
Definition detect_cooling (k : cooling) : cooling_type :=
  match co_maximum_temperature k with
  | Some _ => COOL_COLD_PLATE
  | None =>
      match co_velocity k with
      | Some (_ :: _) => COOL_FORCED
      | _ =>
          match co_thermal_resistance k with
          | Some _ => COOL_HEATSINK
          | None => match co_temperature k with Some _ => COOL_NATURAL | None => COOL_UNKNOWN end
          end
      end
  end.

(** Constants.h:111. *)
Definition default_interface : Q := 1 # 2.
Definition interface_resistance (specific : option Q) (area : Q) : Q :=
  match specific with
  | Some r => if Qlt_bool 0 area then r / area else default_interface
  | None => default_interface
  end.

Definition is_top (p : part) : bool := match p with CORE_TOP_YOKE | BOBBIN_TOP_YOKE => true | _ => false end.
Definition is_bottom (p : part) : bool := match p with CORE_BOTTOM_YOKE | BOBBIN_BOTTOM_YOKE => true | _ => false end.
Definition is_segment (p : part) : bool := match p with CORE_TOROIDAL_SEGMENT => true | _ => false end.

Fixpoint first_part (select : part -> bool) (k : nat) (l : list thermal_node) : option nat :=
  match l with
  | [] => None
  | x :: rest => if select (t_part x) then Some k else first_part select (S k) rest
  end.

(** Temperature.cpp:5507-5588 [applyHeatsinkCooling]: a node on the top yoke,
    one interface resistance and one resistance to ambient. *)
Definition apply_heatsink (c : thermal_config) (k : cooling) (nodes : list thermal_node) (es : list element)
  : outcome (list thermal_node * list element) :=
  match first_part is_top 0 nodes with
  | None => Throw "No top yoke node found for heatsink mounting"
  | Some top =>
      let yoke := node_at nodes top in
      let sink := mkThermal "Heatsink" HEATSINK 0 (tc_ambient c) false None 0 (t_x yoke) (t_y yoke + (2 # 100)) in
      let at_sink := List.length nodes in
      let nodes' := (nodes ++ [sink])%list in
      let interface := mkElement top at_sink (interface_resistance (co_interface_resistance k) (t_surface yoke))
                         CONDUCTION (t_surface yoke) VERTICAL in
      match co_thermal_resistance k with
      | None => Throw "bad optional access"
      | Some r =>
          Ok (nodes', (es ++ [interface] ++
                match first_ambient 0 nodes' with
                | Some a => [mkElement at_sink a r HEATSINK_CONVECTION 1 VERTICAL]
                | None => []
                end)%list)
      end
  end.

(** Temperature.cpp:5590-5690 [applyColdPlateCooling]; [proximity] is the
    threshold of 5614-5622. *)
Definition lowest (nodes : list thermal_node) : Q :=
  fold_left (fun m x => if is_bottom (t_part x) || is_segment (t_part x) then cmin m (t_y x) else m)
    nodes 1000000000.
Definition touches_plate (proximity low : Q) (x : thermal_node) : bool :=
  is_bottom (t_part x) || (is_segment (t_part x) && Qlt_bool (Qabs (t_y x - low)) proximity).
Definition plate_contacts (proximity : Q) (nodes : list thermal_node) : list nat :=
  filter (fun i => touches_plate proximity (lowest nodes) (node_at nodes i)) (seq 0 (List.length nodes)).
Definition mean_coordinate (f : thermal_node -> Q) (nodes : list thermal_node) (l : list nat) : Q :=
  fold_left (fun s i => s + f (node_at nodes i)) l 0 / inject_Z (Z.of_nat (List.length l)).
Definition apply_cold_plate (k : cooling) (proximity : Q) (nodes : list thermal_node) (es : list element)
  : outcome (list thermal_node * list element) :=
  match co_maximum_temperature k with
  | None => Throw "Cold plate cooling requested but maximum_temperature is missing"
  | Some t =>
      match plate_contacts proximity nodes with
      | [] => Throw "No surface nodes found for cold plate attachment"
      | contacts =>
          let plate := mkThermal "ColdPlate" COLD_PLATE 0 t true None 0
                         (mean_coordinate t_x nodes contacts) (mean_coordinate t_y nodes contacts - (1 # 100)) in
          let specific := match co_interface_thickness k with
                          | Some _ => co_interface_resistance k
                          | None => None
                          end in
          Ok ((nodes ++ [plate])%list,
              (es ++ map (fun i => mkElement i (List.length nodes)
                                     (interface_resistance specific (t_surface (node_at nodes i)))
                                     CONDUCTION (t_surface (node_at nodes i)) VERTICAL) contacts)%list)
      end
  end.

(** ** The conductivity table of a wire material *)

(** ThermalResistance.cpp:258-295: entries of temperature and value.  An
    interval of zero width is left out of the model: its division by zero is
    undefined here as [0], so tables are stated with increasing temperatures. *)
Fixpoint bracketed (t : Q) (table : list (Q * Q)) : option Q :=
  match table with
  | (t1, k1) :: (((t2, k2) :: _) as rest) =>
      if Qle_bool t1 t && Qle_bool t t2 then Some (k1 + (t - t1) / (t2 - t1) * (k2 - k1))
      else bracketed t rest
  | _ => None
  end.
Definition conductivity (t : Q) (table : list (Q * Q)) : outcome Q :=
  match table with
  | [] => Throw "empty thermal conductivity table"
  | [(_, k)] => Ok k
  | (t0, k0) :: _ =>
      match bracketed t table with
      | Some v => Ok v
      | None => if Qlt_bool t t0 then Ok k0 else Ok (snd (last table (0, 0)))
      end
  end.
