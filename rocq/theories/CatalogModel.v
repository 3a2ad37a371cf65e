(** Caches and catalogs: src/support/Cache.h, src/support/Cache.cpp,
    src/support/LibraryContext.h, src/support/LibraryContext.cpp and the loading
    and lookup functions of src/support/Utils.cpp. *)
From Coq Require Import List String Ascii Bool Arith NArith ZArith QArith Lia.
From Verif Require Import Base TextModel StrMap SettingsModel.
Import ListNotations.
Open Scope nat_scope.
Open Scope string_scope.

(** * Caches *)
Section CacheModel.
  Context {T : Type}.

  (** The operations of [Cache<T>], src/support/Cache.h:9-105. *)
  Inductive cache_op : Type :=
  | CLoad (ref : string) (v : T)
  | CEvict (ref : string)
  | CEvictMany (refs : list string)
  | CClear
  | CRead (ref : string)
  | CReadMany (refs : list string)
  | CReadAll
  | CReferences
  | CSize.

  Inductive reply : Type :=
  | RDone
  | RValue (v : T)
  | RValues (vs : list T)
  | RRefs (refs : list string)
  | RCount (n : nat).

  (** src/support/Cache.h:84-93 [evict(std::vector)]: present references are taken out one
      after the other, so a repeated one is found only once. *)
  Fixpoint evict_many (refs : list string) (m : smap T) : list T * smap T :=
    match refs with
    | [] => ([], m)
    | r :: rs =>
        match find r m with
        | Some v => let (vs, m') := evict_many rs (erase r m) in (v :: vs, m')
        | None => evict_many rs m
        end
    end.

  (** Cache.h:65-74 [read(std::vector)]: missing references are skipped. *)
  Fixpoint read_many (refs : list string) (m : smap T) : list T :=
    match refs with
    | [] => []
    | r :: rs => match find r m with Some v => v :: read_many rs m | None => read_many rs m end
    end.

  Definition cache_step (op : cache_op) (m : smap T) : smap T * outcome reply :=
    match op with
    | CLoad r v => (insert r v m, Ok RDone)                                  (* Cache.h:80-82 *)
    | CEvict r => match find r m with                                       (* Cache.h:95-103 *)
                  | Some v => (erase r m, Ok (RValue v))
                  | None => (m, Throw "No value found")
                  end
    | CEvictMany rs => let (vs, m') := evict_many rs m in (m', Ok (RValues vs))
    | CClear => ([], Ok RDone)                                               (* Cache.h:17-19 *)
    | CRead r => match find r m with                                        (* Cache.h:57-63 *)
                 | Some v => (m, Ok (RValue v))
                 | None => (m, Throw "No value found")
                 end
    | CReadMany rs => (m, Ok (RValues (read_many rs m)))
    | CReadAll => (m, Ok (RValues (map snd m)))                              (* Cache.h:44-51 *)
    | CReferences => (m, Ok (RRefs (keys m)))                                (* Cache.h:34-42 *)
    | CSize => (m, Ok (RCount (List.length m)))                              (* Cache.h:21-23 *)
    end.

  (** A history of operations on a new cache (a failed call leaves it as is). *)
  Definition cache_run (h : list cache_op) (m : smap T) : smap T :=
    fold_left (fun m op => fst (cache_step op m)) h m.
End CacheModel.
Arguments cache_op : clear implicits.
Arguments reply : clear implicits.

(** * Energies of the cached magnetics
    src/support/Cache.cpp:57-63 [compute_energy_cache]: the energy of each entry
    under given conditions; [energy] stands for
    [MagneticEnergy::calculate_core_maximum_magnetic_energy], taken not to throw.  A double is an
    exact number here, so not a NaN. *)
Definition energies_of {T} (energy : T -> Q) (m : smap T) : smap Q :=
  fold_left (fun e rv => insert (fst rv) (energy (snd rv)) e) m [].

(** Cache.cpp:65-70 [get_maximum_magnetic_energy_in_cache]: [std::max_element]
    keeps the first of the largest. *)
Fixpoint max_element (best : string * Q) (l : smap Q) : string * Q :=
  match l with
  | [] => best
  | x :: r => max_element (if Qlt_bool (snd best) (snd x) then x else best) r
  end.
Definition maximum_energy (e : smap Q) : outcome (string * Q) :=
  match e with
  | [] => Throw "MISSING_DATA"
  | x :: r => Ok (max_element x r)
  end.

(** Cache.cpp:72-81 [filter_magnetics_by_energy]. *)
Definition filter_by_energy (lo : Q) (hi : option Q) (e : smap Q) : list string :=
  map fst (filter (fun re => match hi with
                             | Some h => Qle_bool lo (snd re) && Qle_bool (snd re) h
                             | None => Qle_bool lo (snd re)
                             end) e).

(** * Catalog entries
    Only what the modelled functions look at, and a payload that tells entries
    apart. *)
Record shape := { sh_family : string; sh_possible : bool; sh_payload : nat }.
Record material := { ma_type : string; ma_commercial : string; ma_payload : nat }.
Record core := { co_name : option string; co_toroidal : bool; co_fits : bool;
                 co_shape : string + shape; co_material : string + material; co_payload : nat }.
Record wire := { wi_type : string; wi_standard : option string; wi_payload : nat }.
Definition other := nat.

(** The process-wide catalogs (src/support/Utils.h). *)
Record catalogs := {
  cores : list core;
  materials : smap material;
  shapes : smap shape;
  families : list string;
  wires : smap wire;
  bobbins : smap other;
  insulations : smap other;
  wire_materials : smap other
}.

(** The parsed rows of the embedded data files.  A parse error of a file is not
    modelled here (see C41). *)
Record shape_row := { row_name : string; row_aliases : list string; row_shape : shape }.
Record embedded := {
  file_cores : list core;
  file_cores_stock : option (list core);
  file_materials : list (string * material);
  file_shapes : list shape_row;
  file_wires : list (string * wire);
  file_bobbins : list (string * other);
  file_insulations : list (string * other);
  file_wire_materials : list (string * other)
}.

(** One thread's view of the process. *)
Record world := {
  frozen : bool;
  add_internal : bool;                          (* [_addInternalData], Utils.cpp:37 *)
  cats : catalogs;
  magnetics : smap nat;                         (* the shared [magneticsCache] *)
  energies : smap Q;
  settings : store;
  wires_memo : nat * list (option string * option string * list wire)
                                                (* Utils.cpp:1042-1043 *)
}.

Definition set_cats (c : catalogs) (w : world) : world :=
  {| frozen := frozen w; add_internal := add_internal w; cats := c; magnetics := magnetics w;
     energies := energies w; settings := settings w; wires_memo := wires_memo w |}.
Definition set_frozen (b : bool) (w : world) : world :=
  {| frozen := b; add_internal := add_internal w; cats := cats w; magnetics := magnetics w;
     energies := energies w; settings := settings w; wires_memo := wires_memo w |}.
Definition set_internal (b : bool) (w : world) : world :=
  {| frozen := frozen w; add_internal := b; cats := cats w; magnetics := magnetics w;
     energies := energies w; settings := settings w; wires_memo := wires_memo w |}.
Definition set_magnetics (m : smap nat) (e : smap Q) (w : world) : world :=
  {| frozen := frozen w; add_internal := add_internal w; cats := cats w; magnetics := m;
     energies := e; settings := settings w; wires_memo := wires_memo w |}.
Definition set_settings (s : store) (w : world) : world :=
  {| frozen := frozen w; add_internal := add_internal w; cats := cats w; magnetics := magnetics w;
     energies := energies w; settings := s; wires_memo := wires_memo w |}.
Definition set_memo (n : nat * list (option string * option string * list wire)) (w : world) : world :=
  {| frozen := frozen w; add_internal := add_internal w; cats := cats w; magnetics := magnetics w;
     energies := energies w; settings := settings w; wires_memo := n |}.

Definition with_cores (l : list core) (c : catalogs) : catalogs :=
  {| cores := l; materials := materials c; shapes := shapes c; families := families c;
     wires := wires c; bobbins := bobbins c; insulations := insulations c;
     wire_materials := wire_materials c |}.
Definition with_materials (m : smap material) (c : catalogs) : catalogs :=
  {| cores := cores c; materials := m; shapes := shapes c; families := families c;
     wires := wires c; bobbins := bobbins c; insulations := insulations c;
     wire_materials := wire_materials c |}.
Definition with_shapes (m : smap shape) (f : list string) (c : catalogs) : catalogs :=
  {| cores := cores c; materials := materials c; shapes := m; families := f;
     wires := wires c; bobbins := bobbins c; insulations := insulations c;
     wire_materials := wire_materials c |}.
Definition with_wires (m : smap wire) (c : catalogs) : catalogs :=
  {| cores := cores c; materials := materials c; shapes := shapes c; families := families c;
     wires := m; bobbins := bobbins c; insulations := insulations c;
     wire_materials := wire_materials c |}.
Definition with_bobbins (m : smap other) (c : catalogs) : catalogs :=
  {| cores := cores c; materials := materials c; shapes := shapes c; families := families c;
     wires := wires c; bobbins := m; insulations := insulations c;
     wire_materials := wire_materials c |}.
Definition with_insulations (m : smap other) (c : catalogs) : catalogs :=
  {| cores := cores c; materials := materials c; shapes := shapes c; families := families c;
     wires := wires c; bobbins := bobbins c; insulations := m;
     wire_materials := wire_materials c |}.
Definition with_wire_materials (m : smap other) (c : catalogs) : catalogs :=
  {| cores := cores c; materials := materials c; shapes := shapes c; families := families c;
     wires := wires c; bobbins := bobbins c; insulations := insulations c;
     wire_materials := m |}.
Definition no_catalogs : catalogs :=
  {| cores := []; materials := []; shapes := []; families := []; wires := []; bobbins := [];
     insulations := []; wire_materials := [] |}.

(** A call: the new state, also when it throws. *)
Definition call (A : Type) := world -> world * outcome A.
Definition ret {A} (a : A) : call A := fun w => (w, Ok a).
Definition fail {A} (why : string) : call A := fun w => (w, Throw why).
Definition seq {A B} (m : call A) (f : A -> call B) : call B :=
  fun w => match m w with
           | (w', Ok a) => f a w'
           | (w', Throw e) => (w', Throw e)
           | (w', UB e) => (w', UB e)
           | (w', OutOfFuel) => (w', OutOfFuel)
           end.
Definition reading {A} (f : world -> A) : call A := fun w => (w, Ok (f w)).
Definition change (f : world -> world) : call unit := fun w => (f w, Ok tt).
Definition change_cats (f : catalogs -> catalogs) : call unit := change (fun w => set_cats (f (cats w)) w).

(** src/support/Utils.cpp:124-132 [throw_if_databases_frozen]. *)
Definition guard : call unit :=
  fun w => if frozen w then (w, Throw "frozen") else (w, Ok tt).
Definition unless_internal (m : call unit) : call unit :=
  fun w => if add_internal w then m w else (w, Ok tt).

(** * Loading *)
Section Loading.
  Context (files : embedded).
  (** [CorePiece::is_family_supported]. *)
  Context (supported : string -> bool).

  Definition kept (toroidal : bool) (s : store) : bool :=
    (flag "_useToroidalCores" s && toroidal) || (flag "_useConcentricCores" s && negb toroidal).

  (** Utils.cpp:257-301: the row is appended first and then rejected, by an
      exception, when its gapping does not fit its columns. *)
  Fixpoint add_cores (rows : list core) : call unit :=
    match rows with
    | [] => ret tt
    | r :: rest =>
        seq (reading (fun w => kept (co_toroidal r) (settings w))) (fun keep =>
        if keep then
          seq (change_cats (fun c => with_cores (app (cores c) [r]) c)) (fun _ =>
          if co_fits r then add_cores rest else fail "INVALID_CORE_DATA")
        else add_cores rest)
    end.
  (** Utils.cpp:240-302 [load_cores]; [Some rows] is a file given by the caller. *)
  Definition load_cores (file : option (list core)) : call unit :=
    seq guard (fun _ =>
    seq (reading (fun w => flag "_useOnlyCoresInStock" (settings w))) (fun stock =>
    add_cores (match file with
               | Some rows => rows
               | None => match file_cores_stock files with
                         | Some rows => if stock then rows else file_cores files
                         | None => file_cores files
                         end
               end))).

  (** Utils.cpp:327-337 [load_core_materials], 524-570 for the other maps:
      the rows are stored one by one under their names. *)
  Definition load_materials (file : option (list (string * material))) : call unit :=
    seq guard (fun _ => unless_internal (change_cats (fun c =>
      with_materials (insert_all (match file with Some r => r | None => file_materials files end)
                                 (materials c)) c))).
  Definition load_wires (file : option (list (string * wire))) : call unit :=
    seq guard (fun _ => unless_internal (change_cats (fun c =>
      with_wires (insert_all (match file with Some r => r | None => file_wires files end) (wires c)) c))).
  Definition load_bobbins : call unit :=
    seq guard (fun _ => unless_internal (change_cats (fun c =>
      with_bobbins (insert_all (file_bobbins files) (bobbins c)) c))).
  Definition load_insulations : call unit :=
    seq guard (fun _ => unless_internal (change_cats (fun c =>
      with_insulations (insert_all (file_insulations files) (insulations c)) c))).
  Definition load_wire_materials : call unit :=
    seq guard (fun _ => unless_internal (change_cats (fun c =>
      with_wire_materials (insert_all (file_wire_materials files) (wire_materials c)) c))).

  (** Utils.cpp:484-506: one row of the shapes file.  Impossible geometry is
      refused before anything is stored, unsupported families are left out. *)
  Definition add_family (f : string) (l : list string) : list string :=
    if existsb (String.eqb f) l then l else app l [f].
  Fixpoint add_shapes (aliases : bool) (rows : list shape_row) : call unit :=
    match rows with
    | [] => ret tt
    | r :: rest =>
        let s := row_shape r in
        if negb (sh_possible s) then fail "INVALID_CORE_DATA"
        else if negb (supported (sh_family s)) then add_shapes aliases rest
        else
          seq (reading (fun w => kept (String.eqb (sh_family s) "T") (settings w))) (fun keep =>
          if keep then
            seq (change_cats (fun c =>
              let names := row_name r :: (if aliases then row_aliases r else []) in
              with_shapes (insert_all (map (fun n => (n, s)) names) (shapes c))
                          (add_family (sh_family s) (families c)) c))
                (fun _ => add_shapes aliases rest)
          else add_shapes aliases rest)
    end.
  (** Utils.cpp:468-522 [load_core_shapes]. *)
  Definition load_shapes (aliases : bool) (file : option (list shape_row)) : call unit :=
    seq guard (fun _ => unless_internal
      (add_shapes aliases (match file with Some r => r | None => file_shapes files end))).

  (** [if (xDatabase.empty()) load_x();] *)
  Definition when_empty {A} (get : catalogs -> list A) (m : call unit) : call unit :=
    fun w => match get (cats w) with [] => m w | _ => (w, Ok tt) end.

  (** Utils.cpp:134-157 [load_all_databases]. *)
  Definition load_all : call unit :=
    seq guard (fun _ =>
    seq (when_empty cores (load_cores None)) (fun _ =>
    seq (when_empty materials (load_materials None)) (fun _ =>
    seq (when_empty shapes (load_shapes true None)) (fun _ =>
    seq (when_empty wires (load_wires None)) (fun _ =>
    seq (when_empty bobbins load_bobbins) (fun _ =>
    seq (when_empty insulations load_insulations) (fun _ =>
    when_empty wire_materials load_wire_materials))))))).

  (** Utils.cpp:304-325 [clear_loaded_cores], [clear_loaded_core_shapes],
      [clear_databases]. *)
  Definition clear_cores : call unit := seq guard (fun _ => change_cats (with_cores [])).
  Definition clear_shapes : call unit := seq guard (fun _ => change_cats (with_shapes [] [])).
  Definition clear_all : call unit := seq guard (fun _ => change_cats (fun _ => no_catalogs)).

  (** Utils.cpp:572-671 [load_databases]: entries given by the caller, over the
      embedded ones when [internal].  The families list is not updated. *)
  Record user_data := {
    data_materials : list (string * material);
    data_shapes : list (string * shape);
    data_wires : list (string * wire);
    data_bobbins : list (string * other);
    data_insulations : list (string * other);
    data_wire_materials : list (string * other)
  }.
  Definition load_databases (d : user_data) (internal : bool) : call unit :=
    seq guard (fun _ =>
    seq (change (set_internal internal)) (fun _ =>
    seq (if internal then
      seq (when_empty materials (load_materials None)) (fun _ =>
      seq (when_empty shapes (load_shapes true None)) (fun _ =>
      seq (when_empty wires (load_wires None)) (fun _ =>
      seq (when_empty bobbins load_bobbins) (fun _ =>
      seq (when_empty insulations load_insulations) (fun _ =>
      when_empty wire_materials load_wire_materials)))))
      else ret tt) (fun _ =>
    change_cats (fun c =>
      {| cores := cores c;
         materials := insert_all (data_materials d) (materials c);
         shapes := insert_all (data_shapes d) (shapes c);
         families := families c;
         wires := insert_all (data_wires d) (wires c);
         bobbins := insert_all (data_bobbins d) (bobbins c);
         insulations := insert_all (data_insulations d) (insulations c);
         wire_materials := insert_all (data_wire_materials d) (wire_materials c) |})))).

  (** Utils.cpp:339-406 [load_advanced_core_materials]: rewrites the entries that
      are present; [f] is the rewriting of one of them. *)
  Definition load_advanced_materials (rows : list (string * (material -> material))) : call unit :=
    seq guard (fun _ => change_cats (fun c =>
      with_materials (fold_left (fun m row => match find (fst row) m with
                                              | Some v => insert (fst row) (snd row v) m
                                              | None => m
                                              end) rows (materials c)) c)).

  (** * Looking up *)
  (** Utils.cpp:673-697 [find_core_by_name]: the first with the name; nameless
      records are skipped. *)
  Definition has_name (n : string) (c : core) : bool :=
    match co_name c with Some m => String.eqb m n | None => false end.
  Definition find_core (n : string) : call core :=
    seq (when_empty cores (load_cores None)) (fun _ =>
    fun w => match List.find (has_name n) (cores (cats w)) with
             | Some c => (w, Ok c)
             | None => (w, Throw "Core not found")
             end).
  (** Utils.cpp:699-725 [find_core_material_by_name]. *)
  Definition find_material (n : string) : call material :=
    let n := normalize_micro_sign n in
    seq (when_empty materials (load_materials None)) (fun _ =>
    fun w => match find n (materials (cats w)) with
             | Some v => (w, Ok v)
             | None =>
                 match List.find (fun kv => String.eqb (ma_commercial (snd kv)) n) (materials (cats w)) with
                 | Some kv => (w, Ok (snd kv))
                 | None => (w, Throw "CoreMaterialNotFound")
                 end
             end).
  (** Utils.cpp:733-760 [try_find_core_shape_by_name]. *)
  Fixpoint without_spaces (s : string) : string :=
    match s with
    | EmptyString => EmptyString
    | String c r => if Ascii.eqb c " "%char then without_spaces r else String c (without_spaces r)
    end.
  Definition try_find_shape (n : string) : call (option shape) :=
    seq (when_empty shapes (load_shapes true None)) (fun _ =>
    reading (fun w =>
      match find n (shapes (cats w)) with
      | Some v => Some v
      | None => option_map snd (List.find (fun kv => String.eqb n (without_spaces (fst kv))) (shapes (cats w)))
      end)).
  Definition find_shape (n : string) : call shape :=
    seq (try_find_shape n) (fun r => match r with Some v => ret v | None => fail "CoreShapeNotFound" end).
  (** Utils.cpp:1123-1133 [find_wire_by_name], 1234-1272 [find_bobbin_by_name],
      [find_insulation_material_by_name], [find_wire_material_by_name]. *)
  Definition find_in {T} (get : catalogs -> smap T) (n : string) (missing : call T) : call T :=
    fun w => match find n (get (cats w)) with Some v => (w, Ok v) | None => missing w end.
  Definition find_wire (n : string) : call wire :=
    seq (when_empty wires (load_wires None)) (fun _ => find_in wires n (fail "WireNotFound")).
  Definition placeholder_bobbin : other := 0.
  Definition find_bobbin (n : string) : call other :=
    seq (when_empty bobbins load_bobbins) (fun _ => find_in bobbins n
      (if existsb (String.eqb n) ["basic"; "Basic"; "Dummy"; "None"]
       then ret placeholder_bobbin else fail "Bobbin not found")).
  Definition find_insulation (n : string) : call other :=
    seq (when_empty insulations load_insulations) (fun _ =>
      find_in insulations n (fail "Insulation material not found")).
  Definition find_wire_material (n : string) : call other :=
    seq (when_empty wire_materials load_wire_materials) (fun _ =>
      find_in wire_materials n (fail "Wire material not found")).

  (** Utils.cpp:1028-1076 [get_wires]: the matching wires, memoised per thread by
      type and standard; the memo is dropped when the number of wires changes. *)
  Definition opt_eqb (a b : option string) : bool :=
    match a, b with
    | Some x, Some y => String.eqb x y
    | None, None => true
    | _, _ => false
    end.
  Definition wire_matches (type standard : option string) (x : wire) : bool :=
    match standard with
    | Some s => match wi_standard x with Some s' => String.eqb s' s | None => false end
    | None => true
    end
    && match type with Some t => String.eqb (wi_type x) t | None => true end.
  Definition memo_find (type standard : option string)
      (l : list (option string * option string * list wire)) : option (list wire) :=
    option_map snd (List.find (fun e => opt_eqb (fst (fst e)) type && opt_eqb (snd (fst e)) standard) l).
  Definition get_wires (type standard : option string) : call (list wire) :=
    seq (when_empty wires (load_wires None)) (fun _ =>
    fun w =>
      let db := wires (cats w) in
      let memo := if Nat.eqb (fst (wires_memo w)) (List.length db) then wires_memo w
                  else (List.length db, []) in
      match memo_find type standard (snd memo) with
      | Some l => (set_memo memo w, Ok l)
      | None =>
          let l := filter (wire_matches type standard) (map snd db) in
          (set_memo (fst memo, (type, standard, l) :: snd memo) w, Ok l)
      end).

  (** * The magnetics cache
      src/support/Cache.h:118-141, src/support/Cache.cpp.  [load], [clear] and
      [autocomplete_magnetics] test the freeze flag; [evict] is inherited from
      [Cache] as it is. *)
  Definition mag_load (r : string) (v : nat) : call unit :=
    seq guard (fun _ => change (fun w => set_magnetics (insert r v (magnetics w)) (energies w) w)).
  Definition mag_clear : call unit :=
    seq guard (fun _ => change (set_magnetics [] [])).
  Definition mag_autocomplete (f : nat -> nat) : call unit :=
    seq guard (fun _ => change (fun w =>
      set_magnetics (fold_left (fun m rv => insert (fst rv) (f (snd rv)) m) (magnetics w) (magnetics w))
                    (energies w) w)).
  Definition mag_evict (r : string) : call nat :=
    fun w => match find r (magnetics w) with
             | Some v => (set_magnetics (erase r (magnetics w)) (energies w) w, Ok v)
             | None => (w, Throw "No value found")
             end.
  Definition mag_evict_many (rs : list string) : call (list nat) :=
    fun w => let (vs, m) := evict_many rs (magnetics w) in (set_magnetics m (energies w) w, Ok vs).
  Definition mag_read (r : string) : call nat :=
    fun w => match find r (magnetics w) with Some v => (w, Ok v) | None => (w, Throw "No value found") end.
  Definition mag_compute_energies (energy : nat -> Q) : call unit :=
    change (fun w => set_magnetics (magnetics w) (energies_of energy (magnetics w)) w).

  (** * Settings
      src/support/Settings.cpp:65-213 [reset]: the members first, then the
      catalogs, which can throw. *)
  Definition settings_reset : call unit :=
    seq (reading (fun w => reset_drops_catalogs (settings w))) (fun drop =>
    seq (change (fun w => set_settings (reset_members (settings w)) w)) (fun _ =>
    if drop then seq clear_cores (fun _ => clear_shapes) else ret tt)).
  Definition settings_set (n : string) (v : value) : call unit :=
    fun w => match set n v (settings w) with
             | Ok s => (set_settings s w, Ok tt)
             | Throw e => (w, Throw e)
             | UB e => (w, UB e)
             | OutOfFuel => (w, OutOfFuel)
             end.
End Loading.

(** * Library contexts
    src/support/LibraryContext.h:32-105.  A kind that was not loaded is [None]. *)
Inductive mode := Merge | Replace.
Record library := {
  lib_mode : mode;
  lib_cores : option (list core);
  lib_materials : option (smap material);
  lib_shapes : option (smap shape);
  lib_wires : option (smap wire);
  lib_bobbins : option (smap other);
  lib_insulations : option (smap other);
  lib_wire_materials : option (smap other)
}.
Definition absent {A} (o : option A) : bool := match o with None => true | _ => false end.
(** LibraryContext.cpp:200-203 [empty]. *)
Definition lib_empty (l : library) : bool :=
  absent (lib_cores l) && absent (lib_materials l) && absent (lib_shapes l) && absent (lib_wires l)
  && absent (lib_bobbins l) && absent (lib_insulations l) && absent (lib_wire_materials l).

Definition provided {T} (o : option (list T)) : list T := match o with Some l => l | None => [] end.
Definition is_replace (m : mode) : bool := match m with Replace => true | Merge => false end.

(** LibraryContext.cpp:210-220 [rebuildShapeFamilies]. *)
Definition families_of (m : smap shape) : list string :=
  fold_left (fun l kv => add_family (sh_family (snd kv)) l) m [].

(** LibraryContext.cpp:255-296: what the constructor of a scope makes of the
    catalogs. *)
Definition applied (l : library) (c : catalogs) : catalogs :=
  let base := if is_replace (lib_mode l) then
                {| cores := []; materials := []; shapes := []; families := families c; wires := [];
                   bobbins := []; insulations := []; wire_materials := [] |}
              else c in
  let s := insert_all (provided (lib_shapes l)) (shapes base) in
  {| cores := app (cores base) (provided (lib_cores l));
     materials := insert_all (provided (lib_materials l)) (materials base);
     shapes := s;
     families := if is_replace (lib_mode l) || negb (absent (lib_shapes l))
                 then families_of s else families base;
     wires := insert_all (provided (lib_wires l)) (wires base);
     bobbins := insert_all (provided (lib_bobbins l)) (bobbins base);
     insulations := insert_all (provided (lib_insulations l)) (insulations base);
     wire_materials := insert_all (provided (lib_wire_materials l)) (wire_materials base) |}.

(** A scope object: [None] when inactive, otherwise the catalogs it saved
    (LibraryContext.h:74-82). *)
Definition scope := option catalogs.

(** The program: one thread's view, the scope objects alive (by variable name)
    and [activeScopeCount]. *)
Record process := { here : world; scopes : list (string * scope); active_count : Z }.
Definition scope_of (x : string) (p : process) : scope :=
  match find x (scopes p) with Some s => s | None => None end.
Definition put_scope (x : string) (s : scope) (l : list (string * scope)) : list (string * scope) :=
  (x, s) :: filter (fun e => negb (String.eqb (fst e) x)) l.
Definition drop_scope (x : string) (l : list (string * scope)) : list (string * scope) :=
  filter (fun e => negb (String.eqb (fst e) x)) l.

(** LibraryContext.cpp:224-297, [Scope x(ctx)]; a null context is [None]. *)
Definition scope_begin (x : string) (ctx : option library) (p : process) : process * outcome unit :=
  let inert := ({| here := here p; scopes := put_scope x None (scopes p); active_count := active_count p |}, Ok tt) in
  match ctx with
  | None => inert
  | Some l =>
      if lib_empty l then inert
      else if frozen (here p) then (p, Throw "frozen")
      else ({| here := set_cats (applied l (cats (here p))) (here p);
               scopes := put_scope x (Some (cats (here p))) (scopes p);
               active_count := (active_count p + 1)%Z |}, Ok tt)
  end.
(** LibraryContext.cpp:299-310, the destructor. *)
Definition restore (s : scope) (p : process) : process :=
  match s with
  | None => p
  | Some saved =>
      {| here := set_cats saved (here p); scopes := scopes p; active_count := (active_count p - 1)%Z |}
  end.
Definition scope_end (x : string) (p : process) : process :=
  let p' := restore (scope_of x p) p in
  {| here := here p'; scopes := drop_scope x (scopes p'); active_count := active_count p' |}.
(** LibraryContext.cpp:312-323 [Scope y(std::move(x))]. *)
Definition scope_move (x y : string) (p : process) : process :=
  {| here := here p;
     scopes := put_scope x None (put_scope y (scope_of x p) (scopes p));
     active_count := active_count p |}.
(** LibraryContext.cpp:325-331 [y = std::move(x)]. *)
Definition scope_assign (x y : string) (p : process) : process :=
  if String.eqb x y then p
  else let p' := restore (scope_of y p) p in
       {| here := here p';
          scopes := put_scope x None (put_scope y (scope_of x p) (scopes p'));
          active_count := active_count p' |}.
(** LibraryContext.cpp:16-18 [anyActive]. *)
Definition any_active (p : process) : bool := (0 <? active_count p)%Z.

(** * Type filters
    src/support/LibraryContext.h:110-120 and LibraryContext.cpp:333-443. *)
Record type_filter := { allowed : list string; blocked : list string }.
Definition no_filter (f : type_filter) : bool :=
  match allowed f, blocked f with [], [] => true | _, _ => false end.
Definition listed (v : string) (l : list string) : bool := existsb (String.eqb v) l.
(** LibraryContext.h:115-119 [accepts]. *)
Definition accepts (f : type_filter) (v : string) : bool :=
  match allowed f with [] => true | _ => listed v (allowed f) end && negb (listed v (blocked f)).

(** [std::toupper] of the "C" locale. *)
Definition upper_char (c : ascii) : ascii :=
  let n := nat_of_ascii c in if ((97 <=? n) && (n <=? 122))%nat then ascii_of_nat (n - 32) else c.
Fixpoint upper (s : string) : string :=
  match s with EmptyString => EmptyString | String c r => String (upper_char c) (upper r) end.
Definition listed_upper (v : string) (l : list string) : bool :=
  existsb (fun x => String.eqb (upper x) (upper v)) l.
(** LibraryContext.cpp:343-359 [acceptsEnum], the enumerator given by its name. *)
Definition accepts_enum (f : type_filter) (enumerator : string) : bool :=
  if no_filter f then true
  else if match allowed f with [] => false | _ => negb (listed_upper enumerator (allowed f)) end then false
  else if match blocked f with [] => false | _ => listed_upper enumerator (blocked f) end then false
  else true.

Record constraints := { by_family : type_filter; by_material : type_filter; by_wire : type_filter }.
(** LibraryContext.cpp:375-430 [filterCoresByConstraints]. *)
Definition shape_ok (k : constraints) (db : catalogs) (x : core) : bool :=
  no_filter (by_family k)
  || match co_shape x with
     | inr s => accepts_enum (by_family k) (sh_family s)
     | inl n => match find n (shapes db) with
                | Some s => accepts_enum (by_family k) (sh_family s)
                | None => false
                end
     end.
Definition material_ok (k : constraints) (db : catalogs) (x : core) : bool :=
  no_filter (by_material k)
  || match co_material x with
     | inr m => accepts_enum (by_material k) (ma_type m)
     | inl n => match find n (materials db) with
                | Some m => accepts_enum (by_material k) (ma_type m)
                | None => false
                end
     end.
Definition filter_cores (k : constraints) (db : catalogs) (l : list core) : list core :=
  if no_filter (by_family k) && no_filter (by_material k) then l
  else filter (fun x => shape_ok k db x && material_ok k db x) l.
(** LibraryContext.cpp:432-443 [filterWiresByConstraints]. *)
Definition filter_wires (k : constraints) (m : smap wire) : smap wire :=
  if no_filter (by_wire k) then m
  else filter (fun kv => accepts_enum (by_wire k) (wi_type (snd kv))) m.

(** * Calls of the API
    The calls of this file as data, so that histories can be quantified over. *)
Inductive api : Type :=
| AFreeze (b : bool)                            (* Utils.cpp:120-122 [set_databases_frozen] *)
| ALoadAll
| ALoadCores (f : option (list core))
| ALoadMaterials (f : option (list (string * material)))
| ALoadShapes (aliases : bool) (f : option (list shape_row))
| ALoadWires (f : option (list (string * wire)))
| ALoadBobbins | ALoadInsulations | ALoadWireMaterials
| ALoadDatabases (d : user_data) (internal : bool)
| ALoadAdvanced (rows : list (string * (material -> material)))
| AClearCores | AClearShapes | AClearAll
| AFindCore (n : string) | AFindMaterial (n : string) | ATryFindShape (n : string)
| AFindShape (n : string) | AFindWire (n : string) | AFindBobbin (n : string)
| AFindInsulation (n : string) | AFindWireMaterial (n : string)
| AGetWires (type standard : option string)
| AMagLoad (r : string) (v : nat) | AMagClear | AMagAutocomplete (f : nat -> nat)
| AMagEvict (r : string) | AMagEvictMany (rs : list string) | AMagRead (r : string)
| ACompute (energy : nat -> Q)
| AReset | ASet (n : string) (v : value)
| AScopeBegin (x : string) (ctx : option library)
| AScopeEnd (x : string)
| AScopeMove (x y : string)
| AScopeAssign (x y : string).

Section Running.
  Context (files : embedded) (supported : string -> bool).
  Definition plain {A} (m : call A) : call unit := seq m (fun _ => ret tt).
  (** The calls that do not involve scopes. *)
  Definition act (op : api) : call unit :=
    match op with
    | AFreeze b => change (set_frozen b)
    | ALoadAll => load_all files supported
    | ALoadCores f => load_cores files f
    | ALoadMaterials f => load_materials files f
    | ALoadShapes a f => load_shapes files supported a f
    | ALoadWires f => load_wires files f
    | ALoadBobbins => load_bobbins files
    | ALoadInsulations => load_insulations files
    | ALoadWireMaterials => load_wire_materials files
    | ALoadDatabases d i => load_databases files supported d i
    | ALoadAdvanced rows => load_advanced_materials rows
    | AClearCores => clear_cores
    | AClearShapes => clear_shapes
    | AClearAll => clear_all
    | AFindCore n => plain (find_core files n)
    | AFindMaterial n => plain (find_material files n)
    | ATryFindShape n => plain (try_find_shape files supported n)
    | AFindShape n => plain (find_shape files supported n)
    | AFindWire n => plain (find_wire files n)
    | AFindBobbin n => plain (find_bobbin files n)
    | AFindInsulation n => plain (find_insulation files n)
    | AFindWireMaterial n => plain (find_wire_material files n)
    | AGetWires t s => plain (get_wires files t s)
    | AMagLoad r v => mag_load r v
    | AMagClear => mag_clear
    | AMagAutocomplete f => mag_autocomplete f
    | AMagEvict r => plain (mag_evict r)
    | AMagEvictMany rs => plain (mag_evict_many rs)
    | AMagRead r => plain (mag_read r)
    | ACompute energy => mag_compute_energies energy
    | AReset => settings_reset
    | ASet n v => settings_set n v
    | AScopeBegin _ _ | AScopeEnd _ | AScopeMove _ _ | AScopeAssign _ _ => ret tt
    end.
  Definition run (op : api) (p : process) : process * outcome unit :=
    match op with
    | AScopeBegin x ctx => scope_begin x ctx p
    | AScopeEnd x => (scope_end x p, Ok tt)
    | AScopeMove x y => (scope_move x y p, Ok tt)
    | AScopeAssign x y => (scope_assign x y p, Ok tt)
    | _ => let (w, o) := act op (here p) in
           ({| here := w; scopes := scopes p; active_count := active_count p |}, o)
    end.
  Definition after (h : list api) (p : process) : process :=
    fold_left (fun p op => fst (run op p)) h p.
End Running.
