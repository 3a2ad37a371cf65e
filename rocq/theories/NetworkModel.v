(** Model of the per-column reluctance network:
    src/physical_models/ReluctanceNetwork.cpp and the functions of
    src/constructive_models/Core.cpp it calls.  Reals are exact rationals; where
    the C++ divides by a reluctance that is zero (giving an infinity) the model
    has the 0 of Coq's division, a case every theorem excludes. *)
From Coq Require Import ZArith QArith Qabs List String Bool.
From Verif Require Import Base.
Import ListNotations.
Open Scope Q_scope.
Open Scope outcome_scope.

Definition matrix := nat -> nat -> Q.
Definition vector := nat -> Q.

(** ** The solver *)

(** ReluctanceNetwork.cpp:268-273: the row with the largest entry in the pivot
    column, the first of them. *)
Definition best_row (n p : nat) (A : matrix) : nat :=
  fold_left (fun best row => if Qlt_bool (Qabs (A best p)) (Qabs (A row p)) then row else best)
    (seq (S p) (n - S p)) p.

(** ReluctanceNetwork.cpp:274-275 [std::swap] of two rows. *)
Definition swap {X : Type} (i j : nat) (f : nat -> X) : nat -> X :=
  fun k => if Nat.eqb k i then f j else if Nat.eqb k j then f i else f k.

(** ReluctanceNetwork.cpp:279-285: subtract the pivot row from the rows below. *)
Definition eliminate_matrix (p : nat) (A : matrix) : matrix :=
  fun r c => if Nat.ltb p r && Nat.leb p c then A r c - A r p / A p p * A p c else A r c.
Definition eliminate_vector (p : nat) (A : matrix) (b : vector) : vector :=
  fun r => if Nat.ltb p r then b r - A r p / A p p * b p else b r.

(** ReluctanceNetwork.cpp:267-286: the remaining [count] pivots, from [p] on. *)
Fixpoint eliminate (count p n : nat) (A : matrix) (b : vector) : outcome (matrix * vector) :=
  match count with
  | O => Ok (A, b)
  | S count' =>
      let best := best_row n p A in
      let A1 := swap p best A in
      let b1 := swap p best b in
      if Qeq_bool (A1 p p) 0 then Throw "Singular reluctance network"
      else eliminate count' (S p) n (eliminate_matrix p A1) (eliminate_vector p A1 b1)
  end.

Definition update (x : vector) (k : nat) (v : Q) : vector :=
  fun j => if Nat.eqb j k then v else x j.

(** ReluctanceNetwork.cpp:287-294: back substitution, the first [count] rows
    still to do. *)
Fixpoint back_substitute (count n : nat) (A : matrix) (b x : vector) : vector :=
  match count with
  | O => x
  | S row =>
      let accumulated := fold_left (fun acc c => acc - A row c * x c) (seq (S row) (n - S row)) (b row) in
      back_substitute row n A b (update x row (accumulated / A row row))
  end.

Definition solve (n : nat) (A : matrix) (b : vector) : outcome vector :=
  e <- eliminate n 0 n A b ;;
  Ok (back_substitute n n (fst e) (snd e) (fun _ => 0)).

(** ** The mesh of the leg chain *)

(** ReluctanceNetwork.cpp:251-263: the system of the window loops. *)
Definition mesh_matrix (loops : nat) (leg yoke : vector) : matrix :=
  fun k c =>
    if Nat.eqb c k then leg k + leg (S k) + yoke k
    else if Nat.eqb (S c) k then - leg k
    else if Nat.eqb c (S k) && Nat.ltb (S k) loops then - leg (S k)
    else 0.
Definition mesh_rhs (mmf : vector) : vector := fun k => mmf k - mmf (S k).

(** ReluctanceNetwork.cpp:296-307: the flux of a leg. *)
Definition leg_flux (loops : nat) (phi : vector) (pos : nat) : Q :=
  (if Nat.ltb pos loops then phi pos else 0) - match pos with O => 0 | S p => phi p end.

Fixpoint set_nth (l : list Q) (k : nat) (v : Q) : list Q :=
  match l, k with
  | [], _ => []
  | _ :: t, O => v :: t
  | h :: t, S k' => h :: set_nth t k' v
  end.

Definition at_ (l : list Q) (k : nat) : Q := nth k l 0.

(** The network, ReluctanceNetwork.h:33-43. *)
Record network := mk_network {
  n_columns : list Q;
  n_yokes : list Q;
  n_order : list nat;
  n_main : nat }.

(** ReluctanceNetwork.cpp:233-308
    [solve_column_fluxes_for_magnetomotive_forces]. *)
Definition column_fluxes (N : network) (mmf : list Q) : outcome (list Q) :=
  match List.length (n_columns N) with
  | O => UB "number of loops below zero"
  | S O => Ok [at_ mmf 0 / at_ (n_columns N) 0]
  | S loops =>
      let leg := fun pos => at_ (n_columns N) (nth pos (n_order N) O) in
      let force := fun pos => at_ mmf (nth pos (n_order N) O) in
      phi <- solve loops (mesh_matrix loops leg (at_ (n_yokes N))) (mesh_rhs force) ;;
      Ok (fold_left (fun l pos => set_nth l (nth pos (n_order N) O) (leg_flux loops phi pos))
            (seq 0 (S loops)) (repeat 0 (S loops)))
  end.

(** ** The constructor *)

(** The columns of the processed core; of the coordinates, x and z are read. *)
Record column := mk_column {
  c_x : Q; c_z : Q; c_height : Q; c_area : Q; c_depth : Q; c_central : bool }.

(** [k_window_height]: the height of the first winding window, which need not
    have one; [k_windows]: the column of each winding window, if it names one;
    [k_gaps]: the x and z coordinates of the gaps, which are taken as given. *)
Record core := mk_core {
  k_columns : list column;
  k_height : Q;
  k_window_height : option Q;
  k_windows : list (option Z);
  k_gaps : list (Q * Q) }.

(** Core.cpp:2075-2089 [Core::get_main_column_index]: the first central column, or the
    first one. *)
Fixpoint first_central (k : nat) (l : list column) : nat :=
  match l with
  | [] => 0
  | c :: rest => if c_central c then k else first_central (S k) rest
  end.
Definition main_column (K : core) : outcome nat :=
  match k_columns K with
  | [] => Throw "Core has no columns"
  | l => Ok (first_central 0 l)
  end.

(** ReluctanceNetwork.cpp:28-34: the columns sorted by x.  [std::sort] on so few
    elements is an insertion sort that keeps the order of equal keys. *)
Fixpoint insert_by (key : nat -> Q) (v : nat) (l : list nat) : list nat :=
  match l with
  | [] => [v]
  | h :: t => if Qlt_bool (key v) (key h) then v :: l else h :: insert_by key v t
  end.
Definition sort_by (key : nat -> Q) (l : list nat) : list nat :=
  fold_left (fun acc v => insert_by key v acc) l [].

Definition no_column : column := mk_column 0 0 0 0 0 false.
Definition column_at (l : list column) (k : nat) : column := nth k l no_column.

(** Core.cpp:608-628 [find_closest_column_index_by_coordinates]; the first
    distance is compared with infinity ([None]). *)
Fixpoint closest_from (k : nat) (l : list column) (x z : Q) (best : option (nat * Q)) : option (nat * Q) :=
  match l with
  | [] => best
  | c :: rest =>
      let distance := Qabs (c_x c - x) + Qabs (c_z c - z) in
      let best' :=
        match best with
        | None => Some (k, distance)
        | Some (_, d) => if Qlt_bool distance d then Some (k, distance) else best
        end in
      closest_from (S k) rest x z best'
  end.
Definition closest_column (K : core) (x z : Q) : nat :=
  match closest_from 0 (k_columns K) x z None with Some (k, _) => k | None => 0 end.

Definition positive_areas (l : list column) : bool :=
  forallb (fun c => negb (Qle_bool (c_area c) 0)) l.

Definition unit_force (n k : nat) (v : Q) : list Q := set_nth (repeat 0 n) k v.

(** ReluctanceNetwork.cpp:41-84: legs and yokes before the gaps are added. *)
Definition calibrated (K : core) (main : nat) (ungapped : Q) : outcome (list Q * list Q) :=
  let cols := k_columns K in
  let order := sort_by (fun k => c_x (column_at cols k)) (seq 0 (List.length cols)) in
  if negb (positive_areas cols) then Throw "Column has no positive area"
  else
    match k_windows K with
    | [] => UB "first of no winding windows"
    | _ =>
        match k_window_height K with
        | None => Throw "Multi-column network needs a rectangular winding window with a height"
        | Some wh =>
            let yoke_area := (k_height K - wh) / 2 * c_depth (column_at cols main) in
            if Qle_bool yoke_area 0 then Throw "Core yoke has no positive area"
            else
              let legs := map (fun c => c_height c / c_area c) cols in
              let span k := Qabs (c_x (column_at cols (nth (S k) order O))
                                  - c_x (column_at cols (nth k order O))) in
              let yokes := map (fun k => 2 * span k / yoke_area) (seq 0 (List.length cols - 1)) in
              f <- column_fluxes (mk_network legs yokes order main)
                     (unit_force (List.length cols) main 1) ;;
              let scale := ungapped / (1 / at_ f main) in
              Ok (map (fun r => scale * r) legs, map (fun y => y * scale) yokes)
        end
    end.

Fixpoint add_gaps (K : core) (legs : list Q) (gaps : list (Q * Q)) (reluctances : list Q) : list Q :=
  match gaps, reluctances with
  | (x, z) :: gaps', r :: reluctances' =>
      let k := closest_column K x z in
      add_gaps K (set_nth legs k (at_ legs k + r)) gaps' reluctances'
  | _, _ => legs
  end.

(** ReluctanceNetwork.cpp:9-107, the constructor; a reluctance that is not a
    number is [None]. *)
Definition construct (K : core) (ungapped : option Q) (gaps : list Q) : outcome network :=
  match ungapped with
  | None => Throw "Ungapped core reluctance must be a positive number"
  | Some u =>
      if Qle_bool u 0 then Throw "Ungapped core reluctance must be a positive number"
      else
        main <- main_column K ;;
        let cols := k_columns K in
        let order := sort_by (fun k => c_x (column_at cols k)) (seq 0 (List.length cols)) in
        parts <- (if Nat.eqb (List.length cols) 1 then Ok ([u], [])
                  else calibrated K main u) ;;
        if negb (Nat.eqb (List.length (k_gaps K)) (List.length gaps))
        then Throw "Per-gap reluctances do not match the core gapping"
        else Ok (mk_network (add_gaps K (fst parts) (k_gaps K) gaps) (snd parts) order main)
  end.

(** ** Windings *)

Record winding := mk_winding { g_name : string; g_turns : Z; g_window : option Z }.
Record section := mk_section { s_conduction : bool; s_window : option Z; s_windings : list string }.

(** Core.cpp:2091-2112 [Core::get_winding_window_column_index]. *)
Definition window_column (K : core) (k : nat) : outcome nat :=
  match nth_error (k_windows K) k with
  | None => Throw "Winding window index out of range"
  | Some None => main_column K
  | Some (Some c) =>
      if (c <? 0)%Z || negb (Nat.ltb (Z.to_nat c) (List.length (k_columns K)))
      then Throw "Winding window references a column the core does not have"
      else Ok (Z.to_nat c)
  end.

(** ReluctanceNetwork.cpp:112-153: the windows named by the sections
    a winding has turns in. *)
Definition windows_of (sections : list section) (name : string) : list Z :=
  flat_map (fun s =>
    match s_conduction s, s_window s with
    | true, Some w => if existsb (String.eqb name) (s_windings s) then [w] else []
    | _, _ => []
    end) sections.

Definition window_of (sections : list section) (g : winding) : option Z :=
  match g_window g with
  | Some w => Some w
  | None => hd_error (windows_of sections (g_name g))
  end.

Definition in_range (K : core) (w : Z) : bool :=
  negb (w <? 0)%Z && Nat.ltb (Z.to_nat w) (List.length (k_windows K)).

(** ReluctanceNetwork.cpp:192-206: every other window of the winding must be on
    the same column. *)
Fixpoint same_column (K : core) (resolved : nat) (windows : list Z) : outcome unit :=
  match windows with
  | [] => Ok tt
  | w :: rest =>
      if in_range K w then
        c <- window_column K (Z.to_nat w) ;;
        if Nat.eqb c resolved then same_column K resolved rest
        else Throw "Winding has sections in more than one column"
      else same_column K resolved rest
  end.

(** ReluctanceNetwork.cpp:155-210 [resolve_winding_column_indexes]; the set of
    windows is visited here in the order of the sections, which can only change
    which error is reported. *)
Definition resolve_winding (K : core) (sections : list section) (main : nat) (g : winding) : outcome nat :=
  match window_of sections g with
  | None => Ok main
  | Some w =>
      if negb (in_range K w) then Throw "Winding references a winding window the core does not have"
      else
        c <- window_column K (Z.to_nat w) ;;
        _ <- same_column K c (windows_of sections (g_name g)) ;;
        Ok c
  end.

Fixpoint resolve_all (K : core) (sections : list section) (main : nat) (l : list winding) : outcome (list nat) :=
  match l with
  | [] => Ok []
  | g :: rest =>
      c <- resolve_winding K sections main g ;;
      cs <- resolve_all K sections main rest ;;
      Ok (c :: cs)
  end.

Definition resolve_winding_columns (K : core) (sections : list section) (l : list winding) : outcome (list nat) :=
  main <- main_column K ;;
  resolve_all K sections main l.

(** ReluctanceNetwork.cpp:212-231 [has_non_main_placement]. *)
Definition has_non_main_placement (K : core) (sections : list section) (l : list winding) : outcome bool :=
  if negb (existsb (fun g => match window_of sections g with Some _ => true | None => false end) l)
  then Ok false
  else
    cs <- resolve_winding_columns K sections l ;;
    main <- main_column K ;;
    Ok (existsb (fun c => negb (Nat.eqb c main)) cs).

(** A winding with its column: what the next three functions read. *)
Definition wound := (Q * nat)%type.

Fixpoint map_columns (N : network) (l : list wound) : outcome (list (list Q)) :=
  match l with
  | [] => Ok []
  | (turns, c) :: rest =>
      f <- column_fluxes N (unit_force (List.length (n_columns N)) c turns) ;;
      fs <- map_columns N rest ;;
      Ok (f :: fs)
  end.

(** ReluctanceNetwork.cpp:310-324 [calculate_magnetizing_inductance_matrix], row
    by row. *)
Definition inductance_matrix (N : network) (l : list wound) : outcome (list (list Q)) :=
  fs <- map_columns N l ;;
  Ok (map (fun w => map (fun f => fst w * at_ f (snd w)) fs) l).

(** ReluctanceNetwork.cpp:335-339: the magnetomotive force of each column. *)
Fixpoint add_forces (mmf : list Q) (l : list wound) (currents : list Q) : list Q :=
  match l, currents with
  | (turns, c) :: l', i :: currents' => add_forces (set_nth mmf c (at_ mmf c + turns * i)) l' currents'
  | _, _ => mmf
  end.

(** ReluctanceNetwork.cpp:326-341 [calculate_column_magnetic_fluxes]. *)
Definition fluxes_of_currents (N : network) (l : list wound) (currents : list Q) : outcome (list Q) :=
  if negb (Nat.eqb (List.length currents) (List.length l)) then Throw "One current per winding is needed"
  else column_fluxes N (add_forces (repeat 0 (List.length (n_columns N))) l currents).

(** ReluctanceNetwork.cpp:343-351 [calculate_column_magnetic_flux_densities]. *)
Definition flux_densities (N : network) (cols : list column) (l : list wound) (currents : list Q)
    : outcome (list Q) :=
  f <- fluxes_of_currents N l currents ;;
  Ok (map (fun k => at_ f k / c_area (column_at cols k)) (seq 0 (List.length f))).

(** ReluctanceNetwork.cpp:310-317: the windings of the coil with the column each
    of them is on. *)
Definition wound_of (l : list winding) (columns : list nat) : list wound :=
  combine (map (fun g => inject_Z (g_turns g)) l) columns.

(** The public calls from a core, its reluctances and a coil. *)
Definition coil_inductance_matrix (K : core) (ungapped : option Q) (gaps : list Q)
    (sections : list section) (l : list winding) : outcome (list (list Q)) :=
  N <- construct K ungapped gaps ;;
  cs <- resolve_winding_columns K sections l ;;
  inductance_matrix N (wound_of l cs).
