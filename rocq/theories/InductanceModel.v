(** Model of src/physical_models/LeakageInductance.cpp,
    src/physical_models/Inductance.cpp and of the two entry points of
    src/physical_models/ExtendedCantilever.cpp that take a magnetic.  Reals are
    exact rationals; the square root is a parameter. *)
From Coq Require Import ZArith QArith Qabs List String Bool.
From Verif Require Import Base NetworkModel CantileverModel.
Import ListNotations.
Open Scope Q_scope.
Open Scope outcome_scope.

(** ** The field in the window *)

(** A point of the induced grid (CoilMesher.cpp:166-297): its horizontal
    coordinate, its radial coordinate in a toroid (the first of
    [Coil::cartesian_to_polar]) and whether it lies inside a toroidal core
    (MagneticField.cpp:205-218). *)
Record grid_point := mkPoint { p_x : Q; p_radial : Q; p_in_core : bool }.

(** A filament of the inducing mesh: the winding it belongs to, its share of
    the current of the winding and its horizontal coordinate. *)
Record filament := mkFilament { f_winding : nat; f_share : Q; f_x : Q }.

(** What the field and its energy depend on.  [fd_kx] and [fd_ky] are the field
    at a point due to one ampere in a filament; in a toroid the filament counts
    at its inner or its outer crossing according to the point
    (LeakageInductance.cpp:104-125), which is part of these two functions.
    [fd_pi] and [fd_mu] are pi and the permeability of vacuum. *)
Record field_data := mkField {
  fd_points : list grid_point;
  fd_filaments : list filament;
  fd_kx : grid_point -> filament -> Q;
  fd_ky : grid_point -> filament -> Q;
  fd_area : Q;
  fd_multi_window : bool;
  fd_round_window : bool;
  fd_round_column : bool;
  fd_column_depth : Q;
  fd_pi : Q;
  fd_mu : Q }.

(** What the calls read of a magnetic.  [m_magnetizing], [m_ungapped] and
    [m_gap_reluctances] are the output of
    [MagnetizingInductance::calculate_inductance_from_number_turns_and_gapping],
    [m_plain_ungapped] and [m_plain_gaps] that of [get_core_reluctance] of the
    default reluctance model; they are taken as given. *)
Record magnetic := mkMagnetic {
  m_windings : list winding;
  m_core_processed : bool;
  m_core : core;
  m_sections : list section;
  m_magnetizing : Q;
  m_ungapped : Q;
  m_gap_reluctances : list Q;
  m_plain_ungapped : Q;
  m_plain_gaps : list Q;
  m_bobbin_processed : bool;
  m_column_width : option Q;
  m_field : field_data }.

Definition windings (m : magnetic) : nat := List.length (m_windings m).
Definition turns (m : magnetic) (i : nat) : Q :=
  nth i (map (fun g => inject_Z (g_turns g)) (m_windings m)) 0.
Definition name (m : magnetic) (i : nat) : string :=
  nth i (map g_name (m_windings m)) EmptyString.

(** CoilMesher: the current of a filament, from the peak current of its winding
    and the direction given to it (C99 covers the mesher). *)
Definition filament_current (magnitudes directions : list Q) (f : filament) : Q :=
  at_ magnitudes (f_winding f) * f_share f * at_ directions (f_winding f).

(** MagneticField.cpp:758-800: the contributions of the filaments to a
    point; the two sides of a core with several windows do not see each other
    and points inside the core have no field.  The point is skipped altogether
    by the model of Albach (597-599), with the same energy. *)
Definition contribution (d : field_data) (k : grid_point -> filament -> Q)
    (magnitudes directions : list Q) (p : grid_point) (f : filament) : Q :=
  if fd_multi_window d && Qlt_bool (f_x f * p_x p) 0 then 0
  else if p_in_core p then 0
  else filament_current magnitudes directions f * k p f.
Definition component (d : field_data) (k : grid_point -> filament -> Q)
    (magnitudes directions : list Q) (p : grid_point) : Q :=
  fold_left (fun total f => total + contribution d k magnitudes directions p f) (fd_filaments d) 0.

(** LeakageInductance.cpp:274-294: the length the area around a point is
    revolved along. *)
Definition revolved_length (d : field_data) (width : Q) (p : grid_point) : Q :=
  if negb (fd_round_window d) then
    if fd_round_column d then 2 * fd_pi d * p_x p
    else 2 * fd_pi d * (p_x p - width) + 2 * 2 * width + 2 * 2 * fd_column_depth d
  else
    let from_center := Qabs (p_radial p + width) in
    if fd_round_column d then fd_pi d * from_center
    else fd_pi d * (from_center - width) + 2 * width + 2 * fd_column_depth d.

(** LeakageInductance.cpp:257-301 [integrate_leakage_energy] of the field that
    [calculate_magnetic_field] (63-128) gives. *)
Definition integrate (d : field_data) (width : Q) (magnitudes directions : list Q) : Q :=
  fold_left (fun energy p =>
      let hx := component d (fd_kx d) magnitudes directions p in
      let hy := component d (fd_ky d) magnitudes directions p in
      energy + (1 # 2) * fd_mu d * (hx * hx + hy * hy) * fd_area d * revolved_length d width p)
    (fd_points d) 0.

Definition window_energy (m : magnetic) (magnitudes directions : list Q) : outcome Q :=
  if negb (m_bobbin_processed m) then Throw "bobbin description has not been processed"
  else match m_column_width m with
  | None => Throw "bobbin column width is not defined"
  | Some width =>
      match fd_points (m_field m) with
      | [] => Throw "Mesh generation failed: induced field data is empty"
      | _ => Ok (integrate (m_field m) width magnitudes directions)
      end
  end.

(** LeakageInductance.cpp:303-344 [calculate_leakage_field_energy], with the
    magnitudes of [create_excitation_operating_point] (383-414): an entry of one
    is a sine of peak one. *)
Definition field_energy (m : magnetic) (currents : list Q) : outcome Q :=
  if negb (m_core_processed m) then Throw "the core has no processed description"
  else if negb (Nat.eqb (List.length currents) (windings m)) then
    Throw "current vector size does not match number of windings"
  else window_energy m (map Qabs currents) (map (fun i => if Qlt_bool i 0 then - (1) else 1) currents).

Definition unit_currents (n a : nat) : list Q := set_nth (repeat 0 n) a 1.
Definition pair_currents (n a b : nat) : list Q := set_nth (unit_currents n a) b 1.

Fixpoint outcomes {A B : Type} (f : A -> outcome B) (l : list A) : outcome (list B) :=
  match l with
  | [] => Ok []
  | x :: l' => y <- f x ;; ys <- outcomes f l' ;; Ok (y :: ys)
  end.

(** LeakageInductance.cpp:346-381 [calculate_leakage_inductance_matrix].  The
    energy of a pair is computed once and stored twice; here the entry below the
    diagonal repeats the computation of its pair. *)
Definition leakage_matrix (m : magnetic) : outcome table :=
  let n := windings m in
  if Nat.eqb n 0 then Throw "Cannot calculate leakage inductance matrix: no windings defined"
  else
    self <- outcomes (fun a => field_energy m (unit_currents n a)) (seq 0 n) ;;
    outcomes (fun a => outcomes (fun b =>
      if Nat.eqb a b then Ok (4 * at_ self a)
      else
        let first := Nat.min a b in
        let second := Nat.max a b in
        pair <- field_energy m (pair_currents n first second) ;;
        Ok (2 * (pair - at_ self first - at_ self second))) (seq 0 n)) (seq 0 n).

(** ** The leakage of a pair *)

(** LeakageInductance.h:44 NEGLIGIBLE_CURRENT, the peak to peak current of the
    other windings, and LeakageInductance.cpp:416-475
    [create_leakage_operating_point]: the peaks. *)
Definition negligible : Q := 1 # 1000000000.
Definition pair_magnitudes (m : magnetic) (source destination : nat) : list Q :=
  map (fun w =>
    if Nat.eqb w source then 1
    else if Nat.eqb w destination then turns m source / turns m destination
    else negligible / 2) (seq 0 (windings m)).
(** LeakageInductance.cpp:189-192. *)
Definition pair_directions (m : magnetic) (source destination : nat) : list Q :=
  set_nth (set_nth (repeat 0 (windings m)) source 1) destination (- (1)).

(** LeakageInductance.cpp:130-211 [calculate_leakage_inductance].  The square of
    the RMS current of the source, 1 / sqrt(2), is a half. *)
Definition pair_leakage (m : magnetic) (source destination : nat) : outcome Q :=
  if negb (m_core_processed m) then Throw "the core has no processed description"
  else if negb (Nat.ltb source (windings m) && Nat.ltb destination (windings m)) then UB "winding index out of range"
  else
    placed <- has_non_main_placement (m_core m) (m_sections m) (m_windings m) ;;
    across <- (if placed then
                 cs <- resolve_winding_columns (m_core m) (m_sections m) (m_windings m) ;;
                 Ok (negb (Nat.eqb (nth source cs O) (nth destination cs O)))
               else Ok false) ;;
    if across then
      l <- coil_inductance_matrix (m_core m) (Some (m_plain_ungapped m)) (m_plain_gaps m) (m_sections m) (m_windings m) ;;
      Ok (cell l source source
          - cell l source destination * cell l source destination / cell l destination destination)
    else
      energy <- window_energy m (pair_magnitudes m source destination) (pair_directions m source destination) ;;
      Ok (2 / (1 # 2) * energy).

(** LeakageInductance.cpp:234-255 [calculate_leakage_inductance_all_windings]. *)
Definition leakage_all_windings (m : magnetic) (source : nat) : outcome (list Q) :=
  outcomes (fun w => if Nat.eqb w source then Ok 0 else pair_leakage m source w) (seq 0 (windings m)).

(** ** Inductances *)

(** Inductance.cpp:30-49
    [calculate_magnetizing_inductance_referred_to_winding]. *)
Definition referred_magnetizing (m : magnetic) (i : nat) : Q :=
  if Nat.eqb i 0 then m_magnetizing m
  else
    let ratio := turns m i / turns m 0 in
    m_magnetizing m * ratio * ratio.

(** Inductance.cpp:51-66 [Inductance::calculate_leakage_inductance]. *)
Definition leakage_between (m : magnetic) (source destination : nat) : outcome Q :=
  if Nat.eqb source destination then Ok 0 else pair_leakage m source destination.

(** Inductance.cpp:73-85 [magnetizing_coupling_matrix]. *)
Definition coupling_matrix (m : magnetic) : outcome (option table) :=
  placed <- has_non_main_placement (m_core m) (m_sections m) (m_windings m) ;;
  if placed then
    l <- coil_inductance_matrix (m_core m) (Some (m_ungapped m)) (m_gap_reluctances m) (m_sections m) (m_windings m) ;;
    Ok (Some l)
  else Ok None.

Section Root.
Variable root : Q -> Q.

(** Inductance.cpp:87-113 [calculate_mutual_inductance]. *)
Definition mutual_inductance (m : magnetic) (source destination : nat) : outcome Q :=
  if Nat.eqb source destination then
    Throw "Cannot calculate mutual inductance between a winding and itself"
  else
    network <- coupling_matrix m ;;
    match network with
    | Some l => Ok (cell l source destination)
    | None => Ok (root (referred_magnetizing m source * referred_magnetizing m destination))
    end.

(** Inductance.cpp:115-155 [calculate_self_inductance]. *)
Definition self_inductance (m : magnetic) (i : nat) : outcome Q :=
  network <- coupling_matrix m ;;
  let magnetizing := match network with Some l => cell l i i | None => referred_magnetizing m i end in
  self <- (if Nat.ltb 1 (windings m) then l <- leakage_matrix m ;; Ok (cell l i i) else Ok 0) ;;
  Ok (magnetizing + self).

(** Inductance.cpp:157-197 [calculate_coupling_coefficient]. *)
Definition coupling_coefficient (m : magnetic) (source destination : nat) : outcome Q :=
  if Nat.eqb source destination then Ok 1
  else
    l11 <- self_inductance m source ;;
    l22 <- self_inductance m destination ;;
    mutual <- mutual_inductance m source destination ;;
    let denominator := root (l11 * l22) in
    if Qlt_bool denominator (1 # 1000000000000000) then Ok 0
    else
      let k := mutual / denominator in
      if Qlt_bool (1 + (1 # 1000000)) (Qabs k) then Throw "exceeds the energy bound |k| <= 1"
      else Ok k.
End Root.

(** A matrix by names of windings: the values written, in order; a later one
    under the same names replaces an earlier one. *)
Definition named := list (string * string * Q).
Definition value_of (r : named) (a b : string) : option Q :=
  fold_left (fun found w =>
    match w with (x, y, v) => if String.eqb x a && String.eqb y b then Some v else found end) r None.

(** Inductance.cpp:199-245 [Inductance::calculate_leakage_inductance_matrix]. *)
Definition leakage_by_name (m : magnetic) : outcome named :=
  let n := windings m in
  if Nat.eqb n 0 then Throw "Cannot calculate leakage inductance matrix: no windings defined"
  else
    rows <- outcomes (fun i =>
      values <- leakage_all_windings m i ;;
      Ok (map (fun j => (name m i, name m j,
        if Nat.eqb i j then 0 else if Nat.ltb j (List.length values) then at_ values j else 0)) (seq 0 n))) (seq 0 n) ;;
    Ok (List.concat rows).

(** Inductance.cpp:247-348 [Inductance::calculate_inductance_matrix]. *)
Definition inductance_by_name (m : magnetic) : outcome named :=
  let n := windings m in
  if Nat.eqb n 0 then Throw "Cannot calculate inductance matrix: no windings defined"
  else if negb (m_core_processed m) then Throw "the core has no processed description"
  else
    leakage <- (if Nat.ltb 1 n then leakage_matrix m else Ok []) ;;
    network <- coupling_matrix m ;;
    columns <- (match network with
                | Some _ => resolve_winding_columns (m_core m) (m_sections m) (m_windings m)
                | None => Ok []
                end) ;;
    Ok (flat_map (fun i => flat_map (fun j =>
      let magnetizing := match network with
        | Some l => cell l i j
        | None => m_magnetizing m * (turns m i / turns m 0) * (turns m j / turns m 0)
        end in
      let leakage_ij :=
        if match network with Some _ => negb (Nat.eqb (nth i columns O) (nth j columns O)) | None => false end then 0
        else if Nat.ltb i (List.length leakage) && Nat.ltb j (List.length (nth i leakage [])) then cell leakage i j
        else 0 in
      (name m i, name m j, magnetizing + leakage_ij)
        :: (if Nat.eqb i j then [] else [(name m j, name m i, magnetizing + leakage_ij)]))
      (seq i (n - i))) (seq 0 n)).

(** ** The cantilever model of a magnetic *)

(** ExtendedCantilever.cpp:221-226. *)
Definition turns_ratios (m : magnetic) : list Q :=
  map (fun i => turns m i / turns m 0) (seq 0 (windings m)).

(** ExtendedCantilever.cpp:103-112 [build_magnetizing_matrix]. *)
Definition magnetizing_matrix (m : magnetic) : outcome table :=
  network <- coupling_matrix m ;;
  match network with
  | Some l => Ok l
  | None => Ok (rank1 (m_magnetizing m) (turns_ratios m))
  end.

(** ExtendedCantilever.cpp:234-260 [ExtendedCantilever::calculate_inductance_matrix]. *)
Definition assembled_matrix (m : magnetic) : outcome table :=
  if Nat.eqb (windings m) 0 then Throw "Cannot build inductance matrix: no windings defined"
  else
    leakage <- leakage_matrix m ;;
    if negb (Nat.eqb (List.length leakage) (windings m)) then
      Throw "leakage matrix size does not match number of windings"
    else
      magnetizing <- magnetizing_matrix m ;;
      assemble leakage magnetizing.

(** ExtendedCantilever.cpp:200-232 [ExtendedCantilever::calculate]. *)
Definition cantilever_of (m : magnetic) : outcome cantilever :=
  if Nat.eqb (windings m) 0 then Throw "Cannot build extended-cantilever model: no windings defined"
  else
    leakage <- leakage_matrix m ;;
    if negb (Nat.eqb (List.length leakage) (windings m)) then
      Throw "leakage matrix size does not match number of windings"
    else if Qle_bool (m_magnetizing m) 0 then
      Throw "Cannot build extended-cantilever model: magnetizing inductance must be positive"
    else
      magnetizing <- magnetizing_matrix m ;;
      l <- assemble leakage magnetizing ;;
      build_from_inductance_matrix l (m_magnetizing m) (turns_ratios m).
