(** Where a core carries its gaps: src/constructive_models/Core.cpp:597-651, 674-682, 713-758,
    760-1044, 1047-1141, 1144-1304.

    The numbers are exact rationals in place of doubles. A core is its processed columns, the
    width of its first winding window and the list of gaps of its functional description; the
    shape, the material and the effective parameters play no part here. *)
From Coq Require Import ZArith QArith Qabs List Bool String Lia.
From Verif Require Import Base.
Import ListNotations.
Open Scope string_scope.
Open Scope outcome_scope.
Open Scope Q_scope.

(** MAS ColumnType and ColumnShape (MAS.hpp, generated from the MAS schema). *)
Inductive role := Central | Lateral.
Inductive outline := Round | Rectangular | Oblong | Irregular.

(** MAS GapType. *)
Inductive kind := Subtractive | Additive | Residual.

Definition kind_eqb (a b : kind) : bool :=
  match a, b with
  | Subtractive, Subtractive | Additive, Additive | Residual, Residual => true
  | _, _ => false
  end.

(** Coordinates: a vector of three numbers, X, Y (height) and Z. A vector of another size is left
    out. *)
Record point := Point { px : Q; py : Q; pz : Q }.

(** MAS ColumnElement: the members Core.cpp:760-1300 reads. *)
Record column := Column {
  c_role : role;
  c_shape : outline;
  c_at : point;
  c_height : Q;
  c_width : Q;
  c_depth : Q;
  c_area : Q }.

(** MAS CoreGap. *)
Record gap := Gap {
  g_kind : kind;
  g_length : Q;
  g_at : option point;
  g_shape : option outline;
  g_normal : option Q;      (** distanceClosestNormalSurface *)
  g_parallel : option Q;    (** distanceClosestParallelSurface *)
  g_area : option Q;
  g_section : option (Q * Q) }.

(** A gap as a user writes it: a type and a length. *)
Definition bare (k : kind) (l : Q) : gap := Gap k l None None None None None None.

(** The families [process_gap] tells apart, Core.cpp:1188-1264. The dimensions of a drum in a ring
    are A, the optional A2, B, D, F and K; operator[] of a map makes a missing one 0. *)
Record ring := Ring { r_A : Q; r_A2 : option Q; r_B : Q; r_D : Q; r_F : Q; r_K : Q }.

Inductive family := Toroid | Molded | Semishielded | Drum_ring (r : ring) | Other.

(** A core that has been processed: [window] is the width of its first winding window, which every
    branch of process_data pushes (Core.cpp:1740-1815). *)
Record body := Body {
  b_family : family;
  b_columns : list column;
  b_window : option Q }.

(** src/Constants.h:13. *)
Definition residual_gap : Q := 5 # 1000000.

(** std::numbers::pi, the double. *)
Definition pi : Q := 884279719003555 # 281474976710656.

(** Core.cpp:674-682 [find_gaps_by_type]. *)
Definition of_kind (k : kind) (g : list gap) : list gap := filter (fun x => kind_eqb (g_kind x) k) g.

(** Core.cpp:597-606 [find_columns_by_type]. *)
Definition is_central (c : column) : bool := match c_role c with Central => true | Lateral => false end.
Definition centrals (b : body) : list column := filter is_central (b_columns b).
Definition laterals (b : body) : list column := filter (fun c => negb (is_central c)) (b_columns b).

(** The setters every branch calls: Core.cpp:808-825, 848-865, 879-895, 958-977, 990-1007,
    1012-1038, 1270-1290. *)
Definition place (b : body) (c : column) (k : kind) (l : Q) (p : point) (d : Q) : gap :=
  Gap k l (Some p) (Some (c_shape c)) (Some d) (b_window b) (Some (c_area c))
      (Some (c_width c, c_depth c)).

(** A gap in the middle of its own column: Core.cpp:807-826, 843-866, 878-896, 988-1009, 1011-1039.
    None stands for the [return fail_gap_processing]. *)
Fixpoint lay (b : body) (l : list (column * (kind * Q))) : option (list gap) :=
  match l with
  | [] => Some []
  | (c, (k, x)) :: r =>
      if Qlt_bool (c_height c / 2 - x / 2) 0 then None
      else match lay b r with
           | None => None
           | Some t => Some (place b c k x (c_at c) (c_height c / 2 - x / 2) :: t)
           end
  end.

(** The gaps of the winding column, Core.cpp:957-986: [total] of them, the one of index [i] at
    [offset] over the middle of the column and [d] away from the closest surface. The distance of
    the next one grows by [chunk] before the middle and falls by it after it; [step] is added to
    the height. [i < total / 2. - 1] is written without the division. *)
Fixpoint spread (b : body) (c : column) (total : nat) (chunk step : Q) (i : nat) (offset d : Q)
    (l : list gap) : option (list gap) :=
  match l with
  | [] => Some []
  | g :: r =>
      if Qlt_bool d 0 then None
      else
        let d' := if Nat.ltb (2 * i + 2) total then roundFloat (d + chunk) 9
                  else if Nat.ltb total (2 * i + 2) then roundFloat (d - chunk) 9
                  else d in
        match spread b c total chunk step (S i) (offset + step) d' r with
        | None => None
        | Some t =>
            Some (place b c (g_kind g) (g_length g)
                    (Point (px (c_at c)) (py (c_at c) + offset) (pz (c_at c))) d :: t)
        end
  end.

Definition count (n : nat) : Q := inject_Z (Z.of_nat n).

(** The start of the gaps of the winding column, Core.cpp:924-955: one gap is ground off one half,
    several are spread. The first gap gives the length of all of them. *)
Definition wound (b : body) (c : column) (non : list gap) : option (list gap) :=
  let n := List.length non in
  let first := match non with g :: _ => g_length g | [] => 0 end in
  let step := roundFloat (c_height c / (count n + 1)) 9 in
  if Nat.eqb n 1 then
    let offset := if Qlt_bool first (c_height c) then roundFloat (first / 2) 9 else 0 in
    spread b c n 0 step 0 offset (roundFloat (c_height c / 2 - first / 2) 9) non
  else
    let chunk := step in
    spread b c n chunk step 0 (roundFloat (- chunk * (count n - 1) / 2) 9)
           (roundFloat (chunk - first / 2) 9) non.

(** The column wound and the columns the flux returns through, Core.cpp:900-912. *)
Definition wound_column (b : body) : option column :=
  match centrals b with c :: _ => Some c | [] => match laterals b with c :: _ => Some c | [] => None end end.
Definition return_columns (b : body) : list column :=
  match centrals b with _ :: _ => laterals b | [] => tl (laterals b) end.

(** What the gaps of the return columns are: the residual gaps of the user if there are enough of
    them, the default one otherwise. Core.cpp:988-1040. *)
Definition returned (residual : list gap) (cs : list column) : list (column * (kind * Q)) :=
  if Nat.ltb (List.length residual) (List.length cs)
  then map (fun c => (c, (Residual, residual_gap))) cs
  else combine cs (map (fun g => (g_kind g, g_length g)) residual).

(** The gaps of [gapping] for the columns in order, the last one again for the columns that are left:
    Core.cpp:843-849. *)
Fixpoint repeated (cs : list column) (gapping : list gap) (last : gap) : list (column * (kind * Q)) :=
  match cs with
  | [] => []
  | c :: r =>
      match gapping with
      | g :: t => (c, (g_kind g, g_length g)) :: repeated r t g
      | [] => (c, (g_kind last, g_length last)) :: repeated r [] last
      end
  end.

(** Core.cpp:798-804: residual gaps beyond the columns are dropped, and the shorter list is stored at
    once. *)
Definition trimmed (b : body) (gapping : list gap) : list gap :=
  let n := List.length (b_columns b) in
  let r := List.length (of_kind Residual gapping) in
  if Nat.eqb (List.length (of_kind Subtractive gapping) + List.length (of_kind Additive gapping)) 0 &&
     Nat.ltb n r
  then firstn (List.length gapping - (r - n)) gapping
  else gapping.

(** Core.cpp:760-1044 [distribute_and_process_gap]: whether the gaps fit, and the gapping the core
    is left with. *)
Definition stored (before : list gap) (r : option (list gap)) : bool * list gap :=
  match r with Some g => (true, g) | None => (false, before) end.

Definition distribute (b : body) (gapping : list gap) : outcome (bool * list gap) :=
  let sub := of_kind Subtractive gapping in
  let add := of_kind Additive gapping in
  let non := (sub ++ add)%list in
  let g := trimmed b gapping in
  let residual := of_kind Residual g in
  let columns := List.length (b_columns b) in
  let gaps := (List.length non + List.length residual)%nat in
  if Nat.eqb gaps 0 then
    Ok (stored g (lay b (map (fun c => (c, (Residual, residual_gap))) (b_columns b))))
  else if Nat.ltb gaps columns && Nat.eqb (List.length sub) 0 then
    Ok (stored g (lay b (repeated (b_columns b) g (bare Residual 0))))
  else if (Nat.eqb (List.length residual) columns || Nat.eqb (List.length add) columns) &&
          Nat.eqb gaps columns then
    Ok (stored g (lay b (combine (b_columns b) (map (fun x => (g_kind x, g_length x)) g))))
  else
    match wound_column b with
    | None => UB "lateralColumns[0]"
    | Some c =>
        Ok (stored g
          match wound b c non with
          | None => None
          | Some t =>
              match lay b (returned residual (return_columns b)) with
              | None => None
              | Some u => Some (t ++ u)%list
              end
          end)
    end.

(** Core.cpp:608-628 [find_closest_column_index_by_coordinates], as the column it finds; the columns
    that follow the first win only if they are strictly closer. *)
Definition apart (p q : point) : Q := Qabs (px p - px q) + Qabs (pz p - pz q).

Fixpoint closest (cs : list column) (p : point) (best : option (column * Q)) : option column :=
  match cs with
  | [] => match best with Some (c, _) => Some c | None => None end
  | c :: r =>
      let d := apart (c_at c) p in
      match best with
      | None => closest r p (Some (c, d))
      | Some (_, x) => closest r p (if Qlt_bool d x then Some (c, d) else best)
      end
  end.

(** Core.cpp:630-651 [find_exact_column_index_by_coordinates]: within a hundredth. *)
Definition exactly (p : point) (c : column) : bool :=
  let most := cmax (Qabs (pz (c_at c))) (cmax (Qabs (px (c_at c))) (1 # 1000000)) in
  Qlt_bool (apart (c_at c) p / most) (1 # 100).

(** Core.cpp:1144-1157 [is_gapping_misaligned]. *)
Definition misaligned (b : body) (gapping : list gap) : bool :=
  existsb (fun g => match g_at g with
                    | None => true
                    | Some p => negb (existsb (exactly p) (b_columns b))
                    end) gapping.

(** Core.cpp:1269-1291: gaps that come with coordinates stay where they are. *)
Fixpoint kept (b : body) (l : list gap) : outcome (option (list gap)) :=
  match l with
  | [] => Ok (Some [])
  | g :: r =>
      match g_at g with
      | None => Throw "bad_optional_access"
      | Some p =>
          match closest (b_columns b) p None with
          | None => UB "columns[-1]"
          | Some c =>
              let d := roundFloat (c_height c / 2 - Qabs (py p) - g_length g / 2) 9 in
              if Qlt_bool d 0 then Ok None
              else t <- kept b r ;;
                   Ok (match t with
                       | None => None
                       | Some t => Some (place b c (g_kind g) (g_length g) p d :: t)
                       end)
          end
      end
  end.

(** One of the two annular gaps of a drum in a ring, Core.cpp:1235-1258. *)
Definition annulus (r : ring) (w : Q) (thick y : Q) : gap :=
  let mean := (r_A r + r_K r) / 4 in
  Gap Residual (roundFloat ((r_K r - r_A r) / 2) 9)
      (Some (Point (roundFloat mean 9) (roundFloat y 9) 0)) (Some Rectangular)
      (Some (roundFloat (thick / 2) 9)) (Some w)
      (Some (roundFloat (2 * pi * mean * thick) 9))
      (Some (roundFloat (2 * pi * mean) 9, roundFloat thick 9)).

(** Core.cpp:1230-1234: the flanges differ. *)
Definition asymmetric (r : ring) : bool :=
  match r_A2 r with
  | None => false
  | Some a => Qlt_bool 0 a && negb (Qeq_bool (roundFloat a 9) (roundFloat (r_A r) 9))
  end.

(** Core.cpp:1168-1296 [process_gap]. The core is processed already: the process_data of line 1183
    is [process_data] below. *)
Definition process_gap (b : body) (gapping : list gap) : outcome (bool * list gap) :=
  match b_family b with
  | Toroid => match gapping with [] => Ok (true, []) | _ => Throw "GapException" end
  | Molded => match gapping with [] => Ok (true, []) | _ => Throw "GapException" end
  | Semishielded => match gapping with [] => Ok (true, []) | _ => Throw "GapException" end
  | Drum_ring r =>
      if existsb (fun g => negb (kind_eqb (g_kind g) Residual)) gapping then Throw "GapException"
      else if asymmetric r then Throw "NotImplementedException"
      else match b_window b with
           | None => Throw "bad_optional_access"
           | Some w => Ok (true, [annulus r w (r_D r) ((r_B r - r_D r) / 2);
                                  annulus r w (r_F r) (- ((r_B r - r_F r) / 2))])
           end
  | Other =>
      match gapping with
      | [] => distribute b gapping
      | g :: _ =>
          if match g_at g with None => true | Some _ => false end || misaligned b gapping
          then distribute b gapping
          else r <- kept b gapping ;; Ok (stored gapping r)
      end
  end.

(** Core.cpp:1298-1304 [process_gap_or_throw]. *)
Definition process_gap_or_throw (b : body) (gapping : list gap) : outcome (list gap) :=
  r <- process_gap b gapping ;;
  if fst r then Ok (snd r) else Throw "GapException".

(** Core.cpp:746-753 [set_gap_length]: the answer of distribute_and_process_gap is dropped. *)
Definition set_gap_length (b : body) (x : Q) (gapping : list gap) : outcome (list gap) :=
  r <- distribute b (map (fun g => if kind_eqb (g_kind g) Residual then g
                                   else Gap (g_kind g) x (g_at g) (g_shape g) (g_normal g)
                                            (g_parallel g) (g_area g) (g_section g)) gapping) ;;
  Ok (snd r).

(** Core.cpp:1047-1141: the gappings the factories write. [numberColumns - 1] of no columns at all
    is left out. *)
Definition create_ground_gapping (x : Q) (columns : nat) : list gap :=
  bare Subtractive x :: repeat (bare Residual residual_gap) (columns - 1).
Definition create_distributed_gapping (x : Q) (n columns : nat) : list gap :=
  (repeat (bare Subtractive x) n ++ repeat (bare Residual residual_gap) (columns - 1))%list.
Definition create_spacer_gapping (x : Q) (columns : nat) : list gap :=
  repeat (bare Additive x) columns.
Definition create_residual_gapping (columns : nat) : list gap :=
  repeat (bare Residual residual_gap) columns.

(** Core.cpp:713-744 [scale_to_stacks], the columns and the gaps. *)
Definition scale_column (n : Q) (c : column) : column :=
  Column (c_role c) (c_shape c) (c_at c) (c_height c) (c_width c) (c_depth c * n) (c_area c * n).
Definition scale_gap (n : Q) (g : gap) : gap :=
  Gap (g_kind g) (g_length g) (g_at g) (g_shape g) (g_normal g) (g_parallel g)
      (match g_area g with Some a => Some (a * n) | None => None end)
      (match g_section g with Some (w, d) => Some (w, d * n) | None => None end).

(** Core.cpp:1640-1863 [process_data]: the columns [shape] gives are taken anew, then everything is
    scaled to the stacks. *)
Definition process_data (shape : body) (stacks : Q) (gapping : list gap) : body * list gap :=
  (Body (b_family shape) (map (scale_column stacks) (b_columns shape)) (b_window shape),
   map (scale_gap stacks) gapping).

(** Core.cpp:28-43: a core read from JSON, its gapping in particular. *)
Definition construct (shape : body) (stacks : Q) (gapping : list gap) : outcome (bool * list gap) :=
  let (b, g) := process_data shape stacks gapping in process_gap b g.
