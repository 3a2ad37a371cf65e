(** * Sizes and filling factors of wires from the catalogue

    Models the interpolators of src/constructive_models/Wire.cpp:206-733, built
    from the wire catalogue at the first request, kept in thread local maps
    (src/constructive_models/Wire.h:20-27) for the life of the thread and never
    cleared, and the functions that ask for them (:757-870, 897-945, 948-1005).

    Simplified throughout: doubles are real numbers; dimensions are the numbers
    that [resolve_dimensional_values] gives; [tk::spline] is a parameter, a
    function from its points; a missing field that the code reads with [value()]
    gives [Throw]. *)
From Coq Require Import Reals List String ZArith Bool Lra.
From Verif Require Import Base WireModel.
Import ListNotations.
Local Open Scope outcome_scope.
Local Open Scope R_scope.

(** MAS [InsulationWireCoatingType] *)
Inductive coating_type := Bare | Enamelled | Insulated | Served.
Definition same_coating (a b : coating_type) : bool :=
  match a, b with
  | Bare, Bare | Enamelled, Enamelled | Insulated, Insulated | Served, Served => true
  | _, _ => false
  end.
Definition same_kind (a b : kind) : bool :=
  match a, b with
  | Litz, Litz | RoundWire, RoundWire | Rectangular, Rectangular | Foil, Foil | Planar, Planar => true
  | _, _ => false
  end.

(** MAS [InsulationWireCoating], the fields read here *)
Record coat := mkCoat {
  c_type : option coating_type;
  c_grade : option Z;
  c_layers : option Z;
  c_thickness : option R
}.
(** MAS [WireRound] of a strand *)
Record strand_data := mkStrand { s_conducting : R; s_outer : option R; s_coat : option coat }.
(** A wire of the catalogue; the standard is its name. *)
Record entry := mkEntry {
  e_kind : kind;
  e_coat : option coat;
  e_standard : option string;
  e_count : option nat;
  e_diameter : option R;
  e_width : option R;
  e_height : option R;
  e_outer_diameter : option R;
  e_outer_width : option R;
  e_outer_height : option R;
  e_area : option R;
  e_strand : option strand_data
}.
(** [wireDatabase], in the order of the names *)
Definition catalogue := list entry.

(** Which of the optional arguments [conductingDiameter], [conductingWidth] and
    [conductingHeight] is present: it chooses the dimension. *)
Inductive axis := Diameter | Width | Height.

(** The arguments of [create_interpolators] that decide the tables. *)
Record request := mkRequest {
  r_axis : axis;
  r_count : nat;
  r_grade : option Z;
  r_layers : option Z;
  r_thickness : option R;
  r_coating : option coating_type;
  r_standard : option string;
  r_kind : kind;
  r_air : bool
}.

Definition value {A : Type} (o : option A) : outcome A := required o "bad_optional_access".
Definition reqb (a b : R) : bool := if Req_EM_T a b then true else false.
Definition has {A : Type} (o : option A) : bool := match o with Some _ => true | None => false end.
Definition zis (a : option Z) (b : Z) : bool := match a with Some x => Z.eqb x b | None => false end.

(** [!asked || (value.value() == asked.value())] *)
Definition agrees {A : Type} (eqb : A -> A -> bool) (asked found : option A) : outcome bool :=
  match asked with
  | None => Ok true
  | Some a => f <- value found ;; Ok (eqb f a)
  end.
(** [a && b], where [b] is only evaluated, and can only throw, when [a] holds. *)
Definition andalso (a : bool) (b : outcome bool) : outcome bool := if a then b else Ok false.

(** The [continue] of Wire.cpp:233-241: a field is asked for and the wire has none. *)
Definition skipped (standard : option string) (layers : option Z) (thickness : option R) (e : entry) (c : coat) : bool :=
  (has standard && negb (has (e_standard e)))
  || (has layers && negb (has (c_layers c)))
  || (has thickness && negb (has (c_thickness c))).

(** Wire.cpp:250-271: the part of the test about the grade; [None] is [continue].
    For a wire that is not litz and has no grade the asked grade does not match. *)
Definition grade_part (litz : bool) (grade : option Z) (e : entry) (c : coat) : outcome (option bool) :=
  match grade with
  | None => Ok (Some true)
  | Some g =>
      if litz then
        s <- required (e_strand e) "Litz wire is missing strand information" ;;
        sc <- value (s_coat s) ;;
        match c_grade sc with
        | None => Ok None
        | Some x => Ok (Some (Z.eqb x g))
        end
      else Ok (Some (zis (c_grade c) g))
  end.

(** Wire.cpp:273-278, and :426-430: the rest of the test *)
Definition other_parts (layers : option Z) (coating : option coating_type) (thickness : option R)
    (standard : option string) (e : entry) (c : coat) : outcome bool :=
  a <- agrees Z.eqb layers (c_layers c) ;;
  b <- andalso a (agrees same_coating coating (c_type c)) ;;
  d <- andalso b (agrees reqb thickness (c_thickness c)) ;;
  andalso d (agrees String.eqb standard (e_standard e)).

(** Wire.cpp:223-278: whether the wire of the catalogue is one of those asked for *)
Definition selected (r : request) (e : entry) : outcome bool :=
  if negb (same_kind (e_kind e) (r_kind r)) then Ok false
  else match e_coat e with
       | None => Ok false
       | Some c =>
           if skipped (r_standard r) (r_layers r) (r_thickness r) e c then Ok false
           else
             many <- (if Nat.ltb 1 (r_count r) then n <- value (e_count e) ;; Ok (Nat.ltb 1 n) else Ok true) ;;
             g <- grade_part (same_kind (r_kind r) Litz) (r_grade r) e c ;;
             match g with
             | None => Ok false
             | Some g => andalso (g && many) (other_parts (r_layers r) (r_coating r) (r_thickness r) (r_standard r) e c)
             end
       end.

(** A point of the tables: conducting dimension, thickness of the coating over it,
    and filling factor. *)
Definition point := (R * (R * R))%type.

(** Wire.cpp:280-349: the point of one wire.  The packing factor computed at
    :305-311 is not used (:384-386 are commented out); it can still throw. *)
Definition point_of (r : request) (e : entry) : outcome point :=
  o <- match r_axis r with
       | Diameter => value (e_outer_diameter e)
       | Width => value (e_outer_width e)
       | Height => value (e_outer_height e)
       end ;;
  d <- match r_kind r with
       | Litz =>
           s <- required (e_strand e) "Litz wire is missing strand information" ;;
           _ <- value (s_outer s) ;;
           Ok (s_conducting s)
       | _ => match r_axis r with
              | Diameter => value (e_diameter e)
              | Width => value (e_width e)
              | Height => value (e_height e)
              end
       end ;;
  n <- value (e_count e) ;;
  area <- match r_axis r with
          | Diameter => Ok (if r_air r then o ^ 2 else PI * (o / 2) ^ 2)
          | _ => match e_area e with
                 | Some a => Ok a
                 | None => w <- value (e_outer_width e) ;; h <- value (e_outer_height e) ;; Ok (w * h)
                 end
          end ;;
  Ok (d, ((o - d) / 2 / d, PI * (d / 2) ^ 2 * INR n / area)).

(** Wire.cpp:222-351: the loop over the catalogue *)
Fixpoint points (r : request) (db : catalogue) : outcome (list point) :=
  match db with
  | [] => Ok []
  | e :: rest =>
      keep <- selected r e ;;
      if keep : bool then
        p <- point_of r e ;; l <- points r rest ;; Ok (p :: l)
      else points r rest
  end.

(** [std::stable_sort] by the dimension *)
Fixpoint insert {A : Type} (p : R * A) (l : list (R * A)) : list (R * A) :=
  match l with
  | [] => [p]
  | q :: rest => if Rle_dec (fst p) (fst q) then p :: l else q :: insert p rest
  end.
Fixpoint sorted {A : Type} (l : list (R * A)) : list (R * A) :=
  match l with [] => [] | p :: rest => insert p (sorted rest) end.
(** Wire.cpp:364-375: only the first of the points of equal dimension *)
Fixpoint distinct {A : Type} (last : option R) (l : list (R * A)) : list (R * A) :=
  match l with
  | [] => []
  | p :: rest =>
      match last with
      | Some x => if Req_EM_T (fst p) x then distinct last rest else p :: distinct (Some (fst p)) rest
      | None => p :: distinct (Some (fst p)) rest
      end
  end.

(** What is stored for a key: the least and greatest dimensions and the two
    interpolators. *)
Record tables := mkTables { t_min : R; t_max : R; t_coating : R -> R; t_filling : R -> R }.
(** The same for the packing factor of insulated litz: the least and greatest
    counts of strands and the interpolator. *)
Record packing_table := mkPacking { p_min : R; p_max : R; p_packing : R -> R }.

(** What the interpolators are filed under.  The code concatenates the texts of
    these; [KRoundIns] and [KLitzIns] hold the thickness in pm, rounded, since
    [std::to_string] writes six decimals of the um. *)
Inductive key :=
  | KRound (grade : Z) (standard : string)
  | KRoundIns (layers : Z) (thickness : Z) (standard : string)
  | KLitz (grade : Z) (standard : string)
  | KLitzIns (layers : Z) (thickness : Z) (standard : string)
  | KWidth (grade : Z) (standard : string)
  | KHeight (grade : Z) (standard : string).
Definition key_eqb (a b : key) : bool :=
  match a, b with
  | KRound g s, KRound g' s' | KLitz g s, KLitz g' s' | KWidth g s, KWidth g' s'
  | KHeight g s, KHeight g' s' => (g =? g')%Z && String.eqb s s'
  | KRoundIns l t s, KRoundIns l' t' s' | KLitzIns l t s, KLitzIns l' t' s' =>
      (l =? l')%Z && (t =? t')%Z && String.eqb s s'
  | _, _ => false
  end.
Definition shown (thickness : R) : Z := Int_part (thickness * 1000000000000 + 1 / 2).

Record state := mkState {
  database : catalogue;
  filed : list (key * tables);
  packed : list (key * packing_table);
  areas : list (string * (R -> R))
}.
Definition fresh (db : catalogue) : state := mkState db [] [] [].

Fixpoint lookup {A : Type} (k : key) (l : list (key * A)) : option A :=
  match l with [] => None | (k', v) :: rest => if key_eqb k k' then Some v else lookup k rest end.
Fixpoint slookup {A : Type} (k : string) (l : list (string * A)) : option A :=
  match l with [] => None | (k', v) :: rest => if String.eqb k k' then Some v else slookup k rest end.

Section Tables.
(** [tk::spline] of type [cspline_hermite], made monotonic *)
Variable spline : list (R * R) -> R -> R.

(** Wire.cpp:206-387 [create_interpolators]; [None] when no wire is selected *)
Definition build (r : request) (db : catalogue) : outcome (option tables) :=
  l <- points r db ;;
  match sorted l with
  | [] => Ok None
  | p :: rest =>
      let s := p :: rest in
      let d := distinct None s in
      Ok (Some (mkTables (fst p) (fst (last s p))
                  (spline (map (fun q => (fst q, fst (snd q))) d))
                  (spline (map (fun q => (fst q, snd (snd q))) d))))
  end.

(** Wire.cpp:389-474 [create_packing_factor_interpolator] *)
Definition packing_point (grade layers : option Z) (thickness : option R) (coating : option coating_type)
    (standard : option string) (e : entry) : outcome (option (R * R)) :=
  if negb (same_kind (e_kind e) Litz) then Ok None
  else match e_coat e with
       | None => Ok None
       | Some c =>
           if skipped standard layers thickness e c then Ok None
           else
             g <- grade_part true grade e c ;;
             match g with
             | None => Ok None
             | Some g =>
                 keep <- andalso g (other_parts layers coating thickness standard e c) ;;
                 if keep : bool then
                   o <- value (e_outer_diameter e) ;;
                   s <- required (e_strand e) "Litz wire is missing strand information" ;;
                   n <- value (e_count e) ;;
                   so <- value (s_outer s) ;;
                   f <- match c_thickness c with
                        | Some t => k <- value (c_layers c) ;; Ok ((o - 2 * IZR k * t) / (sqrt (INR n) * so))
                        | None => Ok (o / (sqrt (INR n) * so))
                        end ;;
                   Ok (Some (INR n, f))
                 else Ok None
             end
       end.
Fixpoint packing_points (grade layers : option Z) (thickness : option R) (coating : option coating_type)
    (standard : option string) (db : catalogue) : outcome (list (R * R)) :=
  match db with
  | [] => Ok []
  | e :: rest =>
      p <- packing_point grade layers thickness coating standard e ;;
      l <- packing_points grade layers thickness coating standard rest ;;
      Ok (match p with Some p => p :: l | None => l end)
  end.
Definition build_packing (grade layers : option Z) (thickness : option R) (coating : option coating_type)
    (standard : option string) (db : catalogue) : outcome (option packing_table) :=
  l <- packing_points grade layers thickness coating standard db ;;
  match sorted l with
  | [] => Ok None
  | p :: rest =>
      let s := p :: rest in
      Ok (Some (mkPacking (fst p) (fst (last s p)) (spline (distinct None s))))
  end.

(** Wire.cpp:476-528 [create_conducting_area_interpolator] *)
Definition area_point (standard : option string) (e : entry) : outcome (option (R * R)) :=
  if negb (same_kind (e_kind e) Rectangular) then Ok None
  else match e_coat e with
       | None => Ok None
       | Some _ =>
           if has standard && negb (has (e_standard e)) then Ok None
           else
             keep <- agrees String.eqb standard (e_standard e) ;;
             if keep : bool then
               a <- value (e_area e) ;; w <- value (e_width e) ;; h <- value (e_height e) ;;
               Ok (Some (w * h, a / (w * h)))
             else Ok None
       end.
Fixpoint area_points (standard : option string) (db : catalogue) : outcome (list (R * R)) :=
  match db with
  | [] => Ok []
  | e :: rest =>
      p <- area_point standard e ;;
      l <- area_points standard rest ;;
      Ok (match p with Some p => p :: l | None => l end)
  end.
Definition build_area (standard : option string) (db : catalogue) : outcome (option (R -> R)) :=
  l <- area_points standard db ;;
  match sorted l with [] => Ok None | s => Ok (Some (spline (distinct None s))) end.

(** The tables filed under a key, built on the first request: Wire.cpp:545-558,
    :597-610.  An exception while building files nothing. *)
Definition tables_for (s : state) (k : key) (r : request) : outcome (option tables) * state :=
  match lookup k (filed s) with
  | Some t => (Ok (Some t), s)
  | None =>
      match build r (database s) with
      | Ok (Some t) => (Ok (Some t), mkState (database s) ((k, t) :: filed s) (packed s) (areas s))
      | o => (o, s)
      end
  end.

(** [std::max(x, lo)] then [std::min(x, hi)] *)
Definition clamped (lo hi x : R) : R :=
  let y := if Rlt_dec x lo then lo else x in if Rlt_dec hi y then hi else y.

(** Wire.cpp:530-583 [get_filling_factor] *)
Definition filling_factor (s : state) (k : key) (r : request) (x : R) : outcome R * state :=
  let '(o, s') := tables_for s k r in
  (t <- o ;;
   match t with
   | None => Throw "No wires in the database match the specification for filling factor key"
   | Some t => Ok (t_filling t (clamped (t_min t) (t_max t) x))
   end, s').

(** Wire.cpp:585-643 [get_outer_dimension]: the standard is dropped for
    rectangular wires, not from the key. *)
Definition outer_dimension (s : state) (k : key) (r : request) (x : R) : outcome R * state :=
  let r' := match r_kind r with
            | Rectangular | Foil | Planar =>
                mkRequest (r_axis r) (r_count r) (r_grade r) (r_layers r) (r_thickness r) (r_coating r) None (r_kind r) false
            | _ => mkRequest (r_axis r) (r_count r) (r_grade r) (r_layers r) (r_thickness r) (r_coating r) (r_standard r) (r_kind r) false
            end in
  let '(o, s') := tables_for s k r' in
  (t <- o ;;
   match t with
   | None => Throw "No wires in the database match the specification for outer dimension key"
   | Some t => Ok (t_coating t (clamped (t_min t) (t_max t) x) * x * 2 + x)
   end, s').

(** Wire.cpp:645-673 [get_packing_factor]: zero when the catalogue has no such wire *)
Definition packing_factor (s : state) (k : key) (count : nat) (grade layers : Z) (thickness : R) (standard : string)
    : outcome R * state :=
  match lookup k (packed s) with
  | Some t => (Ok (p_packing t (clamped (p_min t) (p_max t) (INR count))), s)
  | None =>
      match build_packing (Some grade) (Some layers) (Some thickness) (Some Insulated) (Some standard) (database s) with
      | Ok (Some t) =>
          (Ok (p_packing t (clamped (p_min t) (p_max t) (INR count))),
           mkState (database s) (filed s) ((k, t) :: packed s) (areas s))
      | Ok None => (Ok 0, s)
      | Throw e => (Throw e, s)
      | UB e => (UB e, s)
      | OutOfFuel => (OutOfFuel, s)
      end
  end.

(** What a user can ask for, and the replacement of the catalogue
    ([clear_databases] of src/support/Utils.cpp:315-325 and loading another), which
    leaves the interpolators. *)
Inductive query :=
  | FillingRound (d : R) (grade : Z) (standard : string) (air : bool)
  | OuterRound (d : R) (grade : Z) (standard : string)
  | FillingRoundIns (d : R) (layers : Z) (thickness : R) (standard : string) (air : bool)
  | OuterRoundIns (d : R) (layers : Z) (thickness : R) (standard : string)
  | FillingServed (d : R) (count : nat) (grade layers : Z) (standard : string) (air : bool)
  | FillingLitzIns (d : R) (count : nat) (layers : Z) (thickness : R) (grade : Z) (standard : string) (air : bool)
  | PackingLitzIns (count : nat) (layers : Z) (thickness : R) (grade : Z) (standard : string)
  | OuterWidth (w : R) (grade : Z) (standard : string)
  | OuterHeight (h : R) (grade : Z) (standard : string)
  | RectangularArea (w h : R) (standard : string)
  | Replace (db : catalogue).

(** The thicknesses of Wire.cpp:809 and :840, in um with two decimals *)
Definition known_thickness (t : R) : bool :=
  reqb t (508 / 10000000) || reqb t (762 / 10000000) || reqb t (381 / 10000000)
  || reqb t (254 / 10000000) || reqb t (1270 / 10000000).

(** Wire.cpp:803-811 and :834-842: the checks of insulated round wires.  A negative
    count of layers passes in the code. *)
Definition insulated_checks (layers : Z) (thickness : R) : option string :=
  if ((layers =? 0)%Z || (3 <? layers)%Z)%bool then Some "Unsupported number of layers"%string
  else if known_thickness thickness then None else Some "Unsupported layer thickness"%string.

(** The requests that each function makes. *)
Definition round_request (grade : Z) (standard : string) (air : bool) : request :=
  mkRequest Diameter 1 (Some grade) None None (Some Enamelled) (Some standard) RoundWire air.
Definition round_ins_request (layers : Z) (thickness : R) (standard : string) (air : bool) : request :=
  mkRequest Diameter 1 None (Some layers) (Some thickness) (Some Insulated) (Some standard) RoundWire air.
Definition served_request (count : nat) (grade layers : Z) (standard : string) (air : bool) : request :=
  mkRequest Diameter count (Some grade) (Some layers) None (Some Served) (Some standard) Litz air.
Definition litz_ins_request (count : nat) (layers : Z) (thickness : R) (grade : Z) (standard : string) (air : bool) : request :=
  mkRequest Diameter count (Some grade) (Some layers) (Some thickness) (Some Insulated) (Some standard) Litz air.
Definition width_request (grade : Z) (standard : string) : request :=
  mkRequest Width 1 (Some grade) None None (Some Enamelled) (Some standard) Rectangular false.
Definition height_request (grade : Z) (standard : string) : request :=
  mkRequest Height 1 (Some grade) None None (Some Enamelled) (Some standard) Rectangular false.

(** Wire.cpp:757-870, :897-917, :948-1005: each function and what it leaves behind *)
Definition ask (s : state) (q : query) : outcome R * state :=
  match q with
  | FillingRound d g std air => filling_factor s (KRound g std) (round_request g std air) d
  | OuterRound d g std => outer_dimension s (KRound g std) (round_request g std false) d
  | FillingRoundIns d l t std air =>
      match insulated_checks l t with
      | Some e => (Throw e, s)
      | None => filling_factor s (KRoundIns l (shown t) std) (round_ins_request l t std air) d
      end
  | OuterRoundIns d l t std =>
      match insulated_checks l t with
      | Some e => (Throw e, s)
      | None => outer_dimension s (KRoundIns l (shown t) std) (round_ins_request l t std false) d
      end
  | FillingServed d n g l std air => filling_factor s (KLitz g std) (served_request n g l std air) d
  | FillingLitzIns d n l t g std air => filling_factor s (KLitzIns l (shown t) std) (litz_ins_request n l t g std air) d
  | PackingLitzIns n l t g std => packing_factor s (KLitzIns l (shown t) std) n g l t std
  | OuterWidth w g std => outer_dimension s (KWidth g std) (width_request g std) w
  | OuterHeight h g std => outer_dimension s (KHeight g std) (height_request g std) h
  | RectangularArea w h std =>
      (* Wire.cpp:675-708, :998-1005 *)
      match slookup std (areas s) with
      | Some p => (Ok (rectangular_area (Some p) w h), s)
      | None =>
          match build_area (Some std) (database s) with
          | Ok (Some p) => (Ok (rectangular_area (Some p) w h),
                            mkState (database s) (filed s) (packed s) ((std, p) :: areas s))
          | Ok None => (Ok (rectangular_area None w h), s)
          | Throw e => (Throw e, s)
          | UB e => (UB e, s)
          | OutOfFuel => (OutOfFuel, s)
          end
      end
  | Replace db => (Ok 0, mkState db (filed s) (packed s) (areas s))
  end.

(** The state after a history of queries *)
Fixpoint after (s : state) (history : list query) : state :=
  match history with [] => s | q :: rest => after (snd (ask s q)) rest end.
End Tables.
