(** Model of src/advisers/CoreCrossReferencer.cpp and CrossReferencerCommon.h: the cores
    most similar to a reference core.

    Simplified throughout: doubles are exact; the losses and the peak of the flux density
    are NaN together ([None]); no other figure is NaN.  The filters keep their default
    configuration (linear, inverted), CoreCrossReferencer.h:25-32. *)
From Coq Require Import QArith Qabs List Bool String Arith.
From Verif Require Import Base UtilsNumModel UtilsNumProofs WireAdviseModel.
Import ListNotations.
Local Open Scope Q_scope.
Local Open Scope outcome_scope.

(** * CrossReferencerCommon.h *)
(** Defaults.h:183-185. *)
Definition absolute_floor : Q := 1 # 10000000000.
Definition relative_floor : Q := 1 # 1000000.
Definition neutral : Q := 1 # 2.
(** CrossReferencerCommon.h:72 and :84-109: what a distance adds to a score, given the
    greatest and the least distance. *)
Definition floor_of (mx : Q) : Q := cmax absolute_floor (mx * relative_floor).
Definition term (w mx mn d : Q) : Q :=
  let least := cmax (floor_of mx) mn in
  if Qeq_bool mx least then w * neutral
  else w * (1 - (cmax (floor_of mx) d - least) / (mx - least)).
Definition above {A : Type} (a b : A * Q) : bool := Qlt_bool (snd b) (snd a).
(** CrossReferencerCommon.h:52-115 [normalize_scoring] for finite distances: the [i]-th
    distance goes to the [i]-th item, whichever it is, and the items are sorted. *)
Definition grade {A : Type} (w : Q) (l : list (A * Q)) (ds : list Q) : list (A * Q) :=
  match ds with
  | [] => l
  | d :: r =>
      sort_by above (map (fun p => (fst (fst p), snd (fst p) + term w (Qmaxl d r) (Qminl d r) (snd p))) (combine l ds))
  end.

(** CrossReferencerCommon.h:139-213 [compute_normalized_scorings], one filter: what is
    reported for a distance [d]. *)
Definition reported (weighted : bool) (w mx mn d : Q) : Q :=
  let least := cmax absolute_floor (cmax mn (mx * relative_floor)) in
  let k := if weighted then w else 1 in
  if Qeq_bool least mx then k * neutral else k * (1 - (d - least) / (mx - least)).

(** * CoreCrossReferencer.cpp *)
(** A core, processed: name, shape, material, manufacturer, permeance and losses with flux
    density peak for the inputs of the search and the turns of the reference, area of the
    first winding window, effective area, depth, height and width, flux density of
    saturation (not zero), and whether it fits the maximum dimensions. *)
Record core := mkCore {
  c_name : nat; c_shape : nat; c_material : nat; c_maker : nat;
  c_permeance : Q; c_window : option Q; c_area : Q; c_box : Q * Q * Q;
  c_losses : option (Q * Q); c_saturation : Q; c_fits : bool
}.
Inductive figure := Permeance | Window | Volume | Area.
Definition figure_eqb (a b : figure) : bool :=
  match a, b with Permeance, Permeance | Window, Window | Volume, Volume | Area, Area => true | _, _ => false end.
(** [_scorings] and [_validScorings], by figure and name; those of losses and saturation
    are always stored together. *)
Record memory := mkMemory { figures : figure -> nat -> option Q; both : nat -> option (Q * Q) }.
Definition nothing : memory := mkMemory (fun _ _ => None) (fun _ => None).
Definition remember (f : figure) (n : nat) (d : Q) (m : memory) : memory :=
  mkMemory (fun g k => if figure_eqb g f && Nat.eqb k n then Some d else figures m g k) (both m).
Definition remember_both (n : nat) (d : Q * Q) (m : memory) : memory :=
  mkMemory (figures m) (fun k => if Nat.eqb k n then Some d else both m k).

(** CoreCrossReferencer.cpp:83-127 and its copies for the other figures: who is left, with
    the distance.  Simplified: those left carry their distances instead of erasing the
    others by index afterwards. *)
Fixpoint survey (f : figure) (near : core -> outcome (option Q)) (m : memory) (l : list (core * Q)) : outcome (list ((core * Q) * Q) * memory) :=
  match l with
  | [] => Ok ([], m)
  | x :: r =>
      match figures m f (c_name (fst x)) with
      | Some d => t <- survey f near m r ;; Ok ((x, d) :: fst t, snd t)
      | None =>
          v <- near (fst x) ;;
          match v with
          | Some d => t <- survey f near (remember f (c_name (fst x)) d m) r ;; Ok ((x, d) :: fst t, snd t)
          | None => survey f near m r
          end
      end
  end.
Definition filtered (f : figure) (near : core -> outcome (option Q)) (w : Q) (ml : memory * list (core * Q)) : outcome (memory * list (core * Q)) :=
  t <- survey f near (fst ml) (snd ml) ;; Ok (snd t, grade w (map fst (fst t)) (map snd (fst t))).

(** [reference != 0 && fabs(reference - x) / reference < limit], and the distance. *)
Definition within (limit ref x : Q) : bool := negb (Qeq_bool ref 0) && Qlt_bool (Qabs (ref - x) / ref) limit.
Definition close (limit ref x : Q) : option Q := if within limit ref x then Some (Qabs (ref - x)) else None.

Section Search.
Variable ref : core.
Variable weight : figure -> Q.
Variables loss_weight saturation_weight : Q.
Variable limit : Q.
(** CoreCrossReferencer.cpp:306-312: the three dimensions at once. *)
Definition box_distance (c : core) : option Q :=
  let '(d, h, w) := c_box ref in
  let '(d', h', w') := c_box c in
  if within limit d d' && within limit h h' && within limit w w'
  then Some (Qabs (d - d') / d + Qabs (h - h') / h + Qabs (w - w') / w) else None.
Definition flat : bool := let '(d, h, w) := c_box ref in Qle_bool d 0 || Qle_bool h 0 || Qle_bool w 0.
(** The distance of a core from the reference if it is near enough: permeance
    CoreCrossReferencer.cpp:97-113, window :170-183, volume :302-316, effective area
    :233-247. *)
Definition near (f : figure) (c : core) : outcome (option Q) :=
  match f with
  | Permeance => Ok (close limit (c_permeance ref) (c_permeance c))
  | Window => match c_window ref, c_window c with
              | Some r, Some x => Ok (close limit r x)
              | _, _ => Throw "Winding window is missing area"
              end
  | Volume => Ok (box_distance c)
  | Area => Ok (close limit (c_area ref) (c_area c))
  end.
(** The filters: permeance CoreCrossReferencer.cpp:58-138, window :140-202, effective area
    :204-266, volume :268-334. *)
Definition by_figure (f : figure) (ml : memory * list (core * Q)) : outcome (memory * list (core * Q)) :=
  if Qle_bool (weight f) 0 then Ok ml
  else match f with
       | Window => match c_window ref with
                   | None => Throw "Winding window is missing area"
                   | Some _ => filtered f (near f) (weight f) ml
                   end
       | Volume => if flat then Ok ml else filtered f (near f) (weight f) ml
       | _ => filtered f (near f) (weight f) ml
       end.
(** CoreCrossReferencer.cpp:423-551.  The peak of a core without losses is NaN, so it is
    not under saturation. *)
Definition saturation_ratio (peak sat : Q) : Q := 1 + (peak - sat) / sat.
Definition loss_distance (loss peak : Q) (c : core) : option (Q * Q) :=
  match c_losses c with
  | None => None
  | Some (l, b) =>
      if Qlt_bool b (c_saturation c) && (within limit loss l || Qle_bool 1 limit)
      then Some (Qabs (loss - l), Qabs (saturation_ratio peak (c_saturation ref) - saturation_ratio b (c_saturation c)))
      else None
  end.
Fixpoint survey_losses (loss peak : Q) (m : memory) (l : list (core * Q)) : list ((core * Q) * (Q * Q)) * memory :=
  match l with
  | [] => ([], m)
  | x :: r =>
      match both m (c_name (fst x)) with
      | Some d => let t := survey_losses loss peak m r in ((x, d) :: fst t, snd t)
      | None =>
          match loss_distance loss peak (fst x) with
          | Some d => let t := survey_losses loss peak (remember_both (c_name (fst x)) d m) r in ((x, d) :: fst t, snd t)
          | None => survey_losses loss peak m r
          end
      end
  end.
(** The second [normalize_scoring] (line 548) runs on cores the first one (line 544) has
    sorted, with distances in the order from before. *)
Definition by_losses (ml : memory * list (core * Q)) : memory * list (core * Q) :=
  if Qle_bool loss_weight 0 then ml
  else match c_losses ref with
       | None => ml
       | Some (loss, peak) =>
           let t := survey_losses loss peak (fst ml) (snd ml) in
           (snd t, grade saturation_weight (grade loss_weight (map fst (fst t)) (map (fun p => fst (snd p)) (fst t))) (map (fun p => snd (snd p)) (fst t)))
       end.
(** CoreCrossReferencer.cpp:621-675 [apply_filters]; [1.1 * maximumNumberResults] is
    exact. *)
Definition apply_filters (most : nat) (m : memory) (cs : list core) : outcome (memory * list (core * Q)) :=
  a <- by_figure Permeance (m, map (fun c => (c, 0)) cs) ;;
  b <- by_figure Window a ;;
  c <- by_figure Volume b ;;
  d <- by_figure Area c ;;
  let e := by_losses (fst d, firstn (11 * most / 10) (snd d)) in
  Ok (fst e, firstn most (snd e)).
End Search.

(** CoreCrossReferencer.cpp:583-597: the cores of the catalogue that are candidates; a
    manufacturer asked for is [Some].  A core without manufacturer is dereferenced in the
    code; here it has one. *)
Definition contender (ref : core) (maker : option nat) (same_material : bool) (c : core) : bool :=
  (negb (Nat.eqb (c_shape ref) (c_shape c)) || negb (Nat.eqb (c_material ref) (c_material c))) &&
  match maker with Some k => Nat.eqb (c_maker c) k | None => true end &&
  (negb same_material || Nat.eqb (c_material ref) (c_material c)) && c_fits c.
(** CoreCrossReferencer.cpp:605-616: the limit is widened until there are enough. *)
Definition next_limit (limit : Q) : Q := if Qlt_bool limit (1 # 100) then 1 # 4 else limit * 2.
Fixpoint widen (fuel : nat) (ref : core) (weight : figure -> Q) (lw sw : Q) (greatest : Q) (most : nat) (cs : list core)
    (limit : Q) (m : memory) (found : list (core * Q)) : outcome (Q * (memory * list (core * Q))) :=
  if Qle_bool limit greatest && Nat.ltb (List.length found) most then
    match fuel with
    | O => OutOfFuel
    | Datatypes.S fuel =>
        r <- apply_filters ref weight lw sw (next_limit limit) most m cs ;;
        widen fuel ref weight lw sw greatest most cs (next_limit limit) (fst r) (snd r)
    end
  else Ok (limit, (m, found)).
(** CoreCrossReferencer.cpp:562-619 [get_cross_referenced_core], with the limit reached;
    the memory stays in the object. *)
Definition search (fuel : nat) (ref : core) (weight : figure -> Q) (lw sw : Q) (greatest : Q) (maker : option nat) (same_material : bool)
    (most : nat) (db : list core) (m : memory) : outcome (Q * (memory * list (core * Q))) :=
  widen fuel ref weight lw sw greatest most (filter (contender ref maker same_material) db) 0 m [].
