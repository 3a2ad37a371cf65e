(** Model of the outer dimensions of a magnetic and of the test whether it fits
    in a volume: src/constructive_models/Magnetic.cpp:54-174, Core.cpp:2290-2408,
    Coil.cpp:13741-13781, Bobbin.cpp:1092-1114, and the filters of
    src/advisers/MagneticFilterGeometry.cpp that read them.  Exact arithmetic;
    dimensions are numbers (no NaN). *)
From Coq Require Import ZArith QArith Qabs List String Bool.
From Verif Require Import Base.
Import ListNotations.
Open Scope outcome_scope.
Open Scope Q_scope.
Open Scope string_scope.

(** MAS::MaximumDimensions. *)
Record limits := mkLimits { l_width : option Q; l_height : option Q; l_depth : option Q }.

(** The vector {width, height, depth} of [get_maximum_dimensions]. *)
Record box := mkBox { b_width : Q; b_height : Q; b_depth : Q }.

(** Magnetic.cpp:68-73, Core.cpp:2290-2295 [fits_one_dimension]. *)
Definition fits_one_dimension (m : box) (dimension : Q) : bool :=
  Qle_bool (b_depth m) dimension || Qle_bool (b_height m) dimension || Qle_bool (b_width m) dimension.

(** Magnetic.cpp:75-82, Core.cpp:2297-2304 [fits_two_dimensions]. *)
Definition fits_two_dimensions (m : box) (first second : Q) : bool :=
  (Qle_bool (b_depth m) first && (Qle_bool (b_height m) second || Qle_bool (b_width m) second))
  || (Qle_bool (b_height m) first && (Qle_bool (b_depth m) second || Qle_bool (b_width m) second))
  || (Qle_bool (b_width m) first && (Qle_bool (b_height m) second || Qle_bool (b_depth m) second)).

(** Magnetic.cpp:84-94, Core.cpp:2306-2316 [fits_three_dimensions]. *)
Definition fits_three_dimensions (m : box) (first second third : Q) : bool :=
  (Qle_bool (b_depth m) first && Qle_bool (b_height m) second && Qle_bool (b_width m) third)
  || (Qle_bool (b_depth m) first && Qle_bool (b_height m) third && Qle_bool (b_width m) second)
  || (Qle_bool (b_depth m) second && Qle_bool (b_height m) first && Qle_bool (b_width m) third)
  || (Qle_bool (b_depth m) second && Qle_bool (b_height m) third && Qle_bool (b_width m) first)
  || (Qle_bool (b_depth m) third && Qle_bool (b_height m) first && Qle_bool (b_width m) second)
  || (Qle_bool (b_depth m) third && Qle_bool (b_height m) second && Qle_bool (b_width m) first).

(** Magnetic.cpp:96-174 [Magnetic::fits] and Core.cpp:2318-2399 [Core::fits], the
    same text on the dimensions of the magnetic and on those of the core. *)
Definition fits (m : box) (l : limits) (rotation : bool) : bool :=
  match l_depth l, l_height l, l_width l with
  | None, None, None => true
  | Some d, None, None => if rotation then fits_one_dimension m d else Qle_bool (b_depth m) d
  | None, Some h, None => if rotation then fits_one_dimension m h else Qle_bool (b_height m) h
  | None, None, Some w => if rotation then fits_one_dimension m w else Qle_bool (b_width m) w
  | Some d, Some h, None =>
      if rotation then fits_two_dimensions m d h else Qle_bool (b_depth m) d && Qle_bool (b_height m) h
  | None, Some h, Some w =>
      if rotation then fits_two_dimensions m w h else Qle_bool (b_width m) w && Qle_bool (b_height m) h
  | Some d, None, Some w =>
      if rotation then fits_two_dimensions m w d else Qle_bool (b_depth m) d && Qle_bool (b_width m) w
  | Some d, Some h, Some w =>
      if rotation then fits_three_dimensions m d h w
      else Qle_bool (b_depth m) d && Qle_bool (b_height m) h && Qle_bool (b_width m) w
  end.

(** MAS::CoreBobbinProcessedDescription: what the dimensions read.  The column
    width is optional in the schema. *)
Inductive window_shape := RECTANGULAR | ROUND.
Record bobbin := mkBobbin {
  bo_shape : window_shape; bo_column_width : option Q; bo_column_depth : Q;
  bo_wall : Q; bo_window_width : Q; bo_window_height : Q }.

(** Bobbin.cpp:1092-1114 [Bobbin::get_maximum_dimensions]; the bobbin is processed. *)
Definition bobbin_dimensions (b : bobbin) : outcome box :=
  match bo_shape b with
  | RECTANGULAR =>
      match bo_column_width b with
      | None => Throw "bad optional access"
      | Some w =>
          Ok (mkBox (2 * (w + bo_window_width b)) (2 * bo_wall b + bo_window_height b)
                    (2 * (bo_column_depth b + bo_window_width b)))
      end
  | ROUND => Ok (mkBox 0 0 0)
  end.

(** MAS::Turn: its centre, the second crossing of a toroidal turn, its size. *)
Record turn := mkTurn {
  t_centre : Q * Q; t_additional : option (list (Q * Q)); t_size : option (Q * Q) }.

(** Coil.cpp:13754-13772, one round of the loop: how far the turn reaches from the
    centre of the component.  A toroidal turn is judged by its outer crossing. *)
Definition turn_reach (t : turn) : outcome (Q * Q) :=
  match t_additional t with
  | Some nil => UB "additionalCoordinates[0] of an empty vector"
  | Some ((x, y) :: _) =>
      match t_size t with
      | None => Throw "bad optional access"
      | Some (w, h) => Ok (Qabs x + w / 2, Qabs y + h / 2)
      end
  | None =>
      match t_size t with
      | None => Throw "bad optional access"
      | Some (w, h) => Ok (Qabs (fst (t_centre t)) + w / 2, Qabs (snd (t_centre t)) + h / 2)
      end
  end.
Fixpoint reach_loop (l : list turn) (width height : Q) : outcome (Q * Q) :=
  match l with
  | nil => Ok (width, height)
  | t :: rest => r <- turn_reach t ;; reach_loop rest (cmax width (fst r)) (cmax height (snd r))
  end.

(** Coil.cpp:13741-13781 [Coil::get_maximum_dimensions]. *)
Record coil := mkCoil { co_bobbin : bobbin; co_turns : option (list turn) }.
Definition coil_dimensions (c : coil) : outcome box :=
  b <- bobbin_dimensions (co_bobbin c) ;;
  match co_turns c with
  | None => Throw "Missing turns"
  | Some turns =>
      r <- reach_loop turns 0 0 ;;
      let extra := b_width b - b_depth b in
      let depth := fst r + extra in
      Ok (mkBox (cmax (fst r) (b_width b)) (cmax (snd r) (b_height b)) (cmax depth (b_depth b)))
  end.

(** A magnetic: the box of its processed core (Core.cpp:2401-2408), its coil, and
    the box it remembers (Magnetic.h [_maximumDimensions], copied with it). *)
Record magnetic := mkMagnetic { m_core : box; m_coil : coil; m_memory : option box }.

(** Magnetic.cpp:54-63 [Magnetic::get_maximum_dimensions]: the answer and the
    magnetic it leaves. *)
Definition maximum_dimensions (m : magnetic) : outcome (box * magnetic) :=
  match m_memory m with
  | Some b => Ok (b, m)
  | None =>
      c <- coil_dimensions (m_coil m) ;;
      let k := m_core m in
      let b := mkBox (cmax (b_width k) (b_width c)) (cmax (b_height k) (b_height c))
                     (cmax (b_depth k) (b_depth c)) in
      Ok (b, mkMagnetic k (m_coil m) (Some b))
  end.
Definition magnetic_fits (m : magnetic) (l : limits) (rotation : bool) : outcome (bool * magnetic) :=
  r <- maximum_dimensions m ;; Ok (fits (fst r) l rotation, snd r).

(** [set_core], [get_mutable_core() = …], [set_coil]: the parts change, the memory stays. *)
Definition with_core (m : magnetic) (k : box) : magnetic := mkMagnetic k (m_coil m) (m_memory m).
Definition with_coil (m : magnetic) (c : coil) : magnetic := mkMagnetic (m_core m) c (m_memory m).

(** MagneticFilterGeometry.cpp:119-131 [MagneticFilterMaximumDimensions].  The score is
    the square of the distance the code takes the root of. *)
Definition dimensions_filter (m : magnetic) (required : option limits) : outcome (bool * Q * magnetic) :=
  match required with
  | None => Ok (true, 0, m)
  | Some l =>
      r <- maximum_dimensions m ;;
      let b := fst r in
      match l_width l, l_height l, l_depth l with
      | Some w, Some h, Some d =>
          let score := (w - b_width b) * (w - b_width b) + (h - b_height b) * (h - b_height b)
                       + (d - b_depth b) * (d - b_depth b) in
          Ok (fits b l true, score, snd r)
      | _, _, _ => Throw "bad optional access"
      end
  end.

(** MagneticFilterGeometry.cpp:133-149 [MagneticFilterVolume], [MagneticFilterArea],
    [MagneticFilterHeight]: always valid, the score. *)
Definition volume_filter (m : magnetic) : outcome (Q * magnetic) :=
  r <- maximum_dimensions m ;; Ok (b_width (fst r) * b_height (fst r) * b_depth (fst r), snd r).
Definition area_filter (m : magnetic) : outcome (Q * magnetic) :=
  r <- maximum_dimensions m ;; Ok (b_width (fst r) * b_depth (fst r), snd r).
Definition height_filter (m : magnetic) : outcome (Q * magnetic) :=
  r <- maximum_dimensions m ;; Ok (b_height (fst r), snd r).
