(** Model of src/physical_models/ComplexPermeability.cpp: the complex permeability of a
    material, tabulated or derived from its initial permeability, and the interpolators
    that are kept by the name of the material.

    Simplified throughout: doubles are real numbers; a value that is not finite is
    [None] ([figure]). *)
From Coq Require Import Reals List Bool String ZArith.
From Verif Require Import Base StrMap CoreLossModel.
Import ListNotations.
Local Open Scope R_scope.
Local Open Scope outcome_scope.

(** * The permeability of the particles *)
(** ComplexPermeability.cpp:22-35, the table. *)
Definition drop_table : list (R * R) :=
  [(31/100, 1); (32/100, 2); (36/100, 5); (43/100, 10); (55/100, 25); (65/100, 50); (69/100, 100); (73/100, 300); (755/1000, 1000)].
Definition log10 (x : R) : R := ln x / ln 10.
(** ComplexPermeability.cpp:39-48: the first stretch that holds the value. *)
Fixpoint climb (x : R) (p : R * R) (l : list (R * R)) : R :=
  match l with
  | [] => 1
  | q :: rest =>
      if Rle_dec x (fst q) then
        Rpower 10 (log10 (snd p) + (x - fst p) / (fst q - fst p) * (log10 (snd q) - log10 (snd p)))
      else climb x q rest
  end.
Definition within (x : R) (table : list (R * R)) : R :=
  match table with
  | [] => 1
  | p :: rest =>
      if Rle_dec x (fst p) then snd p
      else if Rle_dec (fst (last rest p)) x then snd (last rest p)
      else climb x p rest
  end.
(** ComplexPermeability.cpp:21-50 [infer_F_mu_from_delta_FL]. *)
Definition infer (x : figure) : R := match x with None => 1 | Some v => within v drop_table end.

(** * A complex permeability from an initial one *)
(** ComplexPermeability.cpp:71-84: [F_mu] and [F_g]; the frequencies where the
    permeability has dropped by a tenth and a twentieth are given. *)
Definition factors (f90 f95 : figure) (initial : R) : R * R :=
  match f90, f95 with
  | Some a, Some b =>
      if Rlt_dec 0 a then
        if Rlt_dec b a then
          let mu := infer (Some ((a - b) / a)) in
          (mu, if Rlt_dec 1 mu then if Rlt_dec 1 initial then mu * (initial - 1) / (mu * initial - 1) else 1 else 1)
        else (1, 1)
      else (1, 1)
  | _, _ => (1, 1)
  end.

(** ComplexPermeability.cpp:133-140: the sheet, at a frequency relative to the anchor;
    real and imaginary parts. *)
Definition sheet (relative : R) : R * R :=
  let x := 2 * sqrt relative in
  let d := x * (cos x + cosh x) in
  ((sin x + sinh x) / d, - (sin x - sinh x) / d).
(** ComplexPermeability.cpp:142-154: the particles in their binder. *)
Definition gapped (mu g initial : R) (s : R * R) : R * R :=
  let re := mu * initial * fst s in
  let im := mu * initial * snd s in
  let dr := g + (1 - g) * re in
  let di := (1 - g) * im in
  let q := dr * dr + di * di in
  ((re * dr + im * di) / q, (im * dr - re * di) / q).

(** ComplexPermeability.cpp:103-128: where the initial permeability ends, its value and
    its slope there, from the two points of highest frequency; a point without frequency
    sorts as zero.  Simplified: points of equal frequency keep their order ([std::sort]
    may swap them). *)
Definition reading := (option R * R)%type.
Definition sort_key (p : reading) : R := match fst p with Some f => f | None => 0 end.
Fixpoint place (p : reading) (l : list reading) : list reading :=
  match l with
  | [] => [p]
  | q :: rest => if Rlt_dec (sort_key q) (sort_key p) then q :: place p rest else p :: l
  end.
Fixpoint arranged (l : list reading) : list reading :=
  match l with [] => [] | p :: rest => place p (arranged rest) end.
Definition ending (points : list reading) : option (R * R * R) :=
  match rev (arranged points) with
  | (Some f, v) :: (Some f', v') :: _ =>
      if Rlt_dec 0 v then if Rlt_dec 0 v' then if Rlt_dec f' f then
        Some (f, v, Rmin (ln (v / v') / ln (f / f')) 0)
      else None else None else None
  | _ => None
  end.

(** ComplexPermeability.cpp:167-176: the permeability measured, beyond the end carried
    on.  [initial_at f] is [InitialPermeability::get_initial_permeability] at a
    frequency. *)
Definition past (e : option (R * R * R)) (f : R) : option (R * R * R) :=
  match e with
  | Some (l, v, s) => if Rlt_dec 0 l then if Rlt_dec l f then Some (l, v, s) else None else None
  | None => None
  end.
Definition measured (initial_at : R -> R) (e : option (R * R * R)) (f : R) : R :=
  match past e f with
  | Some (l, v, s) => v * Rpower (f / l) s
  | None => initial_at f
  end.
(** ComplexPermeability.cpp:189-200: the slope of the measured permeability. *)
Definition step : R := 105 / 100.
Definition local_slope (initial_at : R -> R) (e : option (R * R * R)) (f : R) : R :=
  match past e f with
  | Some (_, _, s) => s
  | None =>
      let above := initial_at (f * step) in
      let below := initial_at (f / step) in
      if Rlt_dec 0 above then if Rlt_dec 0 below then ln (above / below) / (2 * ln step) else 0 else 0
  end.
(** ComplexPermeability.cpp:188, :201-204: the loss angle; [atan2] of a positive second
    argument. *)
Definition clamp (x low high : R) : R := if Rlt_dec x low then low else if Rlt_dec high x then high else x.
Definition loss_angle (core : R * R) (slope : R) : R :=
  Rmax (atan (Rmax (snd core) 0 / fst core)) (clamp (- slope) 0 (95 / 100) * PI / 2).
(** ComplexPermeability.cpp:132-219: one point of the derived table. *)
Definition derived (f90 f95 : figure) (anchor initial : R) (initial_at : R -> R) (e : option (R * R * R)) (relative : R)
    : R * (R * R) :=
  let (mu, g) := factors f90 f95 initial in
  let core := gapped mu g initial (sheet relative) in
  let f := relative * anchor in
  let m := measured initial_at e f in
  (f, if Rlt_dec 0 m then
        if Rlt_dec 0 (fst core) then
          let angle := loss_angle core (local_slope initial_at e f) in (m * cos angle, m * sin angle)
        else core
      else core).

(** * Interpolators kept by name *)
(** What a material offers: real and imaginary points, each with its frequency if it
    has one, from its own table or from the derived one. *)
Inductive offer := NoPermeability | NotTables | Tables (re im : list reading).
Record curve := mkCurve { low : R; high : R; through : R -> figure }.
Record memory := mkMemory { reals : smap curve; imaginaries : smap curve }.

Section Interpolators.
(** [tk::spline] of type [cspline_hermite], a library outside the repository, taken as
    any function. *)
Variable spline : list (R * R) -> R -> figure.

(** ComplexPermeability.cpp:290-295, :318-323: of points closer than a billionth the first is
    kept. *)
Fixpoint thinned (before : option R) (l : list (R * R)) : list (R * R) :=
  match l with
  | [] => []
  | p :: rest =>
      match before with
      | Some b => if Rlt_dec (1 / 1000000000) (Rabs (fst p - b)) then p :: thinned (Some (fst p)) rest else thinned before rest
      | None => p :: thinned (Some (fst p)) rest
      end
  end.
(** ComplexPermeability.cpp:285-287, :313-315: the sort reads every frequency, when there are two
    points or more. *)
Fixpoint frequencies (l : list reading) : option (list (R * R)) :=
  match l with
  | [] => Some []
  | (Some f, v) :: rest => match frequencies rest with Some r => Some ((f, v) :: r) | None => None end
  | (None, _) :: _ => None
  end.
Fixpoint put (p : R * R) (l : list (R * R)) : list (R * R) :=
  match l with
  | [] => [p]
  | q :: rest => if Rlt_dec (fst q) (fst p) then q :: put p rest else p :: l
  end.
Fixpoint lined (l : list (R * R)) : list (R * R) := match l with [] => [] | p :: rest => put p (lined rest) end.
(** ComplexPermeability.cpp:279-299, :308-327: a new interpolator and its span. *)
Definition build (points : list reading) : outcome curve :=
  match frequencies points with
  | None => match points with [_] => UB "no frequency" | _ => Throw "bad_optional_access" end
  | Some l =>
      match thinned None (lined l) with
      | [] => UB "front of an empty vector"
      | p :: rest => Ok (mkCurve (fst p) (fst (last rest p)) (spline (p :: rest)))
      end
  end.
(** [std::max(1., x)], which gives 1 for a value that is not a number. *)
Definition at_least_one (x : figure) : R := match x with Some v => if Rlt_dec 1 v then v else 1 | None => 1 end.
Definition read (c : curve) (f : R) : figure := through c (clamp f (low c) (high c)).
Definition look (re im : curve) (f : R) : outcome (R * R) :=
  match read im f with
  | Some v => Ok (at_least_one (read re f), v)
  | None => Throw "NaNResultException"
  end.
(** ComplexPermeability.cpp:228-337 [get_complex_permeability]: what is kept, and the
    answer. *)
Definition query (m : memory) (name : string) (o : offer) (f : R) : memory * outcome (R * R) :=
  match find name (reals m), find name (imaginaries m) with
  | Some re, Some im => (m, look re im f)
  | found, found' =>
      match o with
      | NoPermeability => (m, Throw "MaterialDataMissing")
      | NotTables => (m, Throw "InvalidInput")
      | Tables re im =>
          if Nat.ltb (List.length re) 2 then (m, Throw "InvalidInput")
          else
            match (match found with Some c => Ok c | None => build re end) with
            | Ok c =>
                let m' := mkMemory (insert name c (reals m)) (imaginaries m) in
                match (match found' with Some c' => Ok c' | None => build im end) with
                | Ok c' => (mkMemory (reals m') (insert name c' (imaginaries m')), look c c' f)
                | Throw e => (m', Throw e) | UB e => (m', UB e) | OutOfFuel => (m', OutOfFuel)
                end
            | Throw e => (m, Throw e) | UB e => (m, UB e) | OutOfFuel => (m, OutOfFuel)
            end
      end
  end.
Definition nothing_kept : memory := mkMemory [] [].
(** A history of questions. *)
Fixpoint history (m : memory) (l : list (string * offer * R)) : memory :=
  match l with [] => m | (n, o, f) :: rest => history (fst (query m n o f)) rest end.
End Interpolators.
