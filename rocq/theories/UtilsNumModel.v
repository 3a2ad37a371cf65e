(** Numeric helpers of src/support/Utils.cpp and src/Definitions.h.
    Doubles are exact rationals here; NaN is explicit where the code looks for it. *)
From Coq Require Import ZArith QArith Qround List String Bool.
From Verif Require Import Base.
Import ListNotations.
Open Scope Q_scope.
Open Scope string_scope.

(** MAS::DimensionWithTolerance (generated header): three optional numbers. *)
Record dwt := mk_dwt { minimum : option Q; nominal : option Q; maximum : option Q }.

(** MAS::Dimension: a plain number or a DimensionWithTolerance. *)
Inductive dimension := DNumber (v : Q) | DTol (d : dwt).

(** src/Defaults.h [magnetizingInductanceThresholdValidity]. *)
Definition magnetizingInductanceThresholdValidity : Q := 1#4.

(** src/support/Utils.cpp:1537-1574 [check_requirement]. *)
Definition check_requirement (r : dwt) (value : Q) : outcome bool :=
  match minimum r, nominal r, maximum r with
  | Some mn, nom, Some mx =>
      if Qlt_bool mx mn then Throw "Minimum requirement cannot be larger than maximum"
      else match nom with
           | Some n =>
               if Qlt_bool mx n then Throw "Nominal requirement cannot be larger than maximum"
               else Ok (Qle_bool mn value && Qle_bool value mx)
           | None => Ok (Qle_bool mn value && Qle_bool value mx)
           end
  | None, Some n, Some mx =>
      if Qlt_bool mx n then Throw "Nominal requirement cannot be larger than maximum"
      else Ok (Qle_bool n value && Qle_bool value mx)
  | Some mn, Some n, None =>
      if Qlt_bool n mn then Throw "Minimum requirement cannot be larger than nominal"
      else Ok (Qle_bool mn value && Qle_bool value n)
  | None, Some n, None =>
      Ok (Qle_bool (n * (1 - magnetizingInductanceThresholdValidity)) value &&
          Qle_bool value (n * (1 + magnetizingInductanceThresholdValidity)))
  | Some mn, None, None => Ok (Qlt_bool mn value)
  | None, None, Some mx => Ok (Qlt_bool value mx)
  | None, None, None => Ok false
  end.

(** src/Definitions.h [DimensionalValues]. *)
Inductive dimensional_values := MAXIMUM | NOMINAL | MINIMUM.

(** src/Definitions.h:707-757 [resolve_dimensional_values]. *)
Definition resolve_dimensional_values (d : dimension) (preferred : dimensional_values) : outcome Q :=
  match d with
  | DNumber v => Ok v
  | DTol r =>
      match preferred, minimum r, nominal r, maximum r with
      | _, None, None, None =>
          Throw "resolve_dimensional_values: DimensionWithTolerance has neither nominal, minimum nor maximum set"
      | MAXIMUM, _, _, Some mx => Ok mx
      | MAXIMUM, _, Some n, None => Ok n
      | MAXIMUM, Some mn, None, None => Ok mn
      | NOMINAL, _, Some n, _ => Ok n
      | NOMINAL, Some mn, None, Some mx => Ok ((mx + mn) / 2)
      | NOMINAL, None, None, Some mx => Ok mx
      | NOMINAL, Some mn, None, None => Ok mn
      | MINIMUM, Some mn, _, _ => Ok mn
      | MINIMUM, None, Some n, _ => Ok n
      | MINIMUM, None, None, Some mx => Ok mx
      end
  end.

(** A double that may be NaN: [None] is NaN. *)
Definition nanQ := option Q.
(** [a < b] on doubles: false as soon as one is NaN. *)
Definition nan_lt (a b : nanQ) : bool :=
  match a, b with Some x, Some y => Qlt_bool x y | _, _ => false end.

(** [std::max_element] / [std::min_element] on a non-empty range [x :: l]:
    keeps the current best [m] and replaces it by [y] when [m < y] (resp.
    [y < m]). *)
Fixpoint max_element (m : nanQ) (l : list nanQ) : nanQ :=
  match l with [] => m | y :: t => max_element (if nan_lt m y then y else m) t end.
Fixpoint min_element (m : nanQ) (l : list nanQ) : nanQ :=
  match l with [] => m | y :: t => min_element (if nan_lt y m then y else m) t end.

(** src/support/Utils.cpp:3067-3117 [normalize_scoring], the vector overload,
    with [log = false]: the body of the loop for one score.  [None] max or min
    can only happen when a NaN is present, and then the loop throws; the value
    computed meanwhile is irrelevant. *)
Definition normalize_one (mx mn : Q) (weight : Q) (invert : bool) (value : Q) : Q :=
  if negb (Qeq_bool mx mn) then
    if invert then weight * (1 - (value - mn) / (mx - mn))
    else weight * (value - mn) / (mx - mn)
  else weight.

Fixpoint normalize_loop (mx mn : nanQ) (weight : Q) (invert : bool) (l : list nanQ)
  : outcome (list Q) :=
  match l with
  | [] => Ok []
  | None :: _ => Throw "scoring cannot be nan in normalize_scoring"
  | Some v :: t =>
      bind (normalize_loop mx mn weight invert t) (fun r =>
      match mx, mn with
      | Some a, Some b => Ok (normalize_one a b weight invert v :: r)
      | _, _ => Throw "scoring cannot be nan in normalize_scoring"
      end)
  end.

(** src/support/Utils.cpp:3067-3117 [normalize_scoring], linear mode. *)
Definition normalize_scoring (scoring : list nanQ) (weight : Q) (invert : bool)
  : outcome (list Q) :=
  match scoring with
  | [] => Ok []
  | x :: l =>
      normalize_loop (max_element x l) (min_element x l) weight invert scoring
  end.

(** src/support/Utils.cpp:3119-3133 [normalize_scoring] over candidates with an
    accumulated score: candidate [i] gets the [i]-th normalised score added;
    reading past the normalised scores is undefined behaviour. *)
Fixpoint add_scores {C : Type} (cands : list (C * Q)) (n : list Q) : outcome (list (C * Q)) :=
  match cands, n with
  | [], _ => Ok []
  | _ :: _, [] => UB "normalizedScorings[i] out of range"
  | (c, s) :: ct, x :: nt => bind (add_scores ct nt) (fun r => Ok ((c, s + x) :: r))
  end.
Definition normalize_candidates {C : Type} (cands : list (C * Q)) (scoring : list nanQ)
  (weight : Q) (invert : bool) : outcome (list (C * Q)) :=
  bind (normalize_scoring scoring weight invert) (add_scores cands).

(** src/support/Utils.cpp:3143-3187 [find_closest_index]: the binary search loop
    on indexes [i, j) with the last probe [mid]; the vector is non-empty
    (front() and back() of an empty vector are undefined behaviour). *)
Fixpoint closest_loop (fuel : nat) (v : list Q) (value : Q) (i j mid : nat) : outcome nat :=
  match fuel with
  | O => OutOfFuel
  | S fuel' =>
    if Nat.ltb i j then
      let m := Nat.div (i + j) 2 in
      let vm := nth m v 0 in
      if Qeq_bool vm value then Ok m
      else if Qlt_bool value vm then
        if (Nat.ltb 0 m && Qlt_bool (nth (m - 1) v 0) value
            && Qle_bool (vm - value) (value - nth (m - 1) v 0))%bool then Ok m
        else closest_loop fuel' v value i m m
      else
        if (Nat.ltb m (List.length v - 1) && Qlt_bool value (nth (m + 1) v 0)
            && Qle_bool (nth (m + 1) v 0 - value) (value - vm))%bool then Ok (m + 1)%nat
        else closest_loop fuel' v value (m + 1) j m
    else Ok mid
  end.

Definition find_closest_index (v : list Q) (value : Q) : outcome nat :=
  match v with
  | [] => UB "front() of an empty vector"
  | x :: t =>
      if Qle_bool value x then Ok 0%nat
      else if Qle_bool (last v x) value then Ok (List.length v - 1)%nat
      else closest_loop (S (List.length v)) v value 0 (List.length v) 0
  end.

(** src/support/Utils.cpp:2381-2390 [linear_spaced_array]: [x_k = a + h + ... + h].
    [N = 1] divides by zero (a non-finite step that is never used for the single
    element); exact arithmetic gives step 0 there. *)
Fixpoint spaced_from (val h : Q) (n : nat) : list Q :=
  match n with O => [] | S n' => val :: spaced_from (val + h) h n' end.
Definition linear_spaced_array (a b : Q) (n : nat) : list Q :=
  spaced_from a ((b - a) / inject_Z (Z.of_nat n - 1)) n.

(** src/support/Utils.cpp:2205-2207 [is_size_power_of_2], on the size. *)
Definition is_size_power_of_2 (size : N) : bool :=
  (N.ltb 0 size && N.eqb (N.land size (size - 1)) 0)%bool.
