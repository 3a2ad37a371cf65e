(** Shared vocabulary of the model: outcomes of a C++ call and the exact
    rational counterparts of the rounding functions of the C++ code. *)
From Coq Require Import ZArith QArith Qround Qabs Qminmax List String Lia Lqa.
Import ListNotations.

(** What a C++ call can do.  [Throw] carries the text of the error class; [UB]
    is undefined behaviour (index out of range, integer division by zero,
    iterator outside its container); [OutOfFuel] is a modelled loop that did not
    finish within its fuel. *)
Inductive outcome (A : Type) : Type :=
| Ok (a : A)
| Throw (why : string)
| UB (why : string)
| OutOfFuel.
Arguments Ok {A} a.
Arguments Throw {A} why.
Arguments UB {A} why.
Arguments OutOfFuel {A}.

Definition bind {A B} (m : outcome A) (f : A -> outcome B) : outcome B :=
  match m with
  | Ok a => f a
  | Throw w => Throw w
  | UB w => UB w
  | OutOfFuel => OutOfFuel
  end.

Declare Scope outcome_scope.
Notation "x <- m ;; f" := (bind m (fun x => f))
  (at level 61, m at next level, right associativity) : outcome_scope.

Open Scope Q_scope.

(** [std::round] on an exact value: nearest integer, halves away from zero. *)
Definition qround (x : Q) : Z :=
  if Qle_bool 0 x then Qfloor (x + (1#2)) else (- Qfloor (- x + (1#2)))%Z.

(** [pow(10, decimals)] for the non-negative [decimals] used by the code. *)
Definition p10 (d : nat) : Q := inject_Z (10 ^ Z.of_nat d).

(** src/support/Utils.cpp:1576-1578 [roundFloat]. Exact arithmetic. *)
Definition roundFloat (value : Q) (decimals : nat) : Q :=
  inject_Z (qround (value * p10 decimals)) / p10 decimals.

(** src/support/Utils.cpp:2120-2122 [ceilFloat]. Exact arithmetic. *)
Definition ceilFloat (value : Q) (decimals : nat) : Q :=
  inject_Z (Qceiling (value * p10 decimals)) / p10 decimals.

(** src/support/Utils.cpp:2125-2127 [floorFloat]. Exact arithmetic. *)
Definition floorFloat (value : Q) (decimals : nat) : Q :=
  inject_Z (Qfloor (value * p10 decimals)) / p10 decimals.

(** [<] and [<=] of doubles on exact values. *)
Definition Qlt_bool (x y : Q) : bool := negb (Qle_bool y x).

(** [std::max(a, b)] returns [a] unless [a < b]; [std::min(a, b)] returns [a]
    unless [b < a]. *)
Definition cmax (a b : Q) : Q := if Qlt_bool a b then b else a.
Definition cmin (a b : Q) : Q := if Qlt_bool b a then b else a.
