(** Model of src/physical_models/ExtendedCantilever.cpp: the inversion of the
    inductance matrix and the extended cantilever model built from it.  Reals
    are exact rationals. *)
From Coq Require Import ZArith QArith Qabs List String Bool.
From Verif Require Import Base NetworkModel.
Import ListNotations.
Open Scope Q_scope.
Open Scope outcome_scope.

(** ** Inversion *)

(** ExtendedCantilever.cpp:25-33: the row, from the diagonal down, with the
    largest entry of the column, the first of them, and the size of that entry. *)
Definition pivot_of (n column : nat) (a : matrix) : nat * Q :=
  fold_left (fun best row =>
      if Qlt_bool (snd best) (Qabs (a row column)) then (row, Qabs (a row column)) else best)
    (seq (S column) (n - S column)) (column, Qabs (a column column)).

(** ExtendedCantilever.cpp:43-47: a row divided by its pivot. *)
Definition scale_row (column : nat) (pivot : Q) (m : matrix) : matrix :=
  fun row k => if Nat.eqb row column then m row k / pivot else m row k.

(** ExtendedCantilever.cpp:48-57: the pivot row, times the entry [factor] that
    the row has in the column, taken from every other row. *)
Definition clear_column (column : nat) (factor : nat -> Q) (m : matrix) : matrix :=
  fun row k => if Nat.eqb row column then m row k else m row k - factor row * m column k.

(** ExtendedCantilever.cpp:24-58: the remaining [count] columns, from [column]
    on, of the matrix [a] and of the inverse under way. *)
Fixpoint jordan (count column n : nat) (a inverse : matrix) : outcome (matrix * matrix) :=
  match count with
  | O => Ok (a, inverse)
  | S count' =>
      let best := pivot_of n column a in
      if Qeq_bool (snd best) 0 then
        Throw "Cannot build extended-cantilever model: inductance matrix is singular"
      else
        let a1 := swap column (fst best) a in
        let inverse1 := swap column (fst best) inverse in
        let a2 := scale_row column (a1 column column) a1 in
        let inverse2 := scale_row column (a1 column column) inverse1 in
        jordan count' (S column) n
          (clear_column column (fun row => a2 row column) a2)
          (clear_column column (fun row => a2 row column) inverse2)
  end.

Definition identity : matrix := fun i j => if Nat.eqb i j then 1 else 0.

(** ExtendedCantilever.cpp:16-61 [invert_matrix]. *)
Definition invert_matrix (n : nat) (m : matrix) : outcome matrix :=
  r <- jordan n 0 n m identity ;; Ok (snd r).

(** ** The model *)

(** A [std::vector<std::vector<double>>] and the square one made of a function. *)
Definition table := list (list Q).
Definition cell (t : table) (i j : nat) : Q := nth j (nth i t []) 0.
Definition square (n : nat) (f : matrix) : table :=
  map (fun i => map (f i) (seq 0 n)) (seq 0 n).

(** ExtendedCantilever.cpp:67-78 [assemble_inductance_matrix]; a row of either
    matrix that is shorter than the number of windings is read past its end. *)
Definition assemble (leakage magnetizing : table) : outcome table :=
  let n := List.length magnetizing in
  if Nat.ltb (List.length leakage) n
     || existsb (fun row => Nat.ltb (List.length row) n) (firstn n leakage ++ magnetizing)
  then UB "matrix read past its end"
  else Ok (square n (fun j k => cell magnetizing j k + cell leakage j k)).

(** ExtendedCantilever.cpp:84-94 [rank1_magnetizing_matrix]. *)
Definition rank1 (magnetizing : Q) (ratios : list Q) : table :=
  square (List.length ratios) (fun j k => magnetizing * at_ ratios j * at_ ratios k).

(** ExtendedCantilever.h:27-33. *)
Record cantilever := mkCantilever {
  ec_magnetizing : Q;
  ec_ratios : list Q;
  ec_leakage : table }.

(** ExtendedCantilever.cpp:116-141 [build_from_inductance_matrix]; the matrix is
    the assembled one, which has a row and a column per winding. *)
Definition build_from_inductance_matrix (inductance : table) (magnetizing : Q) (ratios : list Q)
  : outcome cantilever :=
  let n := List.length ratios in
  b <- invert_matrix (List.length inductance) (cell inductance) ;;
  let denominator := fun j k => at_ ratios j * at_ ratios k * b j k in
  if existsb (fun j => existsb (fun k => negb (Nat.eqb j k) && Qeq_bool (denominator j k) 0) (seq 0 n)) (seq 0 n)
  then Throw "Cannot build extended-cantilever model: degenerate inverse-inductance coupling between windings"
  else Ok (mkCantilever magnetizing ratios
    (square n (fun j k => if Nat.eqb j k then 0 else - (1) / denominator j k))).

(** ExtendedCantilever.cpp:145-170 [ExtendedCantilever::build_from_leakage_matrix]. *)
Definition build_from_leakage_matrix (leakage : table) (magnetizing : Q) (ratios : list Q)
  : outcome cantilever :=
  let n := List.length ratios in
  if Nat.eqb n 0 then Throw "Cannot build extended-cantilever model: no windings"
  else if negb (Nat.eqb (List.length leakage) n) then
    Throw "Cannot build extended-cantilever model: leakage matrix size does not match number of windings"
  else if Qle_bool magnetizing 0 then
    Throw "Cannot build extended-cantilever model: magnetizing inductance must be positive"
  else
    l <- assemble leakage (rank1 magnetizing ratios) ;;
    build_from_inductance_matrix l magnetizing ratios.

(** ExtendedCantilever.cpp:172-194 [ExtendedCantilever::inverse_inductance_diagonal].
    The C++ divides by the inductances of the model, which may be zero in a
    hand-made one and give infinities; the 0 of Coq's division stands there. *)
Definition inverse_inductance_diagonal (m : cantilever) (w : nat) : outcome Q :=
  let n := List.length (ec_ratios m) in
  if Nat.leb n w then
    Throw "Cannot evaluate inverse-inductance diagonal: winding index out of range"
  else
    let s := fold_left (fun s i => if Nat.eqb i w then s else s + 1 / cell (ec_leakage m) w i) (seq 0 n) 0 in
    let s' := if Nat.eqb w 0 then s + 1 / ec_magnetizing m else s in
    Ok (s' / (at_ (ec_ratios m) w * at_ (ec_ratios m) w)).

(** ExtendedCantilever.cpp:196-198
    [ExtendedCantilever::short_circuit_output_inductance]. *)
Definition short_circuit_output_inductance (m : cantilever) (w : nat) : outcome Q :=
  b <- inverse_inductance_diagonal m w ;; Ok (1 / b).
