(** Lumped capacitance networks of a single layer winding
    (src/physical_models/StrayCapacitance.cpp).  Exact arithmetic; the values
    are kept reduced so that the witnesses stay small. *)
From Coq Require Import QArith Qround List Bool String ZArith.
From Verif Require Import Base.
Import ListNotations.
Local Open Scope Q_scope.
Local Open Scope outcome_scope.

(** The [for (double k = ...; k < n; k += by)] loops of lines 2199-2201 and
    2212-2214: one more rung of the ladder each time round. *)
Fixpoint climb (fuel : nat) (by_ k n : Q) (rung : Q -> Q) (value : Q) : outcome Q :=
  if Qlt_bool k n
  then match fuel with
       | O => OutOfFuel
       | S f => climb f by_ (k + by_) n rung (rung value)
       end
  else Ok value.

(** [n != std::floor(n)], lines 2194 and 2208. *)
Definition whole (n : Q) : bool := Qeq_bool n (inject_Z (Qfloor n)).

(** The body of the loop of [cab], line 2200. *)
Definition cab_rung (ctt cts value : Q) : Q :=
  Qred ((value * ctt / 2) / (value + ctt / 2) + cts / 2).

(** StrayCapacitance.cpp:2188-2203 [cab]: the capacitance between the ends of a
    winding of [n] turns.  [std::fmod(n, 2) == 0] is the parity of the integer.
    The fuel is the number of turns. *)
Definition cab (n ctt cts : Q) : outcome Q :=
  if Qlt_bool n 2 || negb (whole n) then Throw "InvalidInput"
  else
    let even := Z.even (Qfloor n) in
    let value := Qred (if even then ctt + cts / 2 else ctt / 2 + cts / 2) in
    climb (Z.to_nat (Qfloor n)) 2 (if even then 2 else 3) n (cab_rung ctt cts) value.

(** The body of the loop of [cas], line 2213. *)
Definition cas_rung (ctt cts value : Q) : Q := Qred ((value * ctt) / (value + ctt) + cts).

(** StrayCapacitance.cpp:2205-2215 [cas]: the capacitance between the winding
    and the shield. *)
Definition cas (n ctt cts : Q) : outcome Q :=
  if Qlt_bool n 1 || negb (whole n) then Throw "InvalidInput"
  else climb (Z.to_nat (Qfloor n)) 1 1 n (cas_rung ctt cts) cts.

(** StrayCapacitance.cpp:2299-2354, the part of
    [StrayCapacitanceOneLayer::calculate_capacitance] after the two elements are
    known: [toroidal] is the shape of the winding window, [n] the number of turns
    of the first winding, [layers] its number of layers when the coil has a layers
    description.  The elements [ctt] and [cts] themselves (logarithms) are
    inputs; the detour to the full model for conductors in contact
    (2286-2290) is not part of this function.  The check for a value that is not
    a number does nothing on exact values. *)
Definition one_layer (toroidal : bool) (n ctt cts : Q) (layers : option nat) : outcome Q :=
  if toroidal && Qlt_bool 1 n then Ok (ctt / (n - 1) + n * cts / 12)
  else
    casValue <- cas n ctt cts ;;
    c2 <- (if Qlt_bool 1 n
           then
             cabValue <- cab n ctt cts ;;
             let c2 := 2 * cabValue * casValue / (4 * cabValue - casValue) in
             let c1 := cabValue - cabValue * casValue / (4 * cabValue - casValue) in
             let c2 := c2 * 2 in
             Ok (Qred (if Qlt_bool (1 # 10000000000000) c1 then 1 / (1 / c2 + 1 / c1) else c2))
           else Ok casValue) ;;
    Ok (match layers with Some l => c2 * inject_Z (Z.of_nat l) | None => c2 end).

(** StrayCapacitance.cpp:597-613 [get_effective_relative_permittivity].  A
    thickness is [None] when it is infinite. *)
Definition effective_permittivity (t1 : option Q) (e1 : Q) (t2 : option Q) (e2 : Q) : Q :=
  match t1, t2 with
  | Some a, Some b =>
      if Qeq_bool a 0 then e2
      else if Qeq_bool b 0 then e1
      else e1 * e2 * (a + b) / (a * e2 + b * e1)
  | _, _ => cmax e1 e2
  end.
