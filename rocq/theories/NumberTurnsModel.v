(** Enumeration of turn combinations: src/constructive_models/NumberTurns.h and
    src/constructive_models/NumberTurns.cpp.  Doubles are exact rationals; the
    64-bit turn counters are unbounded integers, so a wrap-around past 2^64 is not
    modelled. *)
From Coq Require Import ZArith QArith Qround Qabs List String Bool.
From Verif Require Import Base UtilsNumModel.
Import ListNotations.
Open Scope Q_scope.
Open Scope string_scope.

(** NumberTurns.h:14-22: the turns found last (primary first) and, for each
    requirement, the requirement and its resolved ratio. *)
Record generator := { current : list Z; ratios : list (dwt * Q) }.

(** NumberTurns.h:22 [_turnsRatioRelativeTolerance]. *)
Definition tight_tolerance : Q := 2#100.

(** NumberTurns.cpp:29-31: [while (primary % multiple != 0) primary++]. *)
Fixpoint round_up (fuel : nat) (m p : Z) : outcome Z :=
  if (p mod m =? 0)%Z then Ok p
  else match fuel with O => OutOfFuel | S k => round_up k m (p + 1)%Z end.
(** NumberTurns.cpp:28-31: the next primary to try. *)
Definition advance (m p : Z) : outcome Z :=
  if (m =? 0)%Z then UB "modulo zero" else round_up (Z.to_nat m) m (p + m)%Z.

(** NumberTurns.cpp:58-62 [nominalOnly]. *)
Definition nominal_only (r : dwt) : bool :=
  match minimum r, nominal r, maximum r with None, Some _, None => true | _, _, _ => false end.

(** NumberTurns.cpp:34-72: the secondaries of one primary, as far as they are
    acceptable, and whether all are. *)
Fixpoint attempt (reqs : list (dwt * Q)) (p : Z) : list Z * outcome bool :=
  match reqs with
  | [] => ([], Ok true)
  | (r, ratio) :: rest =>
      let n := qround (inject_Z p / ratio) in
      if (n =? 0)%Z then ([], Ok false)
      else
        let realized := inject_Z p / inject_Z n in
        match check_requirement r realized with
        | Ok acceptable =>
            if acceptable && (negb (nominal_only r)
                              || Qle_bool (Qabs (realized - ratio)) (tight_tolerance * ratio))
            then let (l, b) := attempt rest p in (n :: l, b)
            else ([], Ok false)
        | Throw e => ([], Throw e)
        | UB e => ([], UB e)
        | OutOfFuel => ([], OutOfFuel)
        end
  end.

(** NumberTurns.cpp:21-79 [increment_number_turns]: [timeout] iterations are left.
    The counter is tested after the requirements, so the last iteration throws even
    if it found a combination.  The member is rewritten as the search goes on, so
    the list is returned also when the call throws. *)
Fixpoint search (timeout : nat) (reqs : list (dwt * Q)) (m p : Z) : list Z * outcome unit :=
  match timeout with
  | O => ([p], OutOfFuel)
  | S t =>
      match advance m p with
      | Ok p' =>
          let (l, found) := attempt reqs p' in
          match found with
          | Ok b => match t with
                    | O => (p' :: l, Throw "NumberTurns did not converge")
                    | S _ => if b then (p' :: l, Ok tt) else search t reqs m p'
                    end
          | Throw e => (p' :: l, Throw e)
          | UB e => (p' :: l, UB e)
          | OutOfFuel => (p' :: l, OutOfFuel)
          end
      | Throw e => ([], Throw e)
      | UB e => ([], UB e)
      | OutOfFuel => ([], OutOfFuel)
      end
  end.
Definition increment (m : Z) (g : generator) : generator * outcome unit :=
  match current g with
  | [] => (g, UB "front of an empty vector")
  | p :: _ => let (l, o) := search 1000 (ratios g) m p in ({| current := l; ratios := ratios g |}, o)
  end.

(** NumberTurns.cpp:14-19 [get_next_number_turns_combination]: an exception of the
    search discards the combination it was about to return. *)
Definition get_next (m : Z) (g : generator) : generator * outcome (list Z) :=
  let (g', o) := increment m g in
  (g', match o with Ok _ => Ok (current g) | Throw e => Throw e | UB e => UB e | OutOfFuel => OutOfFuel end).

(** [uint64_t n = initial - 1]: the fraction is dropped; a value of -1 or less does
    not fit (NumberTurns.h:34, 40). *)
Definition start (initial : Q) : outcome Z :=
  if Qle_bool initial 0 then UB "conversion of a negative double to uint64_t"
  else Ok (if Qle_bool 1 initial then Qfloor (initial - 1) else 0%Z).

(** NumberTurns.h:27-33: the resolved ratios. *)
Fixpoint resolve_ratios (reqs : list dwt) : outcome (list (dwt * Q)) :=
  match reqs with
  | [] => Ok []
  | r :: rest =>
      match resolve_dimensional_values (DTol r) NOMINAL with
      | Ok q => if Qle_bool q 0 then Throw "turns ratio  must be greater than 0"
                else match resolve_ratios rest with Ok l => Ok ((r, q) :: l) | o => o end
      | Throw e => Throw e
      | UB e => UB e
      | OutOfFuel => OutOfFuel
      end
  end.
(** The constructors, NumberTurns.h:25-43 (without requirements when [reqs] is
    empty). *)
Definition create (initial : Q) (reqs : list dwt) : outcome generator :=
  match resolve_ratios reqs with
  | Ok rs => match start initial with
             | Ok p => match increment 1 {| current := [p]; ratios := rs |} with
                       | (g, Ok _) => Ok g
                       | (_, Throw e) => Throw e
                       | (_, UB e) => UB e
                       | (_, OutOfFuel) => OutOfFuel
                       end
             | Throw e => Throw e
             | UB e => UB e
             | OutOfFuel => OutOfFuel
             end
  | Throw e => Throw e
  | UB e => UB e
  | OutOfFuel => OutOfFuel
  end.

(** Successive calls, one per multiple; the answers come in order. *)
Fixpoint calls (ms : list Z) (g : generator) : list (outcome (list Z)) :=
  match ms with
  | [] => []
  | m :: rest => let (g', o) := get_next m g in o :: calls rest g'
  end.
