(** Model of the operating point read from a simulation file,
    src/processors/CircuitSimulatorInterface.cpp: columns named by the user, and the
    excitation of every winding. *)
From Coq Require Import List Bool QArith Arith String.
From Verif Require Import Base CsvModel SignalModel.
Import ListNotations.
Local Open Scope nat_scope.
Local Open Scope outcome_scope.

(** CircuitSimulatorInterface.h:650-656 [DataType] and :659-672
    [CircuitSimulationSignal]. *)
Inductive kind := Time | Voltage | Current | Magnetizing | Unknown.
Record tagged := mkTagged { tcol : column; tkind : kind; twinding : nat }.
Definition kind_eqb (a b : kind) : bool :=
  match a, b with
  | Time, Time | Voltage, Voltage | Current, Current | Magnetizing, Magnetizing | Unknown, Unknown => true
  | _, _ => false
  end.

(** The names given for one winding; other keys of the map have no effect. *)
Record naming := mkNaming { n_current : option text; n_magnetizing : option text; n_time : option text; n_voltage : option text }.

(** CircuitSimulatorInterface.cpp:2516-2539: the columns of one name. *)
Definition named (k : kind) (w : nat) (n : option text) (cs : list column) : list tagged :=
  match n with
  | None => []
  | Some n => map (fun c => mkTagged c k w) (filter (fun c => text_eqb (cname c) n) cs)
  end.
(** CircuitSimulatorInterface.cpp:2512-2545 [assign_column_names]; the keys of a
    [std::map] come in alphabetical order. *)
Fixpoint assign (w : nat) (ms : list naming) (cs : list column) : list tagged :=
  match ms with
  | [] => []
  | m :: r =>
      named Current w (n_current m) cs ++ named Magnetizing w (n_magnetizing m) cs ++
      named Time w (n_time m) cs ++ named Voltage w (n_voltage m) cs ++ assign (S w) r cs
  end.

(** CircuitSimulatorInterface.cpp:2562-2572: the time of a winding, the last of those
    given or the one of the file. *)
Fixpoint time_for (w : nat) (cs : list tagged) (default : column) : column :=
  match cs with
  | [] => default
  | c :: r =>
      if kind_eqb (tkind c) Time && Nat.eqb (twinding c) w then time_for w r (tcol c)
      else time_for w r default
  end.

Section Excitation.
(** The resampling and the figures taken from a waveform at a frequency: any function
    that may fail. *)
Variable result : Type.
Variable finish : Q -> list Q * list Q -> outcome result.

Record excitation := mkExcitation { e_current : option result; e_magnetizing : option result; e_voltage : option result }.
Definition no_excitation : excitation := mkExcitation None None None.

Definition take (f : Q) (c axis : column) (known : cache) : outcome (result * cache) :=
  w <- extract_waveform f c axis known ;;
  r <- finish f (fst w) ;;
  Ok (r, snd w).
(** CircuitSimulatorInterface.cpp:2578-2615: the columns of one winding. *)
Fixpoint excite (f : Q) (w : nat) (axis : column) (cs : list tagged) (e : excitation) (known : cache) : outcome (excitation * cache) :=
  match cs with
  | [] => Ok (e, known)
  | c :: r =>
      if Nat.eqb (twinding c) w then
        match tkind c with
        | Current => x <- take f (tcol c) axis known ;; excite f w axis r (mkExcitation (Some (fst x)) (e_magnetizing e) (e_voltage e)) (snd x)
        | Magnetizing => x <- take f (tcol c) axis known ;; excite f w axis r (mkExcitation (e_current e) (Some (fst x)) (e_voltage e)) (snd x)
        | Voltage => x <- take f (tcol c) axis known ;; excite f w axis r (mkExcitation (e_current e) (e_magnetizing e) (Some (fst x))) (snd x)
        | _ => excite f w axis r e known
        end
      else excite f w axis r e known
  end.
(** CircuitSimulatorInterface.cpp:2576-2617: [n] windings from [w] on.  [axes] is the
    time of each. *)
Fixpoint windings (f : Q) (axes : nat -> column) (cs : list tagged) (w n : nat) (known : cache) : outcome (list excitation) :=
  match n with
  | O => Ok []
  | S n =>
      x <- excite f w (axes w) cs no_excitation known ;;
      rest <- windings f axes cs (S w) n (snd x) ;;
      Ok (fst x :: rest)
  end.
Definition silent (e : excitation) : bool :=
  match e_current e, e_magnetizing e, e_voltage e with None, None, None => true | _, _, _ => false end.
(** CircuitSimulatorInterface.cpp:2619-2629, on the list from its end: silent windings
    at the end are removed, but for the first winding. *)
Fixpoint drop_silent (es : list excitation) : list excitation :=
  match es with
  | e :: ((_ :: _) as r) => if silent e then drop_silent r else es
  | _ => es
  end.
Definition without_tail (es : list excitation) : list excitation := rev (drop_silent (rev es)).
(** CircuitSimulatorInterface.cpp:2547-2640 [extract_operating_point] with the columns
    named: the columns left in the object and the excitations. *)
Definition operating_point (f : Q) (number : nat) (ms : list naming) (time : column) (cs : list column) (known : cache) :
    outcome (list tagged * list excitation) :=
  let ts := assign 0 ms cs in
  es <- windings f (fun w => time_for w ts time) ts 0 number known ;;
  Ok (ts, without_tail es).
End Excitation.
