(** Model of the signals of a simulation file, src/processors/CircuitSimulatorInterface.cpp:
    which column is the time, one period of a signal, which winding a column belongs to
    and whether it is a voltage or a current.

    Numbers are exact.  The resampling of the period (sample = true) is not modelled;
    neither are frequencies of zero, whose period is infinite. *)
From Coq Require Import List Bool Ascii String QArith Qabs Arith.
From Verif Require Import Base QAux CsvModel.
Import ListNotations.
Local Open Scope nat_scope.
Local Open Scope outcome_scope.

(** * The time *)
(** CircuitSimulatorInterface.cpp:1977-1981. *)
Fixpoint ascending (d : list Q) : bool :=
  match d with
  | x :: r => match r with y :: _ => if Qlt_bool y x then false else ascending r | [] => true end
  | [] => true
  end.
(** CircuitSimulatorInterface.cpp:1962-1984 [can_be_time]. *)
Definition can_be_time (d : list Q) : outcome bool :=
  match d with
  | [] => Throw "invalid_argument"
  | [_] => Ok false
  | x :: _ => Ok (ascending d && Qlt_bool x (last d x))
  end.
(** CircuitSimulatorInterface.cpp:2209-2217 [find_time]. *)
Fixpoint find_time (cs : list column) : outcome column :=
  match cs with
  | [] => Throw "InvalidInput: no time column found"
  | c :: r => b <- can_be_time (cdata c) ;; if b then Ok c else find_time r
  end.

(** CircuitSimulatorInterface.cpp:2240-2245: repeated times.  Both lists have the same
    length. *)
Fixpoint collapse (ts ds : list Q) : list (Q * Q) :=
  match ts, ds with
  | t :: ts', d :: ds' =>
      match ts' with
      | [] => [(t, d)]
      | u :: _ => if Qeq_bool t u then collapse ts' ds' else (t, d) :: collapse ts' ds'
      end
  | _, _ => []
  end.

(** * One period *)
(** CircuitSimulatorInterface.cpp:2127-2133: the last sample that is not after [bound],
    the first one if there is none. *)
Fixpoint last_until (bound : Q) (i : nat) (ts : list Q) (best : nat) : nat :=
  match ts with
  | [] => best
  | t :: r => last_until bound (S i) r (if Qle_bool t bound then i else best)
  end.
(** CircuitSimulatorInterface.cpp:2140. *)
Definition crossing (a b : Q) : bool := (Qle_bool 0 a && Qle_bool b 0) || (Qle_bool a 0 && Qle_bool 0 b).
(** CircuitSimulatorInterface.cpp:2138-2146: back from sample [i]. *)
Fixpoint back_walk (data : list Q) (i : nat) : option nat :=
  match i with
  | O => None
  | S k => if crossing (nth k data 0%Q) (nth (S k) data 0%Q) then Some k else back_walk data k
  end.
(** CircuitSimulatorInterface.cpp:2150-2159. *)
Fixpoint first_from (bound : Q) (i : nat) (ts : list Q) : option nat :=
  match ts with
  | [] => None
  | t :: r => if Qle_bool bound t then Some i else first_from bound (S i) r
  end.
(** CircuitSimulatorInterface.cpp:2115-2177, the window when the axis has none yet. *)
Definition find_window (period : Q) (align : bool) (time data : list Q) : outcome (nat * nat) :=
  let start := (last time 0 - period)%Q in
  let s0 := last_until start 0 time 0 in
  let '(s, from) :=
    if align then match back_walk data s0 with Some k => (k, nth k time 0%Q) | None => (s0, start) end
    else (s0, start) in
  match first_from (from + period)%Q s (skipn s time) with
  | Some i => Ok (s, S i)
  | None => Throw "insufficient simulation data"
  end.

Definition cache := list (text * (nat * nat)).
Fixpoint text_eqb (a b : text) : bool :=
  match a, b with
  | [], [] => true
  | x :: a, y :: b => Ascii.eqb x y && text_eqb a b
  | _, _ => false
  end.
Fixpoint window_of (name : text) (c : cache) : option (nat * nat) :=
  match c with
  | [] => None
  | (n, w) :: r => if text_eqb name n then Some w else window_of name r
  end.
Definition slice (s e : nat) (l : list Q) : list Q := firstn (e - s) (skipn s l).
(** CircuitSimulatorInterface.cpp:2099-2207 [get_one_period] with sample = false.  The
    result is the time, the data and the windows known afterwards. *)
Definition get_one_period (f : Q) (align : bool) (name : text) (time : option (list Q)) (data : list Q) (c : cache) :
    outcome ((list Q * list Q) * cache) :=
  match time with
  | None => Throw "InvalidInput: missing time data"
  | Some ts =>
      if negb (Nat.eqb (List.length data) (List.length ts)) then Throw "InvalidInput: the columns are misaligned"
      else match ts with
      | [] => UB "back of an empty vector"
      | _ =>
          found <- match window_of name c with
                   | Some w => Ok (w, c)
                   | None => w <- find_window (1 / f)%Q align ts data ;; Ok (w, (name, w) :: c)
                   end ;;
          let '((s, e), c') := found in
          if (List.length data <? e) || (e <=? s) then Throw "InvalidInput: the window does not fit the waveform"
          else Ok ((map (fun t => t - nth s ts 0)%Q (slice s e ts), slice s e data), c')
      end
  end.
(** CircuitSimulatorInterface.cpp:2223-2254 [extract_waveform] with sample = false. *)
Definition extract_waveform (f : Q) (signal axis : column) (c : cache) : outcome ((list Q * list Q) * cache) :=
  if negb (Nat.eqb (List.length (cdata signal)) (List.length (cdata axis))) then Throw "InvalidInput: different number of samples"
  else let w := collapse (cdata axis) (cdata signal) in
       get_one_period f true (cname axis) (Some (map fst w)) (map snd w) c.

(** * Windings *)
Definition is_digit (c : ascii) : bool := (48 <=? nat_of_ascii c) && (nat_of_ascii c <=? 57).
Local Open Scope Z_scope.
(** CircuitSimulatorInterface.cpp:2256-2266 [get_numbers_in_string]; [run] is the number
    being read.  [std::stoi] refuses numbers above 2147483647. *)
Fixpoint numbers (run : option Z) (s : text) : list Z :=
  match s with
  | [] => match run with Some v => [v] | None => [] end
  | c :: r =>
      if is_digit c then numbers (Some (10 * (match run with Some v => v | None => 0 end) + Z.of_nat (nat_of_ascii c - 48))) r
      else match run with Some v => v :: numbers None r | None => numbers None r end
  end.
Definition stoi_fits (v : Z) : bool := v <=? 2147483647.
Local Close Scope Z_scope.
Fixpoint prefix (a b : text) : bool :=
  match a, b with
  | [], _ => true
  | x :: a, y :: b => Ascii.eqb x y && prefix a b
  | _ :: _, [] => false
  end.
Fixpoint contains (label s : text) : bool :=
  prefix label s || match s with [] => false | _ :: r => contains label r end.
(** CircuitSimulatorInterface.cpp:2275-2285. *)
Definition winding_labels : list (text * Z) :=
  map (fun p => (list_ascii_of_string (fst p), snd p))
    [("pri"%string, 0%Z); ("sec"%string, 1%Z); ("aux"%string, 2%Z); ("ter"%string, 2%Z); ("HV"%string, 0%Z); ("LV"%string, 1%Z);
     ("a"%string, 0%Z); ("b"%string, 1%Z); ("c"%string, 2%Z)].
(** CircuitSimulatorInterface.cpp:2293-2316: the index in a name, and whether one was
    found. *)
Definition name_index (name : text) : outcome (Z * bool) :=
  let ns := numbers None name in
  if forallb stoi_fits ns then
    match ns with
    | [] => match find (fun p => contains (fst p) name) winding_labels with
            | Some p => Ok (snd p, true)
            | None => Ok (0%Z, false)
            end
    | _ => Ok (last ns 0%Z, true)
    end
  else Throw "out_of_range".

Fixpoint insert (v : Z) (l : list Z) : list Z :=
  match l with
  | [] => [v]
  | x :: r => if (v <? x)%Z then v :: l else if (v =? x)%Z then l else x :: insert v r
  end.
(** CircuitSimulatorInterface.cpp:2320-2321: sorted, without repetitions. *)
Definition sorted_unique (l : list Z) : list Z := fold_right insert [] l.

(** CircuitSimulatorInterface.cpp:2290-2318: the columns that are not a time, with their
    index, and how many had one in their name.  The columns of time, which get the
    largest size_t as index, match no index later on and are left out here. *)
Fixpoint indexed (cs : list column) : outcome (list (column * Z) * nat) :=
  match cs with
  | [] => Ok ([], 0)
  | c :: r =>
      t <- can_be_time (cdata c) ;;
      if t then indexed r
      else
        i <- name_index (cname c) ;;
        rest <- indexed r ;;
        Ok ((c, fst i) :: fst rest, (if snd i then 1 else 0) + snd rest)
  end.
Fixpoint regroup (k : nat) (is : list Z) (cs : list (column * Z)) : list (column * nat) :=
  match is with
  | [] => []
  | i :: r => map (fun c => (fst c, k)) (filter (fun c => Z.eqb (snd c) i) cs) ++ regroup (S k) r cs
  end.
(** CircuitSimulatorInterface.cpp:2268-2333 [extract_winding_indexes]: the columns it
    leaves in the object and what it returns. *)
Definition winding_indexes (number : nat) (cs : list column) : outcome (list (column * nat) * bool) :=
  x <- indexed cs ;;
  Ok (regroup 0 (sorted_unique (map snd (fst x))) (fst x), number <=? snd x).

(** * Voltage or current *)
(** CircuitSimulatorInterface.cpp:2000-2003. *)
Definition relative_error (a b : Q) : Q :=
  let m := cmax (Qabs b) (Qabs a) in
  if Qeq_bool m 0 then Qabs (a - b) else (Qabs (a - b) / m)%Q.
(** CircuitSimulatorInterface.cpp:1995-2013: the levels seen and how often. *)
Fixpoint note_level (limit x : Q) (ls : list (Q * nat)) : list (Q * nat) * bool :=
  match ls with
  | [] => ([], true)
  | (v, n) :: r =>
      let '(r', distinct) := note_level limit x r in
      if Qle_bool (relative_error v x) limit then ((v, S n) :: r', false) else ((v, n) :: r', distinct)
  end.
Definition note (limit : Q) (ls : list (Q * nat)) (x : Q) : list (Q * nat) :=
  let '(ls', distinct) := note_level limit x ls in if distinct then ls' ++ [(x, 1)] else ls'.
Definition levels (limit : Q) (data : list Q) : list (Q * nat) := fold_left (note limit) data [].
Definition significant (limit : Q) (total : nat) (ls : list (Q * nat)) : nat :=
  List.length (filter (fun l => Qlt_bool (inject_Z (Z.of_nat total) * limit) (inject_Z (Z.of_nat (snd l)))) ls).
(** CircuitSimulatorInterface.cpp:1986-2026 [can_be_voltage]. *)
Definition can_be_voltage (limit : Q) (data : list Q) : outcome bool :=
  match data with
  | [] => Throw "invalid_argument"
  | [_] => Ok false
  | _ => let n := significant limit (List.length data) (levels limit data) in Ok (Nat.eqb n 2 || Nat.eqb n 3)
  end.
(** CircuitSimulatorInterface.cpp:2029-2039. *)
Fixpoint differences (previous : Q) (data : list Q) : list Q :=
  match data with [] => [] | x :: r => (x - previous)%Q :: differences x r end.
(** CircuitSimulatorInterface.cpp:2028-2042 [can_be_current]. *)
Definition can_be_current (limit : Q) (data : list Q) : outcome bool :=
  can_be_voltage limit (differences (last data 0%Q) data).

(** CircuitSimulatorInterface.cpp:2335-2354 [rolling_window_filter] with
    [convolution_valid], :73-87, by ones, for data of at least one sample: sample [i] is
    the mean of the [r] samples from [i] on, the first following the last. *)
Definition rolling_factor (n : nat) : nat := Nat.max 1 (n / 192).
Definition rolling_window_filter (data : list Q) : list Q :=
  let r := rolling_factor (List.length data) in
  let extended := data ++ firstn (r - 1) data in
  map (fun i => (Qsum (firstn r (skipn i extended)) / inject_Z (Z.of_nat r))%Q) (seq 0 (List.length extended - r + 1)).
