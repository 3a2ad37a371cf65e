(** Model of the reader of simulation files, src/processors/CircuitSimulatorInterface.cpp:
    from the lines of a file to named columns of numbers.

    A line is a list of bytes.  [std::stod] is a parameter: any function that gives a
    number or fails.  A file that cannot be opened is not modelled; the file given as a
    path and the text given directly go through the same function from the first line
    on. *)
From Coq Require Import List Bool Ascii String QArith Arith.
From Verif Require Import Base.
Import ListNotations.
Local Open Scope nat_scope.
Local Open Scope outcome_scope.

Definition text := list ascii.
Definition quote : ascii := ascii_of_nat 34.
Definition opening : ascii := ascii_of_nat 40.
Definition closing : ascii := ascii_of_nat 41.
Definition CR : ascii := ascii_of_nat 13.
Definition LF : ascii := ascii_of_nat 10.

(** * Fields *)
(** CircuitSimulatorInterface.cpp:1807-1818 and :2060-2072: inside quotes, and how deep
    inside parentheses.  Simplified: the depth does not overflow. *)
Definition step (st : bool * nat) (c : ascii) : bool * nat :=
  let '(q, d) := st in
  if Ascii.eqb c quote then (negb q, d)
  else if q then (q, d)
  else if Ascii.eqb c opening then (q, S d)
  else if Ascii.eqb c closing then (q, pred d)
  else (q, d).
(** A separator that counts, in the state after reading it. *)
Definition naked (sep c : ascii) (st : bool * nat) : bool :=
  negb (Ascii.eqb c quote) && Ascii.eqb c sep && negb (fst st) && Nat.eqb (snd st) 0.

(** CircuitSimulatorInterface.cpp:1797-1829 [split_fields]; [current] is the field so far. *)
Fixpoint split_go (sep : ascii) (st : bool * nat) (current : text) (line : text) : list text :=
  match line with
  | [] => [current]
  | c :: r =>
      let st' := step st c in
      if naked sep c st' then current :: split_go sep st' [] r
      else split_go sep st' (current ++ [c]) r
  end.
Definition split_fields (line : text) (sep : ascii) : list text := split_go sep (false, 0) [] line.

(** CircuitSimulatorInterface.cpp:2056-2077, the lambda [count_separators]. *)
Fixpoint count_go (sep : ascii) (st : bool * nat) (line : text) : nat :=
  match line with
  | [] => 0
  | c :: r => let st' := step st c in (if naked sep c st' then 1 else 0) + count_go sep st' r
  end.
Definition count_separators (sep : ascii) (line : text) : nat := count_go sep (false, 0) line.

(** CircuitSimulatorInterface.cpp:2044-2097 [guess_separator]: comma, semicolon, tab,
    bar. *)
Definition candidates : list ascii := map ascii_of_nat [44; 59; 9; 124].
Fixpoint best_go (line : text) (seps : list ascii) (best : option ascii) (columns : nat) : option ascii :=
  match seps with
  | [] => best
  | s :: r =>
      let n := count_separators s line + 1 in
      if columns <? n then best_go line r (Some s) n else best_go line r best columns
  end.
Definition guess_separator (line : text) : outcome ascii :=
  match best_go line candidates None 1 with Some s => Ok s | None => Throw "InvalidInput" end.

(** * Lines and cells *)
Definition blank (c : ascii) : bool := nat_of_ascii c <=? 32.
Fixpoint drop_blanks (s : text) : text :=
  match s with [] => [] | c :: r => if blank c then drop_blanks r else s end.
(** CircuitSimulatorInterface.cpp:1764-1772 [trim_inplace]. *)
Definition trim (s : text) : text := rev (drop_blanks (rev (drop_blanks s))).

(** CircuitSimulatorInterface.cpp:1776-1785 [is_skippable_csv_line]. *)
Definition skippable (line : text) : bool :=
  match drop_blanks line with
  | [] => true
  | c :: r =>
      existsb (Ascii.eqb c) (map ascii_of_nat [35; 33; 42])
      || (Ascii.eqb c (ascii_of_nat 47) && match r with d :: _ => Ascii.eqb d (ascii_of_nat 47) | [] => false end)
  end.
(** CircuitSimulatorInterface.cpp:1788-1795 [strip_utf8_bom]. *)
Definition strip_bom (line : text) : text :=
  match line with
  | a :: b :: c :: r =>
      if Nat.eqb (nat_of_ascii a) 239 && Nat.eqb (nat_of_ascii b) 187 && Nat.eqb (nat_of_ascii c) 191 then r else line
  | _ => line
  end.

(** CircuitSimulatorInterface.cpp:1843-1849 and :1859-1863: what is done to every
    field. *)
Definition without_cr (s : text) : text := filter (fun c => negb (Ascii.eqb c CR)) s.
Definition unquoted (s : text) : text :=
  match s with
  | c :: r =>
      match rev r with
      | d :: m => if Ascii.eqb c quote && Ascii.eqb d quote then rev m else s
      | [] => s
      end
  | [] => s
  end.
Definition clean (s : text) : text := trim (unquoted (without_cr s)).
Definition nonempty (s : text) : bool := match s with [] => false | _ => true end.

Record column := mkColumn { cname : text; cdata : list Q }.

Section Reader.
Variable stod : text -> option Q.

(** CircuitSimulatorInterface.cpp:1836-1853: the header. *)
Definition header (fields : list text) : list column :=
  map (fun n => mkColumn n []) (filter nonempty (map clean fields)).

Fixpoint push (i : nat) (v : Q) (cs : list column) : list column :=
  match cs, i with
  | [], _ => []
  | c :: r, O => mkColumn (cname c) (cdata c ++ [v]) :: r
  | c :: r, S i => c :: push i v r
  end.
(** CircuitSimulatorInterface.cpp:1855-1890: one row of numbers. *)
Fixpoint row (i : nat) (fields : list text) (cs : list column) : outcome (list column) :=
  match fields with
  | [] => Ok cs
  | f :: r =>
      let token := clean f in
      if nonempty token then
        if List.length cs <=? i then Throw "InvalidInput: more columns than the header"
        else match stod token with
             | None => Throw "InvalidInput: could not parse number"
             | Some v => row (S i) r (push i v cs)
             end
      else row (S i) r cs
  end.
(** CircuitSimulatorInterface.cpp:1835-1892 [process_line_with_context]. *)
Definition process_line (line : text) (sep : ascii) (cs : list column) : outcome (list column) :=
  match cs with
  | [] => Ok (header (split_fields line sep))
  | _ => row 0 (split_fields line sep) cs
  end.

(** CircuitSimulatorInterface.cpp:1901-1915, the lambda [handle_line] after the first
    line. *)
Definition handle (line : text) (st : option ascii * list column) : outcome (option ascii * list column) :=
  if skippable line then Ok st
  else
    sep <- match fst st with Some s => Ok s | None => guess_separator line end ;;
    cs <- process_line line sep (snd st) ;;
    Ok (Some sep, cs).
Fixpoint read_lines (ls : list text) (st : option ascii * list column) : outcome (option ascii * list column) :=
  match ls with
  | [] => Ok st
  | l :: r => st' <- handle l st ;; read_lines r st'
  end.
(** [std::getline] until the end of the text. *)
Fixpoint lines_go (current s : text) : list text :=
  match s with
  | [] => match current with [] => [] | _ => [current] end
  | c :: r => if Ascii.eqb c LF then current :: lines_go [] r else lines_go (current ++ [c]) r
  end.
Definition lines (s : text) : list text := lines_go [] s.
(** CircuitSimulatorInterface.cpp:1894-1941, the constructor up to the search of the
    time. *)
Definition read_columns (ls : list text) : outcome (list column) :=
  let ls := match ls with [] => [] | l :: r => strip_bom l :: r end in
  st <- read_lines ls (None, []) ;;
  match snd st with [] => Throw "InvalidInput: no columns found" | cs => Ok cs end.
End Reader.
