(** * The logger and its threads

    src/support/Logger.h and the read_log / logEntry functions of
    src/support/Utils.cpp:206-238, as a small-step semantics: any number of
    threads call the logger, one step of one thread at a time, under every
    schedule.  A step is one access to the shared state: an atomic load or
    store of the level, taking or releasing a mutex, one operator<< on the
    stream of a sink.  A call that would wait for a mutex makes no step.

    Simplifications:
    - memory is sequentially consistent; that this loses nothing is what the
      absence of data races (C88) is for: every location that is not atomic is
      accessed under a mutex;
    - the timestamp is an arbitrary text chosen by the schedule (getTimestamp,
      Logger.h:308-324, reads the system clock, which may be set back);
    - a FileSink is open and its file is its own (Logger.h:124-125, 136); writes do
      not fail and do not throw;
    - the level is a number 0 (TRACE) ... 6 (OFF) as in Logger.h:28-36;
    - flush() (Logger.h:269-274) changes no text and is not modelled. *)

From Coq Require Import List String Bool Arith Lia.
Import ListNotations.
Local Open Scope list_scope.
Local Open Scope nat_scope.

(** ** Sinks and what they write *)

(** Logger.h:69-194: the three kinds of sink; the number of a StringSink or a
    FileSink is its identity (the object the shared_ptr points to) *)
Inductive sink :=
| SString (n : nat)
| SFile (n : nat)
| SConsole (colors : bool).

(** where text ends up: the buffer of a StringSink, the file of a FileSink,
    std::cout or std::cerr *)
Inductive stream :=
| TString (n : nat)
| TFile (n : nat)
| TOut
| TErr.

(** one entry as handed to LogSink::write (Logger.h:60-62); e_thread is the
    calling thread, which the code does not record *)
Record entry := mkEntry {
  e_thread : nat;
  e_level : nat;
  e_module : string;
  e_message : string;
  e_stamp : string }.

(** Logger.h:41-52 *)
Definition level_name (l : nat) : string :=
  match l with
  | 0 => "TRACE" | 1 => "DEBUG" | 2 => "INFO" | 3 => "WARNING"
  | 4 => "ERROR" | 5 => "CRITICAL" | 6 => "OFF" | _ => "UNKNOWN"
  end%string.

(** the escape character that starts a colour code *)
Definition esc : string := String (Ascii.ascii_of_nat 27) EmptyString.
Definition newline : string := String (Ascii.ascii_of_nat 10) EmptyString.

(** Logger.h:106-116 *)
Definition color_code (l : nat) : string :=
  match l with
  | 0 => esc ++ "[90m" | 1 => esc ++ "[36m" | 2 => esc ++ "[32m"
  | 3 => esc ++ "[33m" | 4 => esc ++ "[31m" | 5 => esc ++ "[35m"
  | _ => ""
  end%string.

(** Logger.h:76 (level >= ERROR goes to std::cerr), 154, 193: the stream an
    entry of a level goes to *)
Definition stream_of (s : sink) (level : nat) : stream :=
  match s with
  | SString n => TString n
  | SFile n => TFile n
  | SConsole _ => if 4 <=? level then TErr else TOut
  end.

(** The operands of the << of one write: Logger.h:163-175 (StringSink),
    133-146 (FileSink), 73-96 (ConsoleSink) *)
Definition head (e : entry) : list string :=
  ["["; e_stamp e; "] "; "["; level_name (e_level e); "] "]%string
  ++ (if String.eqb (e_module e) "" then [] else ["["; e_module e; "] "]%string).

Definition fragments (s : sink) (e : entry) : list string :=
  match s with
  | SString _ | SFile _ => head e ++ [e_message e; newline]
  | SConsole colors =>
      (if colors then [color_code (e_level e)] else [])
      ++ head e ++ [e_message e]
      ++ (if colors then [(esc ++ "[0m")%string] else [])
      ++ [newline]
  end.

(** ** Calls and the steps they are made of *)

(** the calls a thread can make; CLog is Logger::log, which the convenience
    methods, the macros and logEntry end in *)
Inductive call :=
| CLog (level : nat) (module message : string)
| CSetLevel (level : nat)
| CAddSink (s : sink)
| CClearSinks
| CContents (n : nat)          (* getContents() of the caller's own StringSink *)
| CEmpty (n : nat)             (* clear() of the caller's own StringSink *)
| CReadLog.

(** Utils.cpp:231-238 *)
Definition log_entry (text module : string) (verbosity : nat) : call :=
  let level := match verbosity with 0 => 4 | 1 => 3 | 2 => 2 | _ => 1 end in
  CLog level (if String.eqb module "" then "OpenMagnetics"%string else module) text.

Inductive op :=
| OCheck (level : nat)                   (* if (level < _level) return; *)
| OLock                                  (* lock_guard on Logger::_mutex *)
| OUnlock
| OStamp (level : nat) (module message : string)  (* getTimestamp, enter the loop *)
| OIter (i : nat) (e : entry)            (* the range-for over _sinks, at element i *)
| OSinkLock (n : nat)                    (* lock_guard on StringSink::_mutex *)
| OSinkUnlock (n : nat)
| OWrite (t : stream) (text : string)    (* one << *)
| OSetLevel (level : nat)                (* _level = level; *)
| OAdd (s : sink)                        (* _sinks.push_back(sink) *)
| OClear                                 (* _sinks.clear() *)
| OOnce                                  (* std::call_once: enter *)
| OOnceEnd                               (* std::call_once: leave *)
| OLower                                 (* if (getLevel() > WARNING) setLevel(WARNING) *)
| ORead (n : nat)                        (* return _buffer.str(); *)
| OErase (n : nat).                      (* _buffer.str(""); *)

(** the StringSink behind read_log (Utils.cpp:211) *)
Definition read_sink : nat := 0.

(** Logger.h:252-264 (log), 217-220 (setLevel), 233-236 (addSink), 241-244
    (clearSinks), 180-189 (getContents and clear, each with its own
    lock_guard); Utils.cpp:215-229 (read_log) *)
Definition code (c : call) : list op :=
  match c with
  | CLog l m t => [OCheck l; OLock; OStamp l m t; OUnlock]
  | CSetLevel l => [OLock; OSetLevel l; OUnlock]
  | CAddSink s => [OLock; OAdd s; OUnlock]
  | CClearSinks => [OLock; OClear; OUnlock]
  | CContents n => [OSinkLock n; ORead n; OSinkUnlock n]
  | CEmpty n => [OSinkLock n; OErase n; OSinkUnlock n]
  | CReadLog =>
      [OOnce;
       OSinkLock read_sink; ORead read_sink; OSinkUnlock read_sink;
       OSinkLock read_sink; OErase read_sink; OSinkUnlock read_sink]
  end.

(** Utils.cpp:216-225: the body run once *)
Definition once_body : list op :=
  [OLock; OAdd (SString read_sink); OUnlock; OLower; OOnceEnd].

(** Logger.h:133-146, 163-175, 73-96: StringSink::write holds the sink's own
    mutex, the other two hold none *)
Definition write_ops (s : sink) (e : entry) : list op :=
  let t := stream_of s (e_level e) in
  match s with
  | SString n => [OSinkLock n] ++ map (OWrite t) (fragments s e) ++ [OSinkUnlock n]
  | _ => map (OWrite t) (fragments s e)
  end.

(** ** States *)

Inductive once_state := OnceNever | OnceRunning (t : nat) | OnceDone.

(** a thread: what is left of its current call, and the calls it still makes *)
Record thread := mkThread { ops : list op; calls : list call }.

(** The logger (Logger.h:326-328), the streams, the mutexes of the
    StringSinks, the once flag (Utils.cpp:212), the threads, what getContents
    returned so far (thread, sink, text; latest last), and the entries for which
    the loop over the sinks was entered, each with the sinks registered then
    (this last list is not in the code: it is only there to be quantified away
    in the theorems) *)
Record state := mkState {
  level : nat;
  mutex : option nat;
  sinks : list sink;
  text : stream -> string;
  sink_mutex : nat -> option nat;
  once : once_state;
  threads : nat -> thread;
  returned : list (nat * nat * string);
  logged : list (entry * list sink) }.

Definition stream_eqb (a b : stream) : bool :=
  match a, b with
  | TString n, TString m | TFile n, TFile m => n =? m
  | TOut, TOut | TErr, TErr => true
  | _, _ => false
  end.

Definition put {A} (eqb : A -> A -> bool) {B} (f : A -> B) (a : A) (b : B) : A -> B :=
  fun x => if eqb x a then b else f x.

Definition set_ops (t : nat) (o : list op) (st : state) : state :=
  mkState (level st) (mutex st) (sinks st) (text st) (sink_mutex st) (once st)
    (put Nat.eqb (threads st) t (mkThread o (calls (threads st t))))
    (returned st) (logged st).

Definition set_mutex (m : option nat) (st : state) : state :=
  mkState (level st) m (sinks st) (text st) (sink_mutex st) (once st)
    (threads st) (returned st) (logged st).
Definition set_level (l : nat) (st : state) : state :=
  mkState l (mutex st) (sinks st) (text st) (sink_mutex st) (once st)
    (threads st) (returned st) (logged st).
Definition set_sinks (l : list sink) (st : state) : state :=
  mkState (level st) (mutex st) l (text st) (sink_mutex st) (once st)
    (threads st) (returned st) (logged st).
Definition set_text (x : stream) (s : string) (st : state) : state :=
  mkState (level st) (mutex st) (sinks st) (put stream_eqb (text st) x s)
    (sink_mutex st) (once st) (threads st) (returned st) (logged st).
Definition set_sink_mutex (n : nat) (m : option nat) (st : state) : state :=
  mkState (level st) (mutex st) (sinks st) (text st)
    (put Nat.eqb (sink_mutex st) n m) (once st) (threads st) (returned st) (logged st).
Definition set_once (o : once_state) (st : state) : state :=
  mkState (level st) (mutex st) (sinks st) (text st) (sink_mutex st) o
    (threads st) (returned st) (logged st).
Definition add_returned (r : nat * nat * string) (st : state) : state :=
  mkState (level st) (mutex st) (sinks st) (text st) (sink_mutex st) (once st)
    (threads st) (returned st ++ [r]) (logged st).
Definition add_logged (e : entry * list sink) (st : state) : state :=
  mkState (level st) (mutex st) (sinks st) (text st) (sink_mutex st) (once st)
    (threads st) (returned st) (logged st ++ [e]).

(** one step of thread [t]; [stamp] is what the clock says if it is asked.
    None: the thread has finished or waits for a mutex *)
Definition step (t : nat) (stamp : string) (st : state) : option state :=
  match ops (threads st t) with
  | [] =>
      match calls (threads st t) with
      | [] => None
      | c :: cs =>
          Some (mkState (level st) (mutex st) (sinks st) (text st)
                  (sink_mutex st) (once st)
                  (put Nat.eqb (threads st) t (mkThread (code c) cs))
                  (returned st) (logged st))
      end
  | o :: os =>
      match o with
      (* Logger.h:253-255 *)
      | OCheck l =>
          if l <? level st then Some (set_ops t [] st) else Some (set_ops t os st)
      | OLock =>
          match mutex st with
          | None => Some (set_ops t os (set_mutex (Some t) st))
          | Some _ => None
          end
      | OUnlock => Some (set_ops t os (set_mutex None st))
      (* Logger.h:259-263 *)
      | OStamp l m msg =>
          let e := mkEntry t l m msg stamp in
          Some (set_ops t (OIter 0 e :: os) (add_logged (e, sinks st) st))
      | OIter i e =>
          match nth_error (sinks st) i with
          | None => Some (set_ops t os st)
          | Some s => Some (set_ops t (write_ops s e ++ OIter (S i) e :: os) st)
          end
      | OSinkLock n =>
          match sink_mutex st n with
          | None => Some (set_ops t os (set_sink_mutex n (Some t) st))
          | Some _ => None
          end
      | OSinkUnlock n => Some (set_ops t os (set_sink_mutex n None st))
      | OWrite x s => Some (set_ops t os (set_text x (text st x ++ s)%string st))
      | OSetLevel l => Some (set_ops t os (set_level l st))
      | OAdd s => Some (set_ops t os (set_sinks (sinks st ++ [s]) st))
      | OClear => Some (set_ops t os (set_sinks [] st))
      | OOnce =>
          match once st with
          | OnceNever => Some (set_ops t (once_body ++ os) (set_once (OnceRunning t) st))
          | OnceRunning _ => None
          | OnceDone => Some (set_ops t os st)
          end
      | OOnceEnd => Some (set_ops t os (set_once OnceDone st))
      (* Utils.cpp:222-224; the load here, the store under the mutex *)
      | OLower =>
          if 3 <? level st
          then Some (set_ops t (OLock :: OSetLevel 3 :: OUnlock :: os) st)
          else Some (set_ops t os st)
      | ORead n => Some (set_ops t os (add_returned (t, n, text st (TString n)) st))
      | OErase n => Some (set_ops t os (set_text (TString n) ""%string st))
      end
  end.

(** a schedule: which thread steps, and what the clock says *)
Fixpoint run (schedule : list (nat * string)) (st : state) : option state :=
  match schedule with
  | [] => Some st
  | (t, stamp) :: rest =>
      match step t stamp st with
      | None => None
      | Some st' => run rest st'
      end
  end.

(** Before any call: the level and the sinks the program starts with, and what
    each thread is going to call.  Logger.h:302-306: a fresh logger is
    [start 4 [SConsole true] program] *)
Definition start (l : nat) (s : list sink) (program : nat -> list call) : state :=
  mkState l None s (fun _ => ""%string) (fun _ => None) OnceNever
    (fun t => mkThread [] (program t)) [] [].

(** no thread has anything left to do *)
Definition finished (st : state) : Prop :=
  forall t, ops (threads st t) = [] /\ calls (threads st t) = [].
