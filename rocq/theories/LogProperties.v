(** * The logger under every schedule: C83 to C88 *)

From Coq Require Import List String Bool Arith Lia.
From Verif Require Import LogModel LogProofs LogOrder LogProgress LogSequential.
Import ListNotations.
Local Open Scope list_scope.
Local Open Scope nat_scope.

(** ** Vocabulary *)

(** some schedule of the program leads to the state *)
Definition reachable (l : nat) (s : list sink) (p : nat -> list call) (st : state) : Prop :=
  exists schedule, run schedule (start l s p) = Some st.

(** the line an entry should be: time, level, module if there is one, message *)
Definition line (colors : bool) (e : entry) : string :=
  ((if colors then color_code (e_level e) else "") ++
   "[" ++ e_stamp e ++ "] [" ++ level_name (e_level e) ++ "] " ++
   (if String.eqb (e_module e) "" then "" else "[" ++ e_module e ++ "] ") ++
   e_message e ++ (if colors then esc ++ "[0m" else "") ++ newline)%string.

Definition colored (s : sink) : bool := match s with SConsole c => c | _ => false end.

(** lines of whole entries, each written by a sink for this stream, each the
    entry of a log call of the program *)
Definition whole_lines (x : stream) (p : nat -> list call) (s : string) : Prop :=
  exists l : list (sink * entry),
    Forall (fun w => stream_of (fst w) (e_level (snd w)) = x /\
      In (CLog (e_level (snd w)) (e_module (snd w)) (e_message (snd w))) (p (e_thread (snd w)))) l /\
    s = String.concat "" (map (fun w => line (colored (fst w)) (snd w)) l).

(** what the sinks write to a stream for a list of entries *)
Definition written (x : stream) (s : list sink) (es : list entry) : string :=
  String.concat "" (flat_map (fun e =>
    map (fun k => line (colored k) e)
      (filter (fun k => stream_eqb (stream_of k (e_level e)) x) s)) es).

(** the messages a thread logs, in the order it logs them *)
Definition messages (c : list call) : list (nat * string * string) :=
  flat_map (fun c => match c with CLog l m s => [(l, m, s)] | _ => [] end) c.

Definition by_thread (t : nat) (es : list entry) : list (nat * string * string) :=
  map (fun e => (e_level e, e_module e, e_message e)) (filter (fun e => e_thread e =? t) es).

(** ** Lemmas about the vocabulary *)

Lemma flat_concat : forall l, flat l = String.concat "" l.
Proof.
  induction l as [|a [|b r] IH]; [reflexivity|cbn; apply append_nil|].
  cbn [flat String.concat] in *. rewrite IH. reflexivity.
Qed.

Lemma fragments_line : forall s e, flat (fragments s e) = line (colored s) e.
Proof.
  intros s e. unfold fragments, head, line. rewrite !flat_concat.
  destruct s as [n|n|[|]]; destruct (String.eqb (e_module e) "");
    rewrite <- ?flat_concat; cbn [app flat colored]; rewrite ?append_nil; cbn [append];
    repeat (rewrite ?append_assoc; cbn [append]); reflexivity.
Qed.

Lemma to_log_messages : forall c, to_log c = messages c.
Proof. induction c as [|[] c IH]; cbn; unfold to_log, messages in *; rewrite ?IH; reflexivity. Qed.

Lemma subseq_in : forall A (a b : list A) x, subseq a b -> In x a -> In x b.
Proof.
  induction 1; cbn; intuition.
Qed.

Lemma messages_in : forall c l m s, In (l, m, s) (messages c) -> In (CLog l m s) c.
Proof.
  intros c l m s H. apply in_flat_map in H as ([] & I & E); cbn in E; try contradiction.
  destruct E as [E|[]]. congruence.
Qed.

Lemma logged_in_program : forall p st e,
  in_order p st -> In e (known st) ->
  In (CLog (e_level e) (e_module e) (e_message e)) (p (e_thread e)).
Proof.
  intros p st e O I. apply messages_in. rewrite <- to_log_messages.
  eapply subseq_in; [apply (O (e_thread e))|]. apply in_or_app. left.
  unfold logged_by. apply in_map_iff. exists e. split; [reflexivity|].
  apply filter_In. split; [exact I|apply Nat.eqb_refl].
Qed.

Lemma whole_whole : forall x p st s,
  in_order p st -> whole x (known st) s -> whole_lines x p s.
Proof.
  intros x p st s O (l & F & ->). exists l. split.
  - eapply Forall_impl; [|exact F]. intros w (A & B). split; [exact A|].
    eapply logged_in_program; eauto.
  - rewrite flat_concat. f_equal. apply map_ext. intros w. apply fragments_line.
Qed.

Lemma finished_mutex : forall st, locks st -> finished st -> mutex st = None.
Proof.
  intros st L Fi. destruct (mutex st) as [h|] eqn:M; [|reflexivity].
  destruct (L h) as (m & k & q & W & Hm & _). destruct (Fi h) as (E & _). rewrite E in W.
  destruct W as (-> & _). apply Hm in M. discriminate.
Qed.

Lemma reachable_ok : forall l s p st,
  reachable l s p st -> locks st /\ whole_texts st /\ in_order p st.
Proof.
  intros l s p st (sched & R).
  destruct (run_invariant (fun st => whole_texts st /\ in_order p st)) with (4 := R) as (A & B & C).
  - intros t ts a b L (W & O) S. split; [eapply whole_texts_step|eapply in_order_step]; eauto.
  - apply locks_start.
  - split; [apply whole_texts_start|apply in_order_start].
  - auto.
Qed.

(** ** C83: entries are never torn or mixed *)

(** Whatever the threads do and however they are scheduled: once they are
    done, the text of every stream is a sequence of whole lines of entries the
    program logged; what a reader of a string sink gets at any time is one; and
    at any time the text of a stream can be completed to one. *)
Theorem C83_whole_lines : forall l s p st,
  reachable l s p st ->
  (finished st -> forall x, whole_lines x p (text st x)) /\
  (forall t n r, In (t, n, r) (returned st) -> whole_lines (TString n) p r) /\
  (forall x, exists rest, whole_lines x p (text st x ++ rest)).
Proof.
  intros l s p st R. destruct (reachable_ok _ _ _ _ R) as (L & (Sh & It & T & Re) & O).
  split; [|split].
  - intros Fi x. destruct (T x) as (A & d & E & WA & WD & C).
    pose proof (finished_mutex st L Fi) as M.
    assert (d = ""%string) as -> by (destruct C as [C|(h & C & _)]; congruence).
    rewrite E, append_nil. eapply whole_whole; eauto.
  - intros t n r I. unfold returned_ok in Re. rewrite Forall_forall in Re.
    eapply whole_whole; eauto. exact (Re _ I).
  - intros x. destruct (T x) as (A & d & E & WA & WD & C).
    exists (unfinished x st). rewrite E, append_assoc.
    eapply whole_whole; eauto. apply whole_app; assumption.
Qed.

(** ** C84: one order for all sinks, and nothing lost *)

Definition fixed_op (o : op) : bool :=
  match o with OAdd _ | OClear | OOnce => false | _ => true end.
Definition fixed_call (c : call) : bool :=
  match c with CAddSink _ | CClearSinks | CReadLog => false | _ => true end.

Definition fixed (s : list sink) (st : state) : Prop :=
  sinks st = s /\ Forall (fun e => snd e = s) (logged st) /\
  forall t, forallb fixed_op (ops (threads st t)) = true /\
            forallb fixed_call (calls (threads st t)) = true.

Lemma fixed_write_ops : forall s e, forallb fixed_op (write_ops s e) = true.
Proof.
  assert (W : forall x l, forallb fixed_op (map (OWrite x) l) = true) by (induction l; auto).
  intros. unfold write_ops. destruct s; cbn; rewrite ?forallb_app, ?W; reflexivity.
Qed.

Lemma fixed_step : forall s t ts st st',
  fixed s st -> step t ts st = Some st' -> fixed s st'.
Proof.
  intros s t ts st st' (Sk & Lg & Th) H. pose proof (Th t) as (M1 & M2).
  assert (Mine : forall st2 o, threads st2 = threads st -> forallb fixed_op o = true ->
    forall u, forallb fixed_op (ops (threads (set_ops t o st2) u)) = true /\
      forallb fixed_call (calls (threads (set_ops t o st2) u)) = true).
  { intros st2 o E X u. cbn. destruct (Nat.eq_dec u t) as [->|N].
    - rewrite put_nat_same. cbn. rewrite E. auto.
    - rewrite put_nat_other by exact N. rewrite E. apply Th. }
  step_cases H; try rewrite Ops in M1; try rewrite Calls in M2; cbn in M1, M2;
    try discriminate M1;
    try (split; [reflexivity|]; split; [exact Lg|]; apply Mine; solve [auto]).
  - apply andb_true_iff in M2 as (M2 & M3).
    split; [reflexivity|]. split; [exact Lg|]. intros u. cbn [threads].
    destruct (Nat.eq_dec u t) as [->|N].
    + rewrite put_nat_same. cbn. split; [|exact M3]. destruct c; try discriminate; reflexivity.
    + rewrite put_nat_other by exact N. apply Th.
  - split; [reflexivity|]. split; [|apply Mine; auto].
    cbn. apply Forall_app. split; [exact Lg|]. repeat constructor.
  - split; [reflexivity|]. split; [exact Lg|]. apply Mine; [reflexivity|].
    rewrite forallb_app, fixed_write_ops. exact M1.
Qed.

(** calls that empty the string sink behind a stream *)
Definition empties (x : stream) (c : call) : bool :=
  match c with CEmpty n => stream_eqb (TString n) x | _ => false end.

Lemma shown_written : forall x s l,
  Forall (fun e => snd e = s) l -> shown x l = written x s (map fst l).
Proof.
  intros x s l F. unfold written. rewrite <- flat_concat.
  induction F as [|e l E F IH]; [reflexivity|].
  cbn [map flat_map]. rewrite flat_app, <- IH. unfold shown. cbn [map flat]. f_equal.
  rewrite E. unfold out. clear. induction s as [|k s IH]; [reflexivity|]. cbn [map flat filter].
  rewrite IH. destruct (stream_eqb (stream_of k (e_level (fst e))) x); cbn [map flat append].
  - rewrite fragments_line. reflexivity.
  - reflexivity.
Qed.

Lemma exact_run : forall l s p sched st x,
  (forall t, forallb fixed_call (p t) = true) ->
  (forall t, forallb (fun c => negb (empties x c)) (p t) = true) ->
  run sched (start l s p) = Some st ->
  locks st /\ exact_text x st /\ fixed s st /\ in_order p st.
Proof.
  intros l s p sched st x Fx Em R.
  destruct (run_invariant (fun st => exact_text x st /\ fixed s st /\ in_order p st))
    with (4 := R) as (A & B & C & D).
  - intros t ts a b L (E & F & O) S. split; [eapply exact_text_step; eauto|].
    split; [eapply fixed_step; eauto|eapply in_order_step; eauto].
  - apply locks_start.
  - split; [|split].
    + split; [apply shapes_start|]. split; [|reflexivity].
      intros t. split; [reflexivity|]. cbn [threads start calls].
      specialize (Fx t). specialize (Em t). induction (p t) as [|c r IH]; [reflexivity|].
      cbn [forallb] in *. apply andb_true_iff in Fx as (F1 & F2).
      apply andb_true_iff in Em as (E1 & E2). rewrite IH by assumption.
      destruct c; cbn [code forallb erases negb fixed_call empties] in *; try discriminate; try reflexivity.
      rewrite E1. reflexivity.
    + split; [reflexivity|]. split; [constructor|]. intros t. split; [reflexivity|apply Fx].
    + apply in_order_start.
  - auto.
Qed.

(** As long as no sink comes or goes: when the threads are done there is one
    sequence of entries that explains the text of every stream nobody empties.
    Each thread's messages are in it in the order the thread logged them, none
    twice. *)
Theorem C84_one_order : forall l s p st,
  reachable l s p st -> finished st ->
  (forall t, forallb fixed_call (p t) = true) ->
  exists es : list entry,
    (forall x, (forall t, forallb (fun c => negb (empties x c)) (p t) = true) ->
       text st x = written x s es) /\
    (forall t, subseq (by_thread t es) (messages (p t))).
Proof.
  intros l s p st (sched & R) Fi Fx. exists (known st). split.
  - intros x Em. destruct (exact_run _ _ _ _ _ x Fx Em R) as (L & (Sh & K & E) & (Sk & Lg & _) & _).
    unfold outstanding in E. rewrite (finished_mutex st L Fi), append_nil in E.
    rewrite E. apply shown_written. exact Lg.
  - intros t. destruct (reachable_ok l s p st) as (_ & _ & O); [exists sched; exact R|].
    specialize (O t). destruct (Fi t) as (A & B). rewrite A, B in O.
    cbn [pending to_log flat_map app] in O. rewrite app_nil_r in O.
    rewrite to_log_messages in O. exact O.
Qed.

(** If moreover nobody changes the level, nothing is lost: each thread's part
    of the sequence is exactly its messages at or above the level. *)
Theorem C84_nothing_lost : forall l s p st,
  reachable l s p st -> finished st ->
  (forall t, forallb fixed_call (p t) = true) ->
  (forall t l', ~ In (CSetLevel l') (p t)) ->
  exists es : list entry,
    (forall x, (forall t, forallb (fun c => negb (empties x c)) (p t) = true) ->
       text st x = written x s es) /\
    (forall t, by_thread t es
               = filter (fun k => l <=? fst (fst k)) (messages (p t))).
Proof.
  intros l s p st (sched & R) Fi Fx Lv. exists (known st). split.
  - intros x Em. destruct (exact_run _ _ _ _ _ x Fx Em R) as (L & (Sh & K & E) & (Sk & Lg & _) & _).
    unfold outstanding in E. rewrite (finished_mutex st L Fi), append_nil in E.
    rewrite E. apply shown_written. exact Lg.
  - intros t.
    set (P := Nat.eqb l).
    assert (Lo : false = true -> forall k, P k = true -> 3 < k -> P 3 = true) by discriminate.
    assert (Ab : forall k, P k = true -> l <= k).
    { unfold P. intros k E. apply Nat.eqb_eq in E. lia. }
    destruct (run_invariant (fun st => single st /\ levels P false l 0 st /\ complete l p st))
      with (4 := R) as (_ & _ & _ & C).
    + intros u ts a b Lk (S1 & S2 & S3) S. split; [eapply single_step; eauto|].
      split; [eapply levels_step; eauto|].
      destruct S2 as (Q1 & Q2 & _). unfold P in Q1. apply Nat.eqb_eq in Q1.
      eapply complete_step; eauto. apply Q2.
    + apply locks_start.
    + split; [intros u; exact I|]. split; [|apply complete_start].
      split; [unfold P; cbn; apply Nat.eqb_refl|]. split; [|split; [constructor|cbn; lia]].
      intros u. split; [reflexivity|]. split; [|constructor]. cbn [threads start calls].
      apply forallb_forall. intros c I. specialize (Fx u). rewrite forallb_forall in Fx.
      specialize (Fx c I). destruct c; cbn in *; try discriminate; try reflexivity.
      destruct (Lv u level); exact I.
    + specialize (C t). destruct (Fi t) as (A & B). rewrite A, B in C. cbn in C.
      rewrite app_nil_r, to_log_messages in C. exact C.
Qed.

(** With one console and one string sink: errors (level 4 and above) are on
    standard error and nowhere else on the console, the rest on standard output,
    and the string sink has all of them. *)
Theorem C84_errors_on_stderr : forall l colors n p st,
  reachable l [SConsole colors; SString n] p st -> finished st ->
  (forall t, forallb fixed_call (p t) = true) ->
  (forall t l', ~ In (CSetLevel l') (p t)) ->
  (forall t, forallb (fun c => negb (empties (TString n) c)) (p t) = true) ->
  exists es : list entry,
    text st TErr = String.concat "" (map (line colors) (filter (fun e => 4 <=? e_level e) es)) /\
    text st TOut = String.concat "" (map (line colors) (filter (fun e => e_level e <? 4) es)) /\
    text st (TString n) = String.concat "" (map (line false) es) /\
    (forall t, by_thread t es = filter (fun k => l <=? fst (fst k)) (messages (p t))).
Proof.
  intros l colors n p st Re Fi Fx Lv Em.
  destruct (C84_nothing_lost _ _ _ _ Re Fi Fx Lv) as (es & T & B).
  exists es. rewrite (T TErr), (T TOut), (T (TString n) Em).
  - split; [|split; [|split; [|exact B]]]; clear; unfold written; f_equal;
      (induction es as [|e es IH]; [reflexivity|]); cbn [flat_map]; rewrite IH; clear IH;
      cbn [filter stream_of stream_eqb].
    + destruct (4 <=? e_level e); reflexivity.
    + replace (e_level e <? 4) with (negb (4 <=? e_level e))
        by (unfold Nat.ltb; destruct (e_level e) as [|[|[|[|k]]]]; reflexivity).
      destruct (4 <=? e_level e); reflexivity.
    + rewrite Nat.eqb_refl. destruct (4 <=? e_level e); reflexivity.
  - intros t. apply forallb_forall. intros [] _; reflexivity.
  - intros t. apply forallb_forall. intros [] _; reflexivity.
Qed.

(** two threads, a string sink and the console; the threads' lines alternate *)
Definition demo_program (t : nat) : list call :=
  match t with
  | 0 => [CLog 3 "Coil" "winding"; CLog 1 "" "hidden"; CLog 4 "" "overflow"]
  | 1 => [CLog 5 "Core" "saturated"]
  | _ => []
  end%string.

(** thread 0 until it has written half of its first line, thread 1 gets as far
    as it can (the logger's mutex stops it), thread 0 goes on, thread 1 ends *)
Definition demo_schedule : list (nat * string) :=
  repeat (0, "12:00"%string) 10 ++ repeat (1, "12:01"%string) 2 ++
  repeat (0, "12:02"%string) 25 ++ repeat (1, "12:03"%string) 30 ++
  repeat (0, "12:04"%string) 25.

Definition idle_upto (n : nat) (st : state) : bool :=
  forallb (fun t => match ops (threads st t), calls (threads st t) with [], [] => true | _, _ => false end)
    (seq 0 n).

Lemma idle_finished : forall n l s p sched st,
  run sched (start l s p) = Some st -> (forall t, n <= t -> p t = []) ->
  idle_upto n st = true -> finished st.
Proof.
  intros n l s p sched st R P I t.
  destruct (le_lt_dec n t) as [G|G].
  - destruct (run_work n sched (start l s p) st) as (_ & X); auto.
    intros u Hu. split; [reflexivity|apply P; exact Hu].
  - unfold idle_upto in I. rewrite forallb_forall in I.
    specialize (I t (proj2 (in_seq n 0 t) (conj (Nat.le_0_l t) G))).
    destruct (ops (threads st t)), (calls (threads st t)); try discriminate. auto.
Qed.

(** what can be seen of the state a schedule ends in *)
Definition ending {A} (o : option state) (f : state -> A) : option A :=
  match o with Some st => Some (f st) | None => None end.

Lemma ending_some : forall A o (f : state -> A) a,
  ending o f = Some a -> exists st, o = Some st /\ f st = a.
Proof. intros A [st|] f a H; [|discriminate]. injection H as <-. eauto. Qed.

Example C83_C84_witness :
  exists st, reachable 2 [SString 7; SConsole false] demo_program st /\ finished st /\
    (forall t, forallb fixed_call (demo_program t) = true) /\
    (forall t l', ~ In (CSetLevel l') (demo_program t)) /\
    text st (TString 7) =
      ("[12:00] [WARNING] [Coil] winding" ++ newline ++
       "[12:03] [CRITICAL] [Core] saturated" ++ newline ++
       "[12:04] [ERROR] overflow" ++ newline)%string /\
    text st TOut = ("[12:00] [WARNING] [Coil] winding" ++ newline)%string /\
    text st TErr =
      ("[12:03] [CRITICAL] [Core] saturated" ++ newline ++
       "[12:04] [ERROR] overflow" ++ newline)%string.
Proof.
  assert (V : ending (run demo_schedule (start 2 [SString 7; SConsole false] demo_program)) (fun st => (idle_upto 2 st, text st (TString 7), text st TOut, text st TErr))
    = Some (true,
      "[12:00] [WARNING] [Coil] winding" ++ newline ++
       "[12:03] [CRITICAL] [Core] saturated" ++ newline ++
       "[12:04] [ERROR] overflow" ++ newline,
      "[12:00] [WARNING] [Coil] winding" ++ newline,
      "[12:03] [CRITICAL] [Core] saturated" ++ newline ++
       "[12:04] [ERROR] overflow" ++ newline)%string) by (vm_compute; reflexivity).
  apply ending_some in V as (st & E & V).
  exists st. split; [exists demo_schedule; exact E|].
  injection V as V1 V2 V3 V4.
  split. { eapply (idle_finished 2); [exact E| |exact V1].
    intros [|[|t]] H; try lia. reflexivity. }
  split. { intros [|[|t]]; reflexivity. }
  split. { intros [|[|t]] l' H; cbn in H; intuition discriminate. }
  auto.
Qed.

(** ** C85: read_log *)

(** One thread that logs and reads back, and does whatever else it likes with
    the logger: each call of read_log returns exactly the messages logged at or
    above the level since the previous call of read_log, in order, and the
    first call returns nothing (the queue of [LogSequential.queue_call] also
    says what clearSinks and the level do to it). *)
Theorem C85_read_log_partial : forall t l s p st,
  reachable l s p st -> finished st ->
  (forall u, u <> t -> p u = []) ->
  ~ In (SString read_sink) s -> forallb own (p t) = true ->
  Forall2 shows
    (map snd (filter (fun r => snd (fst r) =? read_sink) (returned st)))
    (queue_calls (mkQueue l false false []) (p t)).
Proof.
  intros t l s p st (sched & R) Fi Al Sk Ow.
  assert (Ls : listeners s = 0).
  { clear -Sk. induction s as [|k s IH]; [reflexivity|].
    assert (~ In (SString read_sink) s) by (intros H; apply Sk; right; exact H).
    destruct k as [n|n|c]; cbn; auto.
    destruct (Nat.eqb_spec n read_sink) as [->|D]; [|auto].
    destruct Sk. left. reflexivity. }
  destruct (calls_run t st Fi (p t) (mkQueue l false false []) (start l s p)) as (new & E & F).
  - split; [|eauto]. intros u N. split; [reflexivity|apply Al; exact N].
  - split; [reflexivity|]. split; [reflexivity|]. split; [reflexivity|]. split; [reflexivity|].
    split; [exact Ls|]. split; [reflexivity|]. exists []. split; reflexivity.
  - reflexivity.
  - reflexivity.
  - exact Ow.
  - unfold reads in E. rewrite E. exact F.
Qed.

Example C85_witness : exists st,
  reachable 4 [SConsole true] (fun t => match t with
    | 0 => [CReadLog; CLog 3 "Coil" "one"; CLog 2 "" "low"; CLog 4 "" "two"; CReadLog; CReadLog]%string
    | _ => [] end) st /\ finished st /\
  queue_calls (mkQueue 4 false false [])
    [CReadLog; CLog 3 "Coil" "one"; CLog 2 "" "low"; CLog 4 "" "two"; CReadLog; CReadLog]%string
  = [[]; [(3, "Coil", "one"); (4, "", "two")]; []]%string.
Proof.
  set (p := fun t => match t with
    | 0 => [CReadLog; CLog 3 "Coil" "one"; CLog 2 "" "low"; CLog 4 "" "two"; CReadLog; CReadLog]%string
    | _ => [] end).
  assert (V : ending (run (repeat (0, "now"%string) 96) (start 4 [SConsole true] p)) (idle_upto 1)
    = Some true) by (vm_compute; reflexivity).
  apply ending_some in V as (st & E & V).
  exists st. split; [eexists; exact E|]. split; [|reflexivity].
  eapply (idle_finished 1); [exact E|intros [|t] H; [lia|reflexivity]|exact V].
Qed.

(** A second thread logs between the two halves of a read_log (getContents,
    then clear): the console shows the entry, no read_log ever returns it. *)
Theorem C85_entry_lost_refuted :
  exists p st, reachable 4 [SConsole false] p st /\ finished st /\
    p 1 = [CLog 4 "" "overflow"%string] /\ p 0 = [CReadLog; CReadLog; CReadLog] /\
    text st TErr = ("[now] [ERROR] overflow" ++ newline)%string /\
    map snd (returned st) = [""; ""; ""]%string /\
    text st (TString read_sink) = ""%string.
Proof.
  set (p := fun t => match t with
    | 0 => [CReadLog; CReadLog; CReadLog] | 1 => [CLog 4 "" "overflow"%string] | _ => [] end).
  set (sched := repeat (0, "now"%string) 21 ++ repeat (1, "now"%string) 26
                ++ repeat (0, "now"%string) 11).
  assert (V : ending (run sched (start 4 [SConsole false] p)) (fun st =>
      (idle_upto 2 st, text st TErr, map snd (returned st), text st (TString read_sink)))
    = Some (true, ("[now] [ERROR] overflow" ++ newline)%string, [""; ""; ""]%string, ""%string))
    by (vm_compute; reflexivity).
  apply ending_some in V as (st & E & V). injection V as V1 V2 V3 V4.
  exists p, st. split; [eexists; exact E|].
  split; [eapply (idle_finished 2); [exact E|intros [|[|t]] H; try lia; reflexivity|exact V1]|].
  auto.
Qed.

(** Two threads read at once: both get the same entry. *)
Theorem C85_entry_read_twice_refuted :
  exists p st, reachable 4 [SConsole false] p st /\ finished st /\
    p 0 = [CReadLog; CLog 4 "" "overflow"; CReadLog]%string /\ p 1 = [CReadLog] /\
    map snd (returned st) =
      [""; "[now] [ERROR] overflow" ++ newline; "[now] [ERROR] overflow" ++ newline]%string.
Proof.
  set (p := fun t => match t with
    | 0 => [CReadLog; CLog 4 "" "overflow"; CReadLog]%string | 1 => [CReadLog] | _ => [] end).
  set (sched := repeat (0, "now"%string) (16 + 26 + 5) ++ repeat (1, "now"%string) 8
                ++ repeat (0, "now"%string) 3).
  assert (V : ending (run sched (start 4 [SConsole false] p)) (fun st =>
      (idle_upto 2 st, map snd (returned st)))
    = Some (true, [""; "[now] [ERROR] overflow" ++ newline; "[now] [ERROR] overflow" ++ newline]%string))
    by (vm_compute; reflexivity).
  apply ending_some in V as (st & E & V). injection V as V1 V2.
  exists p, st. split; [eexists; exact E|].
  split; [eapply (idle_finished 2); [exact E|intros [|[|t]] H; try lia; reflexivity|exact V1]|].
  auto.
Qed.

(** clearSinks removes read_log's sink and nothing registers it again: entries
    logged later reach the other sinks and no read_log. *)
Theorem C85_deaf_after_clear_refuted :
  exists p st, reachable 4 [SConsole false] p st /\ finished st /\
    p 0 = [CReadLog; CClearSinks; CAddSink (SConsole false); CLog 4 "" "overflow"; CReadLog]%string /\
    (forall t, t <> 0 -> p t = []) /\
    text st TErr = ("[now] [ERROR] overflow" ++ newline)%string /\
    map snd (returned st) = [""; ""]%string /\ text st (TString read_sink) = ""%string.
Proof.
  set (p := fun t => match t with
    | 0 => [CReadLog; CClearSinks; CAddSink (SConsole false); CLog 4 "" "overflow"; CReadLog]%string
    | _ => [] end).
  set (sched := repeat (0, "now"%string) (16 + 4 + 4 + 15 + 8)).
  assert (V : ending (run sched (start 4 [SConsole false] p)) (fun st =>
      (idle_upto 1 st, text st TErr, map snd (returned st), text st (TString read_sink)))
    = Some (true, ("[now] [ERROR] overflow" ++ newline)%string, [""; ""]%string, ""%string))
    by (vm_compute; reflexivity).
  apply ending_some in V as (st & E & V). injection V as V1 V2 V3 V4.
  exists p, st. split; [eexists; exact E|].
  split; [eapply (idle_finished 1); [exact E|intros [|t] H; try lia; reflexivity|exact V1]|].
  split; [reflexivity|]. split; [intros [|t] N; [contradiction|reflexivity]|]. auto.
Qed.

(** ** C86: the level *)

Definition silent (F : nat) (st0 st : state) : Prop :=
  (forall t, plain (ops (threads st t)) /\
     Forall (fun k => level_of k < F) (pending (ops (threads st t))) /\
     Forall (fun k => level_of k < F) (to_log (calls (threads st t)))) /\
  (forall x, text st x = text st0 x \/
     (exists n, x = TString n /\ text st x = ""%string)).

Lemma silent_step : forall P b F n st0 t ts st st',
  single st -> levels P b F n st -> silent F st0 st -> step t ts st = Some st' ->
  silent F st0 st'.
Proof.
  intros P b F n st0 t ts st st' Si (_ & Lv & _) (Q & T) H.
  destruct (Lv t) as (_ & _ & Ch). pose proof (Q t) as (Pl & Pe & To).
  assert (Mine : forall st2 o, threads st2 = threads st -> plain o ->
    Forall (fun k => level_of k < F) (pending o) ->
    forall u, plain (ops (threads (set_ops t o st2) u)) /\
      Forall (fun k => level_of k < F) (pending (ops (threads (set_ops t o st2) u))) /\
      Forall (fun k => level_of k < F) (to_log (calls (threads (set_ops t o st2) u)))).
  { intros st2 o E A B u. cbn [threads set_ops]. destruct (Nat.eq_dec u t) as [->|N].
    - rewrite put_nat_same. cbn [ops calls]. rewrite E. auto.
    - rewrite put_nat_other by exact N. rewrite E. apply Q. }
  assert (Tail : forall o r, ops (threads st t) = o :: r ->
    plain r /\ Forall (fun k => level_of k < F) (pending r)).
  { intros o r E. rewrite E in Pl, Pe. apply plain_cons in Pl as (_ & Pl). split; [exact Pl|].
    destruct o; try exact Pe. exact (Forall_inv_tail Pe). }
  step_cases H; try rewrite Ops in Pl; try rewrite Ops in Pe; try rewrite Ops in Ch;
    try (destruct (Tail _ _ eq_refl) as (Pl' & Pe'));
    try (split; [apply Mine; solve [auto]|exact T]);
    try (split; [apply Mine; solve [auto]|]; fail).
  - split; [|exact T]. intros u. cbn [threads]. destruct (Nat.eq_dec u t) as [->|N].
    + rewrite put_nat_same. cbn [ops calls]. try rewrite Calls in To.
      cbn [to_log flat_map] in To. apply Forall_app in To as (T1 & T2).
      split; [apply plain_code|]. auto.
    + rewrite put_nat_other by exact N. apply Q.
  - split; [|exact T]. apply Mine; [reflexivity|reflexivity|constructor].
  - exfalso. cbn in Ch, Pe. apply Forall_inv in Ch. apply Forall_inv in Pe. cbn in *. lia.
  - discriminate Pl.
  - discriminate Pl.
  - split; [apply Mine; auto|]. intros x. cbn. unfold put.
    destruct (stream_eqb x (TString n0)) eqn:X; [|apply T].
    apply stream_eqb_eq in X. right. eauto.
Qed.

(** Once no call is in progress and the level is at least F, and as long as
    nobody sets a level below F and nobody reads the log (unless F is at most
    WARNING): every call of log below F leaves every text as it is.  With
    F = OFF this is "no more output". *)
Theorem C86_below_the_level_nothing_partial : forall l s p F st0 sched st,
  reachable l s p st0 -> (forall t, ops (threads st0 t) = []) -> F <= level st0 ->
  (forall t c, In c (calls (threads st0 t)) ->
     match c with
     | CLog l' _ _ => l' < F
     | CSetLevel l' => F <= l'
     | CReadLog => F <= 3
     | _ => True
     end) ->
  run sched st0 = Some st ->
  forall x, text st x = text st0 x \/ (exists n, x = TString n /\ text st x = ""%string).
Proof.
  intros l s p F st0 sched st Re Id Lv Al R.
  destruct (reachable_ok _ _ _ _ Re) as (L & _ & _).
  set (P := fun k => F <=? k). set (b := F <=? 3).
  assert (Lo : b = true -> forall k, P k = true -> 3 < k -> P 3 = true) by (intros B _ _ _; exact B).
  assert (Ab : forall k, P k = true -> F <= k) by (intros k E; apply Nat.leb_le; exact E).
  destruct (run_invariant (fun st => single st /\ levels P b F (List.length (known st0)) st /\ silent F st0 st))
    with (4 := R) as (_ & _ & _ & _ & T).
  - intros u ts a c Lk (S1 & S2 & S3) S. split; [eapply single_step; eauto|].
    split; [eapply levels_step; eauto|eapply silent_step; eauto].
  - exact L.
  - split; [intros t; rewrite Id; exact I|]. split.
    + split; [apply Nat.leb_le; exact Lv|]. split; [|split; [rewrite skipn_all; constructor|lia]].
      intros t. rewrite Id. split; [reflexivity|]. split; [|constructor].
      apply forallb_forall. intros c Ic. specialize (Al t c Ic). destruct c; try reflexivity.
      * cbn. rewrite (proj2 (Nat.leb_le _ _) Al : P level = true). reflexivity.
      * cbn. rewrite (proj2 (Nat.leb_le _ _) Al : b = true). reflexivity.
    + split; [|auto]. intros t. rewrite Id. split; [reflexivity|]. split; [constructor|].
      rewrite to_log_messages. apply Forall_forall. intros ((k & m) & e) H.
      apply messages_in in H. exact (Al t _ H).
  - exact T.
Qed.

Example C86_witness : exists st0,
  reachable 2 [SString 7] (fun t => match t with
    | 0 => [CLog 3 "" "seen"; CSetLevel 6; CLog 5 "" "unseen"]%string | _ => [] end) st0 /\
  (forall t, ops (threads st0 t) = []) /\ 6 <= level st0 /\
  calls (threads st0 0) = [CLog 5 "" "unseen"%string] /\
  text st0 (TString 7) = ("[now] [WARNING] seen" ++ newline)%string.
Proof.
  set (p := fun t => match t with
    | 0 => [CLog 3 "" "seen"; CSetLevel 6; CLog 5 "" "unseen"]%string | _ => [] end).
  assert (V : ending (run (repeat (0, "now"%string) 21) (start 2 [SString 7] p)) (fun st =>
      (ops (threads st 0), 6 <=? level st, calls (threads st 0), text st (TString 7)))
    = Some ([], true, [CLog 5 "" "unseen"%string], ("[now] [WARNING] seen" ++ newline)%string))
    by (vm_compute; reflexivity).
  apply ending_some in V as (st & E & V). injection V as V1 V2 V3 V4.
  exists st. split; [eexists; exact E|]. split; [|split; [apply Nat.leb_le; exact V2|auto]].
  intros [|t]; [exact V1|].
  assert (Id : forall u, 1 <= u -> ops (threads (start 2 [SString 7] p) u) = [] /\
    calls (threads (start 2 [SString 7] p) u) = []).
  { intros [|u] H; [lia|]. split; reflexivity. }
  destruct (run_work 1 _ _ st Id E) as (_ & X).
  apply X. lia.
Qed.

(** A log call that has passed its check writes after setLevel(OFF) has
    returned. *)
Theorem C86_late_entry_refuted :
  exists p st1 st2 sched2,
    reachable 2 [SConsole false] p st1 /\
    p 1 = [CSetLevel 6] /\ p 0 = [CLog 4 "" "late"%string] /\
    ops (threads st1 1) = [] /\ calls (threads st1 1) = [] /\ level st1 = 6 /\
    text st1 TErr = ""%string /\
    run sched2 st1 = Some st2 /\ text st2 TErr = ("[now] [ERROR] late" ++ newline)%string.
Proof.
  set (p := fun t => match t with
    | 0 => [CLog 4 "" "late"%string] | 1 => [CSetLevel 6] | _ => [] end).
  set (s1 := repeat (0, "now"%string) 2 ++ repeat (1, "now"%string) 4).
  set (s2 := repeat (0, "now"%string) 13).
  assert (V : ending (run s1 (start 2 [SConsole false] p)) (fun st1 =>
      (ops (threads st1 1), calls (threads st1 1), level st1, text st1 TErr,
       ending (run s2 st1) (fun st2 => text st2 TErr)))
    = Some ([], [], 6, ""%string, Some ("[now] [ERROR] late" ++ newline)%string))
    by (vm_compute; reflexivity).
  apply ending_some in V as (st1 & E & V). injection V as V1 V2 V3 V4 V5.
  apply ending_some in V5 as (st2 & E2 & V5).
  exists p, st1, st2, s2. split; [eexists; exact E|]. auto 10.
Qed.

(** read_log lowers the level of the logger for good: with the level at OFF
    and nobody setting it, a warning still reaches the console. *)
Theorem C86_read_log_lowers_the_level_refuted :
  exists p st, reachable 6 [SConsole false] p st /\ finished st /\
    p 0 = [CReadLog; CLog 3 "" "noise"]%string /\ (forall t, t <> 0 -> p t = []) /\
    text st TOut = ("[now] [WARNING] noise" ++ newline)%string.
Proof.
  set (p := fun t => match t with 0 => [CReadLog; CLog 3 "" "noise"]%string | _ => [] end).
  assert (V : ending (run (repeat (0, "now"%string) (16 + 26)) (start 6 [SConsole false] p)) (fun st =>
      (idle_upto 1 st, text st TOut))
    = Some (true, ("[now] [WARNING] noise" ++ newline)%string)) by (vm_compute; reflexivity).
  apply ending_some in V as (st & E & V). injection V as V1 V2.
  exists p, st. split; [eexists; exact E|].
  split; [eapply (idle_finished 1); [exact E|intros [|t] H; try lia; reflexivity|exact V1]|].
  split; [reflexivity|]. split; [intros [|t] N; [contradiction|reflexivity]|exact V2].
Qed.

(** ** C87: no deadlock, and every call returns *)

(** Unless all threads are done, some thread can go on. *)
Theorem C87_no_deadlock : forall l s p st t,
  reachable l s p st -> ops (threads st t) <> [] \/ calls (threads st t) <> [] ->
  forall stamp, exists u st', step u stamp st = Some st'.
Proof.
  intros l s p st t Re W ts. destruct (reachable_ok _ _ _ _ Re) as (L & _).
  destruct (progress st t ts L W) as (u & X).
  destruct (step u ts st) as [st'|] eqn:E; [eauto|contradiction].
Qed.

Lemma can_finish : forall n k st,
  locks st -> (forall t, n <= t -> ops (threads st t) = [] /\ calls (threads st t) = []) ->
  work n st <= k -> exists sched st', run sched st = Some st' /\ finished st'.
Proof.
  intros n. induction k as [|k IH]; intros st L Idle W.
  - exists [], st. split; [reflexivity|]. intros t.
    destruct (le_lt_dec n t) as [G|G]; [auto|].
    destruct (step t "" st) as [st'|] eqn:E.
    + destruct (step_work n t _ _ _ G E). lia.
    + assert (D : (ops (threads st t) = [] /\ calls (threads st t) = []) \/
        (ops (threads st t) <> [] \/ calls (threads st t) <> [])).
      { destruct (ops (threads st t)), (calls (threads st t)); auto; right;
          try (left; discriminate); right; discriminate. }
      destruct D as [D|D]; [exact D|]. exfalso.
      destruct (progress st t ""%string L D) as (u & X).
      destruct (step u "" st) as [st'|] eqn:E'; [|contradiction].
      assert (u < n).
      { destruct (le_lt_dec n u) as [G'|G']; [|exact G']. destruct (Idle u G') as (A & B).
        unfold step in E'. rewrite A, B in E'. discriminate. }
      destruct (step_work n u _ _ _ H E'). lia.
  - assert (Dec : (forall t, t < n -> ops (threads st t) = [] /\ calls (threads st t) = []) \/
      exists t, ops (threads st t) <> [] \/ calls (threads st t) <> []).
    { clear -n. induction n as [|m IHm]; [left; intros; lia|].
      destruct IHm as [A|A]; [|right; exact A].
      destruct (ops (threads st m)) eqn:O; [|right; exists m; left; congruence].
      destruct (calls (threads st m)) eqn:C; [|right; exists m; right; congruence].
      left. intros t H. destruct (Nat.eq_dec t m) as [->|]; [auto|apply A; lia]. }
    destruct Dec as [A|(t & A)].
    + exists [], st. split; [reflexivity|]. intros t.
      destruct (le_lt_dec n t); auto.
    + destruct (progress st t ""%string L A) as (u & X).
      destruct (step u "" st) as [st1|] eqn:E; [|contradiction].
      assert (Hu : u < n).
      { destruct (le_lt_dec n u) as [G'|G']; [|exact G']. destruct (Idle u G') as (B & C).
        unfold step in E. rewrite B, C in E. discriminate. }
      destruct (step_work n u _ _ _ Hu E) as (_ & W').
      assert (Idle1 : forall t, n <= t -> ops (threads st1 t) = [] /\ calls (threads st1 t) = []).
      { destruct (run_work n [(u, ""%string)] st st1 Idle) as (_ & Y); [|exact Y].
        cbn. rewrite E. reflexivity. }
      destruct (IH st1 (locks_step _ _ _ _ L E) Idle1) as (sched & st' & R & Fi); [lia|].
      exists ((u, ""%string) :: sched), st'. split; [|exact Fi]. cbn. rewrite E. exact R.
Qed.

(** However finitely many threads are scheduled, they come to an end: no
    schedule is longer than a bound fixed by the program, and every state on
    the way can still be brought to the end of all calls. *)
Theorem C87_every_call_returns : forall l s p n,
  (forall t, n <= t -> p t = []) ->
  exists bound, forall sched st, run sched (start l s p) = Some st ->
    List.length sched <= bound /\
    exists sched' st', run sched' st = Some st' /\ finished st'.
Proof.
  intros l s p n P. exists (work n (start l s p)). intros sched st R.
  assert (Idle : forall t, n <= t ->
    ops (threads (start l s p) t) = [] /\ calls (threads (start l s p) t) = []).
  { intros t H. split; [reflexivity|apply P; exact H]. }
  destruct (run_work n _ _ _ Idle R) as (B & I). split; [lia|].
  destruct (reachable_ok l s p st) as (L & _); [exists sched; exact R|].
  eapply can_finish; eauto.
Qed.

Example C87_witness :
  exists st, reachable 2 [SString 7; SConsole false] demo_program st /\
    (exists r, ops (threads st 1) = OLock :: r) /\ mutex st = Some 0 /\
    step 1 "now" st = None /\ (forall t, 2 <= t -> demo_program t = []).
Proof.
  assert (V : ending (run (firstn 12 demo_schedule) (start 2 [SString 7; SConsole false] demo_program))
    (fun st => (ops (threads st 1), mutex st,
                match step 1 "now" st with None => true | Some _ => false end))
    = Some ([OLock; OStamp 5 "Core" "saturated"; OUnlock]%string, Some 0, true))
    by (vm_compute; reflexivity).
  apply ending_some in V as (st & E & V). injection V as V1 V2 V3.
  exists st. split; [eexists; exact E|]. split; [rewrite V1; eauto|]. split; [exact V2|].
  split; [destruct (step 1 "now" st); [discriminate|reflexivity]|].
  intros [|[|t]] H; try lia; reflexivity.
Qed.

(** ** C88: no data race *)

(** the locations that are neither atomic nor a mutex, and the one an
    operation reads or writes *)
Inductive location := LSinks | LText (x : stream).

Definition touches (o : op) : option location :=
  match o with
  | OIter _ _ | OAdd _ | OClear => Some LSinks
  | OWrite x _ => Some (LText x)
  | ORead n | OErase n => Some (LText (TString n))
  | _ => None
  end.

(** No two threads are ever about to access the same location. *)
Theorem C88_no_data_race : forall l s p st t u o1 r1 o2 r2 x,
  reachable l s p st -> t <> u ->
  ops (threads st t) = o1 :: r1 -> ops (threads st u) = o2 :: r2 ->
  touches o1 = Some x -> touches o2 = Some x -> False.
Proof.
  intros l s p st t u o1 r1 o2 r2 x Re N E1 E2 T1 T2.
  destruct (reachable_ok _ _ _ _ Re) as (L & _).
  destruct (L t) as (m & k & q & W & Hm & Hk & _).
  destruct (L u) as (m' & k' & q' & W' & Hm' & Hk' & _).
  rewrite E1 in W. rewrite E2 in W'.
  assert (Mu : m = true -> m' = true -> False).
  { intros -> ->. destruct Hm as (A & _). destruct Hm' as (B & _).
    specialize (A eq_refl). specialize (B eq_refl). congruence. }
  assert (Sk : forall n, k = Some n -> k' = Some n -> False).
  { intros n A B. apply Hk in A. apply Hk' in B. congruence. }
  destruct o1; cbn in T1; try discriminate T1; injection T1 as <-;
    destruct o2; cbn in T2; try discriminate T2; try (injection T2 as T2);
    cbn in W, W'; try (apply Mu; tauto);
    try (subst; destruct W as (_ & W); destruct W' as (_ & W'); cbn in *;
         eapply Sk; [apply W|apply W']; fail).
  all: try (subst; cbn in *; eapply Sk; intuition eauto).
  all: injection T2 as <-; cbn in *; eapply Sk; intuition eauto.
Qed.

(** both threads of the demonstration are inside the logger, one about to write *)
Example C88_witness :
  exists st r, reachable 2 [SString 7; SConsole false] demo_program st /\
    ops (threads st 0) = OWrite (TString 7) "WARNING" :: r /\ ops (threads st 1) <> [].
Proof.
  assert (V : ending (run (firstn 12 demo_schedule) (start 2 [SString 7; SConsole false] demo_program))
    (fun st => (match ops (threads st 0) with OWrite (TString 7) s :: _ => s | _ => ""%string end,
                List.length (ops (threads st 1))))
    = Some ("WARNING"%string, 3)) by (vm_compute; reflexivity).
  apply ending_some in V as (st & E & V).
  destruct (ops (threads st 0)) as [|[] r] eqn:O; try discriminate V.
  destruct t as [n| | |]; try discriminate V.
  do 8 (destruct n as [|n]; try discriminate V). injection V as -> V.
  exists st, r. split; [eexists; exact E|]. split; [exact O|].
  intros X. rewrite X in V. discriminate.
Qed.

Print Assumptions C83_whole_lines.
Print Assumptions C84_one_order.
Print Assumptions C84_nothing_lost.
Print Assumptions C84_errors_on_stderr.
Print Assumptions C85_read_log_partial.
Print Assumptions C85_entry_lost_refuted.
Print Assumptions C85_entry_read_twice_refuted.
Print Assumptions C85_deaf_after_clear_refuted.
Print Assumptions C86_below_the_level_nothing_partial.
Print Assumptions C86_late_entry_refuted.
Print Assumptions C86_read_log_lowers_the_level_refuted.
Print Assumptions C87_no_deadlock.
Print Assumptions C87_every_call_returns.
Print Assumptions C88_no_data_race.
