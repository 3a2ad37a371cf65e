(** * The logger: one thread reading back what it logged *)

From Coq Require Import List String Bool Arith Lia.
From Verif Require Import LogModel LogProofs LogOrder.
Import ListNotations.
Local Open Scope list_scope.
Local Open Scope nat_scope.

Lemma some_inj : forall A (a b : A), Some a = Some b -> a = b.
Proof. congruence. Qed.

Section OneThread.

Variable t : nat.
Variable fin : state.
Hypothesis fin_finished : finished fin.

Definition only (st : state) : Prop :=
  forall u, u <> t -> ops (threads st u) = [] /\ calls (threads st u) = [].

Definition reach (st : state) : Prop :=
  only st /\ exists sched, run sched st = Some fin.

Lemma step_only : forall ts st st',
  only st -> step t ts st = Some st' -> only st'.
Proof.
  intros ts st st' O H u N.
  assert (threads st' u = threads st u) as ->; [|auto].
  step_cases H; cbn; rewrite ?put_nat_other by exact N; reflexivity.
Qed.

Lemma peel : forall st,
  reach st -> ops (threads st t) <> [] \/ calls (threads st t) <> [] ->
  exists ts st1, step t ts st = Some st1 /\ reach st1.
Proof.
  intros st (O & sched & R) Work. destruct sched as [|[u ts] r]; cbn in R.
  - injection R as <-. destruct (fin_finished t). intuition congruence.
  - destruct (step u ts st) as [st1|] eqn:E; [|discriminate].
    destruct (Nat.eq_dec u t) as [->|N].
    + exists ts, st1. split; [exact E|]. split; [eapply step_only; eauto|eauto].
    + destruct (O u N) as (A & B). unfold step in E. rewrite A, B in E. discriminate.
Qed.

(** everything that the writes to the sinks leave alone *)
Definition same (st st' : state) : Prop :=
  level st' = level st /\ mutex st' = mutex st /\ sinks st' = sinks st /\
  once st' = once st /\ returned st' = returned st /\
  calls (threads st' t) = calls (threads st t) /\
  (forall n, sink_mutex st' n = sink_mutex st n).

Lemma same_trans : forall a b c, same a b -> same b c -> same a c.
Proof.
  intros a b c (A1 & A2 & A3 & A4 & A5 & A6 & A7) (B1 & B2 & B3 & B4 & B5 & B6 & B7).
  repeat split; congruence.
Qed.

Lemma ops_set : forall o st, ops (threads (set_ops t o st) t) = o.
Proof. intros. cbn. rewrite put_nat_same. reflexivity. Qed.

Lemma calls_set : forall o st, calls (threads (set_ops t o st) t) = calls (threads st t).
Proof. intros. cbn. rewrite put_nat_same. reflexivity. Qed.

Lemma writes_run : forall x fr os st,
  reach st -> ops (threads st t) = map (OWrite x) fr ++ os ->
  exists st', reach st' /\ same st st' /\ ops (threads st' t) = os /\
    forall y, text st' y = (text st y ++ writes y x (flat fr))%string.
Proof.
  induction fr as [|f fr IH]; intros os st R E; cbn in E.
  - exists st. split; [exact R|]. split; [repeat split|]. split; [exact E|].
    intros y. unfold writes. cbn. destruct (stream_eqb x y); rewrite append_nil; reflexivity.
  - destruct (peel st R) as (ts & st1 & S & R1); [rewrite E; left; discriminate|].
    unfold step in S. rewrite E in S. apply some_inj in S; subst st1.
    destruct (IH os _ R1) as (st' & R' & Sm & O & T).
    { cbn. rewrite put_nat_same. reflexivity. }
    exists st'. split; [exact R'|]. split; [|split; [exact O|]].
    + eapply same_trans; [|exact Sm]. repeat split. cbn. rewrite put_nat_same. reflexivity.
    + intros y. rewrite T. cbn. unfold put, writes.
      destruct (stream_eqb y x) eqn:X.
      * apply stream_eqb_eq in X. subst y. rewrite (proj2 (stream_eqb_eq x x) eq_refl).
        rewrite append_assoc. reflexivity.
      * destruct (stream_eqb x y) eqn:Y; [|rewrite append_nil; reflexivity].
        apply stream_eqb_eq in Y. subst y.
        rewrite (proj2 (stream_eqb_eq x x) eq_refl) in X. discriminate.
Qed.

Lemma sink_run : forall s e os st,
  reach st -> ops (threads st t) = write_ops s e ++ os ->
  (forall n, sink_mutex st n = None) ->
  exists st', reach st' /\ same st st' /\ ops (threads st' t) = os /\
    forall y, text st' y = (text st y ++ out y [s] e)%string.
Proof.
  intros s e os st R E Free.
  assert (O : forall y, out y [s] e = writes y (stream_of s (e_level e)) (flat (fragments s e))).
  { intros y. unfold out. cbn. rewrite append_nil. reflexivity. }
  unfold write_ops in E. destruct s as [n|n|c].
  - cbn [app] in E.
    destruct (peel st R) as (ts & st1 & S & R1); [rewrite E; left; discriminate|].
    unfold step in S. rewrite E, Free in S. apply some_inj in S; subst st1.
    rewrite <- app_assoc in R1.
    destruct (writes_run _ _ _ _ R1 (ops_set _ _)) as (st2 & R2 & Sm & O2 & T).
    destruct (peel st2 R2) as (ts3 & st3 & S3 & R3); [rewrite O2; left; discriminate|].
    unfold step in S3. rewrite O2 in S3. cbn [app] in S3. apply some_inj in S3; subst st3.
    destruct Sm as (A1 & A2 & A3 & A4 & A5 & A6 & A7).
    eexists. split; [exact R3|]. split; [|split].
    + repeat split; cbn; try assumption.
      * rewrite put_nat_same. cbn. rewrite A6. cbn. rewrite put_nat_same. reflexivity.
      * intros n'. unfold put. destruct (Nat.eqb_spec n' n) as [->|D]; [rewrite Free; reflexivity|].
        rewrite A7. cbn. unfold put. destruct (Nat.eqb_spec n' n); [contradiction|reflexivity].
    + cbn. rewrite put_nat_same. reflexivity.
    + intros y. rewrite O. cbn. rewrite T. reflexivity.
  - destruct (writes_run _ _ _ _ R E) as (st2 & R2 & Sm & O2 & T).
    exists st2. split; [exact R2|]. split; [exact Sm|]. split; [exact O2|].
    intros y. rewrite T, O. reflexivity.
  - destruct (writes_run _ _ _ _ R E) as (st2 & R2 & Sm & O2 & T).
    exists st2. split; [exact R2|]. split; [exact Sm|]. split; [exact O2|].
    intros y. rewrite T, O. reflexivity.
Qed.

Lemma deliver_run : forall k i e os st,
  reach st -> ops (threads st t) = OIter i e :: os ->
  (forall n, sink_mutex st n = None) ->
  List.length (sinks st) - i = k ->
  exists st', reach st' /\ same st st' /\ ops (threads st' t) = os /\
    forall y, text st' y = (text st y ++ out y (skipn i (sinks st)) e)%string.
Proof.
  induction k as [|k IH]; intros i e os st R E Free Len;
    destruct (peel st R) as (ts & st1 & S & R1); try (rewrite E; left; discriminate);
    unfold step in S; rewrite E in S; destruct (nth_error (sinks st) i) as [s|] eqn:N.
  - assert (i < List.length (sinks st)) by (apply nth_error_Some; congruence). lia.
  - apply some_inj in S; subst st1. eexists. split; [exact R1|]. split; [|split].
    + repeat split. cbn. rewrite put_nat_same. reflexivity.
    + cbn. rewrite put_nat_same. reflexivity.
    + intros y. cbn. rewrite (skipn_none _ _ _ N). cbn. rewrite append_nil. reflexivity.
  - apply some_inj in S; subst st1.
    destruct (sink_run s e (OIter (Datatypes.S i) e :: os) _ R1) as (st2 & R2 & Sm & O2 & T2).
    { cbn. rewrite put_nat_same. reflexivity. }
    { exact Free. }
    assert (Sk : sinks st2 = sinks st) by (apply Sm).
    destruct (IH (Datatypes.S i) e os st2 R2 O2) as (st3 & R3 & Sm3 & O3 & T3).
    { intros n. destruct Sm as (_ & _ & _ & _ & _ & _ & A7). rewrite A7. apply Free. }
    { rewrite Sk. lia. }
    exists st3. split; [exact R3|]. split; [|split; [exact O3|]].
    + eapply same_trans; [|exact Sm3]. eapply same_trans; [|exact Sm].
      repeat split. cbn. rewrite put_nat_same. reflexivity.
    + intros y. rewrite T3, T2, Sk, append_assoc. cbn [text set_ops].
      rewrite <- out_app. rewrite (skipn_nth _ _ _ _ N). reflexivity.
  - apply nth_error_None in N. lia.
Qed.

(** ** What read_log should return *)

Definition text_message := (nat * string * string)%type.

(** the level, whether read_log was ever called, whether its sink is
    registered, and what waits to be read *)
Record queue := mkQueue {
  q_level : nat;
  q_started : bool;
  q_listening : bool;
  q_waiting : list text_message }.

Definition queue_call (q : queue) (c : call) : queue * list (list text_message) :=
  match c with
  | CLog l m s =>
      (if (q_level q <=? l) && q_listening q
       then mkQueue (q_level q) (q_started q) (q_listening q) (q_waiting q ++ [(l, m, s)])
       else q, [])
  | CSetLevel l => (mkQueue l (q_started q) (q_listening q) (q_waiting q), [])
  | CClearSinks => (mkQueue (q_level q) (q_started q) false (q_waiting q), [])
  | CReadLog =>
      if q_started q
      then (mkQueue (q_level q) true (q_listening q) [], [q_waiting q])
      else (mkQueue (Nat.min (q_level q) 3) true true [], [q_waiting q])
  | _ => (q, [])
  end.

Fixpoint queue_calls (q : queue) (l : list call) : list (list text_message) :=
  match l with
  | [] => []
  | c :: r => snd (queue_call q c) ++ queue_calls (fst (queue_call q c)) r
  end.

(** the sink behind read_log is private to it *)
Definition own (c : call) : bool :=
  match c with
  | CAddSink (SString n) | CContents n | CEmpty n => negb (n =? read_sink)
  | _ => true
  end.

Definition render (es : list entry) : string :=
  flat (map (fun e => flat (fragments (SString read_sink) e)) es).

Definition shows (s : string) (l : list text_message) : Prop :=
  exists es, map said es = l /\ s = render es.

Fixpoint listeners (S : list sink) : nat :=
  match S with
  | [] => 0
  | SString n :: r => (if n =? read_sink then 1 else 0) + listeners r
  | _ :: r => listeners r
  end.

Lemma listeners_app : forall a b, listeners (a ++ b) = listeners a + listeners b.
Proof. induction a as [|[n|n|c] a IH]; intros; cbn; rewrite ?IH; lia. Qed.

Lemma out_listeners : forall S e,
  listeners S <= 1 ->
  out (TString read_sink) S e
  = if listeners S =? 1 then flat (fragments (SString read_sink) e) else ""%string.
Proof.
  induction S as [|s S IH]; intros e H; [reflexivity|].
  change (s :: S) with ([s] ++ S). rewrite out_app.
  destruct s as [n|n|c]; cbn [app listeners] in *.
  - destruct (Nat.eqb_spec n read_sink) as [->|D].
    + rewrite IH by lia. assert (listeners S = 0) as -> by lia. cbn [Nat.eqb].
      unfold out. cbn. rewrite !append_nil. reflexivity.
    + rewrite IH by lia. unfold out at 1. cbn [map flat stream_of stream_eqb].
      destruct (Nat.eqb_spec n read_sink); [contradiction|]. reflexivity.
  - rewrite IH by lia. reflexivity.
  - rewrite IH by lia. unfold out at 1. cbn [map flat stream_of]. destruct (4 <=? e_level e); reflexivity.
Qed.

Definition reads (st : state) : list string :=
  map snd (filter (fun r => snd (fst r) =? read_sink) (returned st)).

Definition matches (q : queue) (st : state) : Prop :=
  level st = q_level q /\ mutex st = None /\ (forall n, sink_mutex st n = None) /\
  once st = (if q_started q then OnceDone else OnceNever) /\
  listeners (sinks st) = (if q_listening q then 1 else 0) /\
  (q_started q = false -> q_listening q = false) /\
  shows (text st (TString read_sink)) (q_waiting q).

Ltac go st R E :=
  let ts := fresh "ts" in let st1 := fresh "st1" in let S := fresh "S" in let R1 := fresh "R1" in
  destruct (peel st R) as (ts & st1 & S & R1); [rewrite E; left; discriminate|];
  unfold step in S; rewrite E in S; try (apply some_inj in S; subst st1; exact R1).

Lemma go_lock : forall st os, reach st -> ops (threads st t) = OLock :: os ->
  mutex st = None -> reach (set_ops t os (set_mutex (Some t) st)).
Proof.
  intros st os R E M. go st R E. rewrite M in S. apply some_inj in S; subst st1; exact R1.
Qed.

Lemma go_unlock : forall st os, reach st -> ops (threads st t) = OUnlock :: os ->
  reach (set_ops t os (set_mutex None st)).
Proof. intros st os R E. go st R E. Qed.

Lemma go_sink_lock : forall st n os, reach st -> ops (threads st t) = OSinkLock n :: os ->
  sink_mutex st n = None -> reach (set_ops t os (set_sink_mutex n (Some t) st)).
Proof.
  intros st n os R E M. go st R E. rewrite M in S. apply some_inj in S; subst st1; exact R1.
Qed.

Lemma go_sink_unlock : forall st n os, reach st -> ops (threads st t) = OSinkUnlock n :: os ->
  reach (set_ops t os (set_sink_mutex n None st)).
Proof. intros st n os R E. go st R E. Qed.

Lemma go_set_level : forall st l os, reach st -> ops (threads st t) = OSetLevel l :: os ->
  reach (set_ops t os (set_level l st)).
Proof. intros st l os R E. go st R E. Qed.

Lemma go_add : forall st s os, reach st -> ops (threads st t) = OAdd s :: os ->
  reach (set_ops t os (set_sinks (sinks st ++ [s]) st)).
Proof. intros st l os R E. go st R E. Qed.

Lemma go_clear : forall st os, reach st -> ops (threads st t) = OClear :: os ->
  reach (set_ops t os (set_sinks [] st)).
Proof. intros st os R E. go st R E. Qed.

Lemma go_read : forall st n os, reach st -> ops (threads st t) = ORead n :: os ->
  reach (set_ops t os (add_returned (t, n, text st (TString n)) st)).
Proof. intros st n os R E. go st R E. Qed.

Lemma go_erase : forall st n os, reach st -> ops (threads st t) = OErase n :: os ->
  reach (set_ops t os (set_text (TString n) "" st)).
Proof. intros st n os R E. go st R E. Qed.

Lemma go_once_end : forall st os, reach st -> ops (threads st t) = OOnceEnd :: os ->
  reach (set_ops t os (set_once OnceDone st)).
Proof. intros st os R E. go st R E. Qed.

Lemma go_once_first : forall st os, reach st -> ops (threads st t) = OOnce :: os ->
  once st = OnceNever -> reach (set_ops t (once_body ++ os) (set_once (OnceRunning t) st)).
Proof.
  intros st os R E M. go st R E. rewrite M in S. apply some_inj in S; subst st1; exact R1.
Qed.

Lemma go_once_again : forall st os, reach st -> ops (threads st t) = OOnce :: os ->
  once st = OnceDone -> reach (set_ops t os st).
Proof.
  intros st os R E M. go st R E. rewrite M in S. apply some_inj in S; subst st1; exact R1.
Qed.

Lemma go_lower : forall st os, reach st -> ops (threads st t) = OLower :: os ->
  reach (set_ops t (if 3 <? level st then OLock :: OSetLevel 3 :: OUnlock :: os else os) st).
Proof.
  intros st os R E. go st R E.
  destruct (3 <? level st); apply some_inj in S; subst st1; exact R1.
Qed.

Lemma go_check : forall st l os, reach st -> ops (threads st t) = OCheck l :: os ->
  reach (set_ops t (if l <? level st then [] else os) st).
Proof.
  intros st l os R E. go st R E.
  destruct (l <? level st); apply some_inj in S; subst st1; exact R1.
Qed.

Lemma go_stamp : forall st l m s os, reach st -> ops (threads st t) = OStamp l m s :: os ->
  exists ts, reach (set_ops t (OIter 0 (mkEntry t l m s ts) :: os)
                      (add_logged (mkEntry t l m s ts, sinks st) st)).
Proof.
  intros st l m s os R E. go st R E.
  apply some_inj in S; subst st1. exists ts. exact R1.
Qed.

Definition begun (c : call) (cs : list call) (st : state) : state :=
  mkState (level st) (mutex st) (sinks st) (text st) (sink_mutex st) (once st)
    (put Nat.eqb (threads st) t (mkThread (code c) cs)) (returned st) (logged st).

Lemma go_call : forall st c cs, reach st -> ops (threads st t) = [] ->
  calls (threads st t) = c :: cs -> reach (begun c cs st).
Proof.
  intros st c cs R O C. destruct (peel st R) as (ts & st1 & S & R1); [right; congruence|].
  unfold step in S. rewrite O, C in S. apply some_inj in S; subst st1; exact R1.
Qed.

Lemma begun_ops : forall c cs st, ops (threads (begun c cs st) t) = code c.
Proof. intros. cbn. rewrite put_nat_same. reflexivity. Qed.

(** getContents and clear *)
Lemma read_run : forall st n os, reach st ->
  ops (threads st t) = OSinkLock n :: ORead n :: OSinkUnlock n :: os ->
  (forall n, sink_mutex st n = None) ->
  exists st', reach st' /\ ops (threads st' t) = os /\
    level st' = level st /\ mutex st' = mutex st /\ sinks st' = sinks st /\
    once st' = once st /\ text st' = text st /\
    returned st' = returned st ++ [(t, n, text st (TString n))] /\
    calls (threads st' t) = calls (threads st t) /\
    (forall n, sink_mutex st' n = None).
Proof.
  intros st n os R E F.
  pose proof (go_sink_lock _ _ _ R E (F n)) as R1.
  pose proof (go_read _ _ _ R1 (ops_set _ _)) as R2.
  pose proof (go_sink_unlock _ _ _ R2 (ops_set _ _)) as R3.
  eexists. split; [exact R3|]. split; [apply ops_set|]. repeat (split; [reflexivity|]).
  split; [rewrite calls_set; cbn [threads set_sink_mutex add_returned]; rewrite calls_set;
          cbn [threads set_sink_mutex add_returned]; rewrite calls_set; reflexivity|].
  intros n'. cbn. unfold put. destruct (n' =? n); [reflexivity|apply F].
Qed.

Lemma erase_run : forall st n os, reach st ->
  ops (threads st t) = OSinkLock n :: OErase n :: OSinkUnlock n :: os ->
  (forall n, sink_mutex st n = None) ->
  exists st', reach st' /\ ops (threads st' t) = os /\
    level st' = level st /\ mutex st' = mutex st /\ sinks st' = sinks st /\
    once st' = once st /\ returned st' = returned st /\
    (forall x, text st' x = if stream_eqb x (TString n) then ""%string else text st x) /\
    calls (threads st' t) = calls (threads st t) /\
    (forall n, sink_mutex st' n = None).
Proof.
  intros st n os R E F.
  pose proof (go_sink_lock _ _ _ R E (F n)) as R1.
  pose proof (go_erase _ _ _ R1 (ops_set _ _)) as R2.
  pose proof (go_sink_unlock _ _ _ R2 (ops_set _ _)) as R3.
  eexists. split; [exact R3|]. split; [apply ops_set|]. repeat (split; [reflexivity|]).
  split; [rewrite calls_set; cbn [threads set_sink_mutex set_text]; rewrite calls_set;
          cbn [threads set_sink_mutex set_text]; rewrite calls_set; reflexivity|].
  intros n'. cbn. unfold put. destruct (n' =? n); [reflexivity|apply F].
Qed.

Lemma shows_nil : shows "" [].
Proof. exists []. split; reflexivity. Qed.

Lemma call_run : forall q st c cs,
  reach st -> matches q st -> ops (threads st t) = [] -> calls (threads st t) = c :: cs ->
  own c = true ->
  exists st', reach st' /\ matches (fst (queue_call q c)) st' /\
    ops (threads st' t) = [] /\ calls (threads st' t) = cs /\
    exists new, reads st' = reads st ++ new /\ Forall2 shows new (snd (queue_call q c)).
Proof.
  intros q st c cs R (M1 & M2 & M3 & M4 & M5 & M6 & M7) O C Own.
  pose proof (go_call st c cs R O C) as R1.
  assert (C1 : calls (threads (begun c cs st) t) = cs) by (cbn; rewrite put_nat_same; reflexivity).
  pose proof (begun_ops c cs st) as O1.
  assert (None0 : forall st', returned st' = returned st ->
    exists new, reads st' = reads st ++ new /\ Forall2 shows new []).
  { intros st' E. exists []. unfold reads. rewrite E, app_nil_r. auto. }
  set (st0 := begun c cs st) in *.
  destruct c as [l m s|l|s| |n|n|]; cbn [code] in O1.
  - (* log *)
    pose proof (go_check _ _ _ R1 O1) as R2. change (level st0) with (level st) in R2.
    rewrite M1 in R2. cbn [queue_call fst snd].
    destruct (Nat.ltb_spec l (q_level q)) as [Lt|Ge].
    + rewrite (proj2 (Nat.leb_gt _ _) Lt). cbn [andb].
      eexists. split; [exact R2|]. split; [repeat split; assumption|].
      split; [apply ops_set|]. split; [rewrite calls_set; exact C1|]. apply None0. reflexivity.
    + rewrite (proj2 (Nat.leb_le _ _) Ge). cbn [andb].
      pose proof (go_lock _ _ R2 (ops_set _ _) M2) as R3.
      destruct (go_stamp _ _ _ _ _ R3 (ops_set _ _)) as (ts & R4).
      destruct (deliver_run _ 0 _ _ _ R4 (ops_set _ _) M3 eq_refl)
        as (st5 & R5 & (A1 & A2 & A3 & A4 & A5 & A6 & A7) & O5 & T5).
      pose proof (go_unlock _ _ R5 O5) as R6.
      eexists. split; [exact R6|]. split; [|split; [apply ops_set|split]].
      * cbn [skipn] in T5. specialize (T5 (TString read_sink)).
        cbn [text set_ops add_logged set_mutex sinks] in T5.
        assert (T6 : text st5 (TString read_sink) = (text st (TString read_sink) ++
          if q_listening q then flat (fragments (SString read_sink) (mkEntry t l m s ts)) else "")%string).
        { rewrite T5. f_equal. change (sinks st0) with (sinks st).
          rewrite out_listeners; rewrite M5; destruct (q_listening q); auto. }
        split; [cbn; rewrite A1; destruct (q_listening q); exact M1|].
        split; [reflexivity|]. split; [intros n; cbn; rewrite A7; apply M3|].
        split; [cbn; rewrite A4; destruct (q_listening q); exact M4|].
        split; [cbn; rewrite A3; destruct (q_listening q) eqn:Q; cbn; rewrite ?Q; exact M5|].
        split; [destruct (q_listening q) eqn:Q; cbn; rewrite ?Q in *; auto|].
        cbn [text set_ops set_mutex]. rewrite T6. destruct M7 as (es & E1 & E2).
        destruct (q_listening q); cbn [q_waiting].
        -- exists (es ++ [mkEntry t l m s ts]). split.
           ++ rewrite map_app, E1. reflexivity.
           ++ unfold render. rewrite map_app, flat_app, E2. cbn [map flat].
              rewrite append_nil. reflexivity.
        -- exists es. rewrite append_nil. auto.
      * rewrite calls_set. cbn [threads set_mutex]. rewrite A6. rewrite calls_set.
        cbn [threads add_logged]. rewrite calls_set. cbn [threads set_mutex]. rewrite calls_set. exact C1.
      * apply None0. exact A5.
  - (* setLevel *)
    pose proof (go_lock _ _ R1 O1 M2) as R2.
    pose proof (go_set_level _ _ _ R2 (ops_set _ _)) as R3.
    pose proof (go_unlock _ _ R3 (ops_set _ _)) as R4.
    eexists. split; [exact R4|]. split; [repeat split; assumption|].
    split; [apply ops_set|]. split; [|apply None0; reflexivity].
    rewrite calls_set. cbn [threads set_mutex]. rewrite calls_set. cbn [threads set_level].
    rewrite calls_set. exact C1.
  - (* addSink *)
    pose proof (go_lock _ _ R1 O1 M2) as R2.
    pose proof (go_add _ _ _ R2 (ops_set _ _)) as R3.
    pose proof (go_unlock _ _ R3 (ops_set _ _)) as R4.
    eexists. split; [exact R4|]. split.
    + repeat split; try assumption. cbn [sinks set_ops set_mutex set_sinks].
      rewrite listeners_app. change (sinks st0) with (sinks st). rewrite M5.
      destruct s as [n|n|c]; cbn in Own |- *; try (destruct (q_listening q); reflexivity).
      destruct (n =? read_sink); [discriminate|]. destruct (q_listening q); reflexivity.
    + split; [apply ops_set|]. split; [|apply None0; reflexivity].
      rewrite calls_set. cbn [threads set_mutex]. rewrite calls_set. cbn [threads set_sinks].
      rewrite calls_set. exact C1.
  - (* clearSinks *)
    pose proof (go_lock _ _ R1 O1 M2) as R2.
    pose proof (go_clear _ _ R2 (ops_set _ _)) as R3.
    pose proof (go_unlock _ _ R3 (ops_set _ _)) as R4.
    eexists. split; [exact R4|]. split; [repeat split; assumption|].
    split; [apply ops_set|]. split; [|apply None0; reflexivity].
    rewrite calls_set. cbn [threads set_mutex]. rewrite calls_set. cbn [threads set_sinks].
    rewrite calls_set. exact C1.
  - (* getContents of another sink *)
    destruct (read_run _ _ _ R1 O1 M3) as (st2 & R2 & O2 & A1 & A2 & A3 & A4 & A5 & A6 & A7 & A8).
    exists st2. split; [exact R2|]. split.
    + unfold matches. rewrite A1, A2, A3, A4, A5. repeat split; assumption.
    + split; [exact O2|]. split; [rewrite A7; exact C1|].
      exists []. unfold reads. rewrite A6. cbn in Own.
      rewrite filter_app, map_app. cbn [filter fst snd].
      destruct (n =? read_sink); [discriminate|]. split; [reflexivity|constructor].
  - (* clear of another sink *)
    destruct (erase_run _ _ _ R1 O1 M3) as (st2 & R2 & O2 & A1 & A2 & A3 & A4 & A5 & A6 & A7 & A8).
    exists st2. split; [exact R2|]. split.
    + unfold matches. rewrite A1, A2, A3, A4, A6. cbn in Own.
      cbn [stream_eqb]. rewrite Nat.eqb_sym. destruct (n =? read_sink); [discriminate|].
      repeat split; assumption.
    + split; [exact O2|]. split; [rewrite A7; exact C1|]. apply None0. exact A5.
  - (* read_log *)
    assert (Reg : exists st2, reach st2 /\
      ops (threads st2 t) = [OSinkLock read_sink; ORead read_sink; OSinkUnlock read_sink;
                             OSinkLock read_sink; OErase read_sink; OSinkUnlock read_sink] /\
      level st2 = q_level (fst (queue_call q CReadLog)) /\ mutex st2 = None /\
      listeners (sinks st2) = (if q_listening (fst (queue_call q CReadLog)) then 1 else 0) /\
      once st2 = OnceDone /\ returned st2 = returned st /\ text st2 = text st /\
      calls (threads st2 t) = cs /\ (forall n, sink_mutex st2 n = None)).
    { cbn [queue_call]. destruct (q_started q) eqn:Q.
      - pose proof (go_once_again _ _ R1 O1 M4) as R2.
        eexists. split; [exact R2|]. split; [apply ops_set|].
        cbn [fst q_level q_listening]. repeat (split; [assumption||reflexivity|]).
        split; [rewrite calls_set; exact C1|exact M3].
      - pose proof (go_once_first _ _ R1 O1 M4) as R2.
        pose proof (go_lock _ _ R2 (ops_set _ _) M2) as R3.
        pose proof (go_add _ _ _ R3 (ops_set _ _)) as R4.
        pose proof (go_unlock _ _ R4 (ops_set _ _)) as R5.
        pose proof (go_lower _ _ R5 (ops_set _ _)) as R6.
        cbn [level set_ops set_mutex set_sinks set_once] in R6.
        change (level st0) with (level st) in R6.
        assert (Ls : listeners (sinks st0 ++ [SString read_sink]) = 1).
        { rewrite listeners_app. change (sinks st0) with (sinks st). rewrite M5, (M6 eq_refl).
          reflexivity. }
        cbn [fst q_level q_listening].
        destruct (Nat.ltb_spec 3 (level st)) as [Gt|Le].
        + pose proof (go_lock _ _ R6 (ops_set _ _) eq_refl) as R7.
          pose proof (go_set_level _ _ _ R7 (ops_set _ _)) as R8.
          pose proof (go_unlock _ _ R8 (ops_set _ _)) as R9.
          pose proof (go_once_end _ _ R9 (ops_set _ _)) as R10.
          eexists. split; [exact R10|]. split; [apply ops_set|].
          split; [cbn; rewrite M1 in Gt; lia|]. split; [reflexivity|]. split; [exact Ls|].
          repeat (split; [reflexivity|]). split; [|exact M3].
          repeat (rewrite calls_set; cbn [threads set_mutex set_level set_sinks set_once]). exact C1.
        + pose proof (go_once_end _ _ R6 (ops_set _ _)) as R10.
          eexists. split; [exact R10|]. split; [apply ops_set|].
          split; [cbn; change (level st0) with (level st); rewrite M1 in *; lia|].
          split; [reflexivity|]. split; [exact Ls|].
          repeat (split; [reflexivity|]). split; [|exact M3].
          repeat (rewrite calls_set; cbn [threads set_mutex set_level set_sinks set_once]). exact C1. }
    destruct Reg as (st2 & R2 & O2 & L2 & Mu2 & Li2 & On2 & Re2 & T2 & C2 & F2).
    destruct (read_run _ _ _ R2 O2 F2) as (st3 & R3 & O3 & A1 & A2 & A3 & A4 & A5 & A6 & A7 & A8).
    destruct (erase_run _ _ _ R3 O3 A8) as (st4 & R4 & O4 & B1 & B2 & B3 & B4 & B5 & B6 & B7 & B8).
    exists st4. split; [exact R4|]. split.
    + unfold matches. rewrite B1, B2, B3, B4, B6, A1, A2, A3, A4, L2, Mu2, Li2, On2.
      rewrite (proj2 (stream_eqb_eq (TString read_sink) _) eq_refl).
      cbn [queue_call]. destruct (q_started q); cbn [fst q_started q_listening q_waiting q_level];
        repeat split; auto using shows_nil; discriminate.
    + split; [exact O4|]. split; [rewrite B7, A7; exact C2|].
      exists [text st2 (TString read_sink)]. split.
      * unfold reads. rewrite B5, A6, Re2, filter_app, map_app. reflexivity.
      * rewrite T2. cbn [queue_call]. destruct (q_started q); cbn [snd]; repeat constructor; exact M7.
Qed.

Lemma calls_run : forall cs q st,
  reach st -> matches q st -> ops (threads st t) = [] -> calls (threads st t) = cs ->
  forallb own cs = true ->
  exists new, reads fin = reads st ++ new /\ Forall2 shows new (queue_calls q cs).
Proof.
  induction cs as [|c cs IH]; intros q st R M O C Own.
  - destruct R as (On & sched & R). destruct sched as [|[u ts] r]; cbn in R.
    + injection R as <-. exists []. rewrite app_nil_r. split; [reflexivity|constructor].
    + exfalso. assert (step u ts st = None) as E.
      { unfold step. destruct (Nat.eq_dec u t) as [->|N].
        - rewrite O, C. reflexivity.
        - destruct (On u N) as (A & B). rewrite A, B. reflexivity. }
      rewrite E in R. discriminate.
  - cbn in Own. apply andb_true_iff in Own as (Ow & Own).
    destruct (call_run q st c cs R M O C Ow) as (st1 & R1 & M1 & O1 & C1 & new & E & F).
    destruct (IH _ _ R1 M1 O1 C1 Own) as (new' & E' & F').
    exists (new ++ new'). split; [rewrite E', E, app_assoc; reflexivity|].
    cbn [queue_calls]. apply Forall2_app; assumption.
Qed.

End OneThread.
