(** * The logger: no schedule gets stuck, every schedule ends *)

From Coq Require Import List String Bool Arith Lia.
From Verif Require Import LogModel LogProofs.
Import ListNotations.
Local Open Scope list_scope.
Local Open Scope nat_scope.

(** ** Progress *)

Lemma step_none : forall t ts st,
  step t ts st = None ->
  (ops (threads st t) = [] /\ calls (threads st t) = []) \/
  (exists h r, ops (threads st t) = OLock :: r /\ mutex st = Some h) \/
  (exists n h r, ops (threads st t) = OSinkLock n :: r /\ sink_mutex st n = Some h) \/
  (exists h r, ops (threads st t) = OOnce :: r /\ once st = OnceRunning h).
Proof.
  intros t ts st H. unfold step in H.
  destruct (ops (threads st t)) as [|o os] eqn:Ops.
  - destruct (calls (threads st t)) eqn:C; [auto|discriminate].
  - destruct o; try discriminate H;
      try (match type of H with context [if ?c then _ else _] => destruct c end; discriminate H).
    + destruct (mutex st) eqn:M; [|discriminate]. right. left. eauto.
    + destruct (nth_error (sinks st) i); discriminate.
    + destruct (sink_mutex st n) eqn:M; [|discriminate]. right. right. left. eauto.
    + destruct (once st) eqn:M; try discriminate. right. right. right. eauto.
Qed.

Lemma sink_holder_steps : forall st n h ts,
  locks st -> sink_mutex st n = Some h -> step h ts st <> None.
Proof.
  intros st n h ts L M X. destruct (L h) as (m & k & q & W & _ & Hk & _).
  assert (k = Some n) as -> by (apply Hk; exact M).
  destruct (step_none _ _ _ X) as [(E & _)|[(h' & r & E & _)|[(n' & h' & r & E & _)|(h' & r & E & _)]]];
    rewrite E in W; cbn in W; intuition discriminate.
Qed.

Lemma holder_steps : forall st h ts,
  locks st -> mutex st = Some h ->
  step h ts st <> None \/ exists u, step u ts st <> None.
Proof.
  intros st h ts L M. destruct (step h ts st) eqn:X; [left; discriminate|right].
  destruct (L h) as (m & k & q & W & Hm & _ & _).
  assert (m = true) as -> by (apply Hm; exact M).
  destruct (step_none _ _ _ X) as [(E & _)|[(h' & r & E & _)|[(n' & h' & r & E & S)|(h' & r & E & _)]]];
    rewrite E in W; cbn in W; try (intuition discriminate).
  exists h'. eapply sink_holder_steps; eauto.
Qed.

Lemma progress : forall st t ts,
  locks st -> ops (threads st t) <> [] \/ calls (threads st t) <> [] ->
  exists u, step u ts st <> None.
Proof.
  intros st t ts L Work. destruct (step t ts st) eqn:X; [exists t; congruence|].
  destruct (step_none _ _ _ X) as [(E & C)|[(h & r & E & M)|[(n & h & r & E & S)|(h & r & E & O)]]].
  - intuition congruence.
  - destruct (holder_steps st h ts L M); eauto.
  - eauto using sink_holder_steps.
  - destruct (step h ts st) eqn:Y; [exists h; congruence|].
    destruct (L h) as (m & k & q & W & Hm & _ & Hq).
    assert (q = true) as -> by (apply Hq; exact O).
    destruct (step_none _ _ _ Y) as [(E' & _)|[(h' & r' & E' & M)|[(n' & h' & r' & E' & S)|(h' & r' & E' & _)]]];
      rewrite E' in W; cbn in W; try (intuition discriminate).
    destruct (holder_steps st h' ts L M); eauto.
Qed.

(** ** Termination *)

Definition adds (o : op) : nat :=
  match o with OAdd _ | OOnce => 1 | _ => 0 end.

Definition cost (B : nat) (o : op) : nat :=
  match o with
  | OStamp _ _ _ => 2 + 14 * B
  | OIter i _ => 1 + 14 * (B - i)
  | OOnce => 9
  | OLower => 4
  | _ => 1
  end.

Definition total (f : op -> nat) (o : list op) : nat := list_sum (map f o).

Definition thread_adds (th : thread) : nat :=
  total adds (ops th) + list_sum (map (fun c => total adds (code c)) (calls th)).

Definition thread_cost (B : nat) (th : thread) : nat :=
  total (cost B) (ops th) + list_sum (map (fun c => 1 + total (cost B) (code c)) (calls th)).

Fixpoint sum_to (n : nat) (f : nat -> nat) : nat :=
  match n with 0 => 0 | S k => f k + sum_to k f end.

Definition room (n : nat) (st : state) : nat :=
  List.length (sinks st) + sum_to n (fun t => thread_adds (threads st t)).

Definition work (n : nat) (st : state) : nat :=
  sum_to n (fun t => thread_cost (room n st) (threads st t)).

Lemma sum_to_put : forall n f g t,
  t < n -> (forall u, u <> t -> f u = g u) ->
  sum_to n f + g t = sum_to n g + f t.
Proof.
  induction n as [|k IH]; intros f g t Ht E; [lia|]. cbn.
  destruct (Nat.eq_dec t k) as [->|N].
  - assert (sum_to k f = sum_to k g).
    { clear IH Ht. assert (forall j, j <= k -> sum_to j f = sum_to j g).
      { induction j; intros; cbn; [reflexivity|]. rewrite E by lia. rewrite IHj by lia. reflexivity. }
      auto. }
    lia.
  - specialize (IH f g t). rewrite (E k) by auto. assert (t < k) by lia.
    specialize (IH H E). lia.
Qed.

Lemma total_app : forall f a b, total f (a ++ b) = total f a + total f b.
Proof. intros. unfold total. rewrite map_app, list_sum_app. reflexivity. Qed.

Lemma total_cons : forall f o r, total f (o :: r) = f o + total f r.
Proof. reflexivity. Qed.

Lemma total_adds_write_ops : forall s e, total adds (write_ops s e) = 0.
Proof.
  assert (W : forall x l, total adds (map (OWrite x) l) = 0) by (induction l; auto).
  intros. unfold write_ops. destruct s; rewrite ?total_app, W; reflexivity.
Qed.

Lemma total_cost_write_ops : forall B s e, total (cost B) (write_ops s e) <= 13.
Proof.
  assert (W : forall B x l, total (cost B) (map (OWrite x) l) = List.length l).
  { induction l; auto. cbn [map]. rewrite total_cons, IHl. reflexivity. }
  intros. unfold write_ops. destruct s as [n|n|c]; rewrite ?total_app, W; unfold fragments, head;
    destruct (String.eqb (e_module e) ""); try destruct c; cbn; lia.
Qed.

Lemma cost_mono : forall B B' o, B' <= B -> cost B' o <= cost B o.
Proof. intros. destruct o; cbn; lia. Qed.

Lemma total_mono : forall B B' o, B' <= B -> total (cost B') o <= total (cost B) o.
Proof.
  induction o; intros; [auto|]. rewrite !total_cons. pose proof (cost_mono B B' a H).
  specialize (IHo H). lia.
Qed.

Lemma thread_cost_mono : forall B B' th, B' <= B -> thread_cost B' th <= thread_cost B th.
Proof.
  intros. unfold thread_cost. pose proof (total_mono B B' (ops th) H).
  assert (list_sum (map (fun c => 1 + total (cost B') (code c)) (calls th))
    <= list_sum (map (fun c => 1 + total (cost B) (code c)) (calls th))).
  { induction (calls th); [auto|]. cbn [map list_sum fold_right].
    change (fold_right plus 0 ?l) with (list_sum l).
    pose proof (total_mono B B' (code a) H). lia. }
  lia.
Qed.

Lemma sum_to_mono : forall n f g, (forall u, f u <= g u) -> sum_to n f <= sum_to n g.
Proof. induction n; intros; cbn; [lia|]. specialize (IHn f g H). specialize (H n). lia. Qed.

(** one step: the room does not grow, and at equal room the thread's work shrinks *)
Lemma step_work : forall n t ts st st',
  t < n -> step t ts st = Some st' -> room n st' <= room n st /\ work n st' < work n st.
Proof.
  intros n t ts st st' Ht H.
  assert (Room : room n st' <= room n st).
  { unfold room.
    pose proof (sum_to_put n (fun u => thread_adds (threads st' u))
                  (fun u => thread_adds (threads st u)) t Ht) as X.
    assert (O : forall u, u <> t -> threads st' u = threads st u).
    { intros u N. step_cases H; cbn; rewrite ?put_nat_other by exact N; reflexivity. }
    specialize (X (fun u N => f_equal thread_adds (O u N))). cbn beta in X.
    assert (Y : List.length (sinks st') + thread_adds (threads st' t)
                <= List.length (sinks st) + thread_adds (threads st t)).
    { clear X O. unfold thread_adds.
      step_cases H; cbn [threads sinks set_ops set_mutex add_logged set_sink_mutex set_text
        set_level set_sinks set_once add_returned]; rewrite ?put_nat_same; cbn [ops calls];
        rewrite ?Ops, ?Calls; cbn [map list_sum fold_right];
        change (fold_right plus 0 ?l) with (list_sum l);
        rewrite ?total_app, ?total_cons, ?total_adds_write_ops, ?app_length;
        cbn [adds once_body total map list_sum fold_right List.length]; try lia.
      all: try (pose proof (eq_refl (total adds os)); unfold total in *; cbn; lia). }
    lia. }
  split; [exact Room|].
  set (B := room n st) in *.
  apply Nat.le_lt_trans with (sum_to n (fun u => thread_cost B (threads st' u))).
  - unfold work. apply sum_to_mono. intros u. apply thread_cost_mono. exact Room.
  - unfold work. fold B.
    pose proof (sum_to_put n (fun u => thread_cost B (threads st' u))
                  (fun u => thread_cost B (threads st u)) t Ht) as X.
    assert (O : forall u, u <> t -> threads st' u = threads st u).
    { intros u N. step_cases H; cbn; rewrite ?put_nat_other by exact N; reflexivity. }
    specialize (X (fun u N => f_equal (thread_cost B) (O u N))). cbn beta in X.
    assert (LB : List.length (sinks st) <= B) by (unfold B, room; lia).
    assert (Y : thread_cost B (threads st' t) < thread_cost B (threads st t)).
    { clear X O Room. clearbody B. unfold thread_cost.
      step_cases H; cbn [threads sinks set_ops set_mutex add_logged set_sink_mutex set_text
        set_level set_sinks set_once add_returned]; rewrite ?put_nat_same; cbn [ops calls];
        rewrite ?Ops, ?Calls; cbn [map list_sum fold_right];
        change (fold_right plus 0 ?l) with (list_sum l);
        rewrite ?total_app, ?total_cons; cbn [cost]; try lia.
      all: try (unfold total at 1; cbn; lia).
      - pose proof (total_cost_write_ops B s e).
        assert (i < List.length (sinks st)) by (apply nth_error_Some; congruence). lia. }
    lia.
Qed.

Lemma run_work : forall n sched st st',
  (forall t, n <= t -> ops (threads st t) = [] /\ calls (threads st t) = []) ->
  run sched st = Some st' ->
  List.length sched + work n st' <= work n st /\
  (forall t, n <= t -> ops (threads st' t) = [] /\ calls (threads st' t) = []).
Proof.
  induction sched as [|[t ts] r IH]; intros st st' Idle H; cbn in H.
  - injection H as <-. cbn. auto.
  - destruct (step t ts st) as [st1|] eqn:E; [|discriminate].
    assert (Ht : t < n).
    { destruct (le_lt_dec n t) as [G|G]; [|exact G]. destruct (Idle t G) as (O & C).
      unfold step in E. rewrite O, C in E. discriminate. }
    assert (O : forall u, u <> t -> threads st1 u = threads st u).
    { intros u N. clear H. step_cases E; cbn; rewrite ?put_nat_other by exact N; reflexivity. }
    destruct (step_work n t ts st st1 Ht E) as (_ & W).
    destruct (IH st1 st') as (A & B); auto.
    { intros u G. rewrite O by lia. auto. }
    split; [cbn; lia|exact B].
Qed.
