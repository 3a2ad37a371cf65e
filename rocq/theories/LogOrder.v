(** * The logger: the order of the entries and their levels *)

From Coq Require Import List String Bool Arith Lia.
From Verif Require Import LogModel LogProofs.
Import ListNotations.
Local Open Scope list_scope.
Local Open Scope nat_scope.

Inductive subseq {A : Type} : list A -> list A -> Prop :=
| sub_nil : subseq [] []
| sub_skip : forall x l l', subseq l l' -> subseq l (x :: l')
| sub_keep : forall x l l', subseq l l' -> subseq (x :: l) (x :: l').

Lemma subseq_refl : forall A (l : list A), subseq l l.
Proof. induction l; [apply sub_nil|apply sub_keep; auto]. Qed.

Lemma subseq_nil : forall A (l : list A), subseq [] l.
Proof. induction l; constructor; auto. Qed.

Lemma subseq_trans : forall A (a b c : list A), subseq a b -> subseq b c -> subseq a c.
Proof.
  intros A a b c H1 H2. revert a H1. induction H2; intros a H1; auto.
  - apply sub_skip. auto.
  - inversion H1; subst; [apply sub_skip|apply sub_keep]; auto.
Qed.

Lemma subseq_app : forall A (a b c d : list A),
  subseq a b -> subseq c d -> subseq (a ++ c) (b ++ d).
Proof. induction 1; cbn; intros; auto; [apply sub_skip|apply sub_keep]; auto. Qed.

Lemma subseq_drop : forall A (a b c : list A), subseq (a ++ c) (a ++ b ++ c).
Proof.
  intros. apply subseq_app; [apply subseq_refl|].
  change c with ([] ++ c) at 1. apply subseq_app; [apply subseq_nil|apply subseq_refl].
Qed.

(** what an entry says: level, module, message *)
Definition said (e : entry) : nat * string * string := (e_level e, e_module e, e_message e).

Definition stamps (o : op) : list (nat * string * string) :=
  match o with OStamp l m s => [(l, m, s)] | _ => [] end.
Definition pending (o : list op) := flat_map stamps o.
Definition to_log (c : list call) := flat_map (fun c => pending (code c)) c.

Definition logged_by (t : nat) (st : state) : list (nat * string * string) :=
  map said (filter (fun e => e_thread e =? t) (known st)).

Lemma pending_app : forall a b, pending (a ++ b) = pending a ++ pending b.
Proof. intros. apply flat_map_app. Qed.

Lemma pending_write_ops : forall s e, pending (write_ops s e) = [].
Proof.
  assert (W : forall x l, pending (map (OWrite x) l) = []) by (induction l; auto).
  intros. unfold write_ops. destruct s; rewrite ?pending_app, W; reflexivity.
Qed.

(** ** The order in which a thread calls *)

Definition in_order (program : nat -> list call) (st : state) : Prop :=
  forall t, subseq (logged_by t st ++ pending (ops (threads st t)) ++ to_log (calls (threads st t)))
                   (to_log (program t)).

Lemma known_add : forall e st, known (add_logged e st) = known st ++ [fst e].
Proof. intros. unfold known. cbn. rewrite map_app. reflexivity. Qed.

Lemma logged_by_add : forall t u e S st,
  e_thread e = u ->
  logged_by t (add_logged (e, S) st) = logged_by t st ++ (if u =? t then [said e] else []).
Proof.
  intros. unfold logged_by. rewrite known_add, filter_app, map_app. cbn [filter fst].
  rewrite H. destruct (u =? t); reflexivity.
Qed.

Lemma logged_by_set : forall t u o st, logged_by t (set_ops u o st) = logged_by t st.
Proof. reflexivity. Qed.

Lemma in_order_step : forall p t ts st st',
  in_order p st -> step t ts st = Some st' -> in_order p st'.
Proof.
  intros p t ts st st' O H u. specialize (O u).
  destruct (Nat.eq_dec u t) as [->|N].
  - step_cases H; try rewrite Ops in O; try rewrite Calls in O;
      cbn [set_ops threads calls]; rewrite ?put_nat_same; cbn [ops calls]; try exact O.
    + eapply subseq_trans; [|exact O]. apply subseq_drop.
    + rewrite logged_by_set, (logged_by_add t t (mkEntry t level module message ts) _ _ eq_refl), Nat.eqb_refl.
      rewrite <- app_assoc. exact O.
    + rewrite pending_app, pending_write_ops. exact O.
  - step_cases H; cbn [set_ops threads calls]; rewrite ?put_nat_other by exact N; try exact O.
    rewrite logged_by_set, (logged_by_add u t (mkEntry t level module message ts) _ _ eq_refl).
    destruct (Nat.eqb_spec t u); [congruence|]. rewrite app_nil_r. exact O.
Qed.

Lemma in_order_start : forall l s p, in_order p (start l s p).
Proof. intros l s p t. cbn. apply subseq_refl. Qed.

(** ** Levels *)

Section Levels.

(** the levels that may be set, and whether read_log may lower the level *)
Variable P : nat -> bool.
Variable b : bool.
Variable F : nat.
Hypothesis lowering : b = true -> forall l, P l = true -> 3 < l -> P 3 = true.
Hypothesis above : forall l, P l = true -> F <= l.

Definition may (o : op) : bool :=
  match o with
  | OSetLevel l => P l
  | OOnce | OLower => b
  | _ => true
  end.

Definition level_of (k : nat * string * string) : nat := fst (fst k).

(** the level of what is pending: of a call whose check is still to come, the
    level it is going to check; of others, at least F *)
Definition checked (o : list op) : Prop :=
  match o with
  | OCheck l :: r => Forall (fun k => level_of k = l) (pending r)
  | _ => Forall (fun k => F <= level_of k) (pending o)
  end.

Definition levels (n : nat) (st : state) : Prop :=
  P (level st) = true /\
  (forall t, forallb may (ops (threads st t)) = true /\
             forallb (fun c => forallb may (code c)) (calls (threads st t)) = true /\
             checked (ops (threads st t))) /\
  Forall (fun e => F <= e_level e) (skipn n (known st)) /\ n <= List.length (known st).

Lemma may_write_ops : forall s e, forallb may (write_ops s e) = true.
Proof.
  assert (W : forall x l, forallb may (map (OWrite x) l) = true) by (induction l; auto).
  intros. unfold write_ops. destruct s; cbn; rewrite ?forallb_app, ?W; reflexivity.
Qed.

Lemma checked_code : forall c, checked (code c).
Proof. destruct c; cbn; repeat constructor. Qed.

(** no check comes after the first operation of a call *)
Definition one_check (o : list op) : Prop :=
  match o with
  | [] => True
  | _ :: r => forallb (fun o => match o with OCheck _ => false | _ => true end) r = true
  end.

Lemma one_check_code : forall c, one_check (code c).
Proof. destruct c; reflexivity. Qed.

Lemma checked_tail : forall o r,
  checked (o :: r) -> one_check (o :: r) ->
  match o with OCheck l => F <= l | _ => True end -> checked r.
Proof.
  intros o r C N X.
  assert (Fo : Forall (fun k => F <= level_of k) (pending r)).
  { destruct o; cbn in *; try exact C.
    - eapply Forall_impl; [|exact C]. cbn. intros k ->. exact X.
    - exact (Forall_inv_tail C). }
  destruct r as [|a r]; [exact Fo|]. destruct a; try exact Fo. cbn in N. discriminate.
Qed.

Lemma one_check_tail : forall o r, one_check (o :: r) -> one_check r.
Proof.
  intros o [|a r] H; cbn in *; [exact I|]. apply andb_true_iff in H. tauto.
Qed.

Definition single (st : state) : Prop := forall t, one_check (ops (threads st t)).

Lemma no_check_write_ops : forall s e,
  forallb (fun o => match o with OCheck _ => false | _ => true end) (write_ops s e) = true.
Proof.
  assert (W : forall x l, forallb (fun o => match o with OCheck _ => false | _ => true end)
    (map (OWrite x) l) = true) by (induction l; auto).
  intros. unfold write_ops. destruct s; cbn; rewrite ?forallb_app, ?W; reflexivity.
Qed.

Lemma forallb_tl : forall A (f : A -> bool) l r,
  forallb f (l ++ r) = true -> forallb f (List.tl (l ++ r)) = true.
Proof.
  intros A f l r H. destruct (l ++ r); [reflexivity|]. cbn in *.
  apply andb_true_iff in H. tauto.
Qed.

Lemma one_check_tl : forall o,
  forallb (fun o => match o with OCheck _ => false | _ => true end) (List.tl o) = true -> one_check o.
Proof. destruct o; auto. exact (fun _ => I). Qed.

Lemma single_step : forall t ts st st',
  single st -> step t ts st = Some st' -> single st'.
Proof.
  intros t ts st st' O H u. pose proof (O u) as Ou. specialize (O t).
  destruct (Nat.eq_dec u t) as [->|N].
  - step_cases H; try rewrite Ops in O;
      cbn [set_ops threads calls]; rewrite ?put_nat_same; cbn [ops calls];
      try exact (one_check_tail _ _ O); try exact O.
    + apply one_check_code.
    + exact I.
    + apply one_check_tl, forallb_tl. rewrite forallb_app, no_check_write_ops. exact O.
  - step_cases H; cbn [set_ops threads calls]; rewrite ?put_nat_other by exact N; exact Ou.
Qed.

Lemma levels_step : forall n t ts st st',
  single st -> levels n st -> step t ts st = Some st' -> levels n st'.
Proof.
  intros n t ts st st' Si (Lv & Th & Fo & Le) H.
  pose proof (Th t) as (M1 & M2 & C1). specialize (Si t).
  assert (Others : forall st2 u, u <> t ->
    threads st2 = threads st -> forall o,
    forallb may (ops (threads (set_ops t o st2) u)) = true /\
    forallb (fun c => forallb may (code c)) (calls (threads (set_ops t o st2) u)) = true /\
    checked (ops (threads (set_ops t o st2) u))).
  { intros st2 u N E o. cbn. rewrite put_nat_other by exact N. rewrite E. apply Th. }
  assert (Mine : forall st2 o, threads st2 = threads st ->
    forallb may o = true -> checked o ->
    forall u, forallb may (ops (threads (set_ops t o st2) u)) = true /\
    forallb (fun c => forallb may (code c)) (calls (threads (set_ops t o st2) u)) = true /\
    checked (ops (threads (set_ops t o st2) u))).
  { intros st2 o E X Y u. destruct (Nat.eq_dec u t) as [->|N]; [|apply Others; auto].
    cbn. rewrite put_nat_same, E. cbn. auto. }
  step_cases H; try rewrite Ops in M1; try rewrite Ops in C1; try rewrite Ops in Si;
    try rewrite Calls in M2; cbn in M1, M2;
    try (apply andb_true_iff in M1 as (M0 & M1));
    try (assert (C2 : checked os) by (refine (checked_tail _ _ C1 Si _); exact I));
    try (split; [exact Lv|]; split; [apply Mine; solve [auto]|]; split; [exact Fo|exact Le]).
  - split; [exact Lv|]. split; [|split; [exact Fo|exact Le]].
    apply andb_true_iff in M2 as (M2 & M3).
    intros u. cbn [threads]. destruct (Nat.eq_dec u t) as [->|N].
    + rewrite put_nat_same. cbn [ops calls]. auto using checked_code.
    + rewrite put_nat_other by exact N. apply Th.
  - split; [exact Lv|]. split; [apply Mine; cbn; auto|]. split; [exact Fo|exact Le].
  - assert (F <= level).
    { apply Nat.ltb_ge in B. apply above in Lv. lia. }
    assert (C2 : checked os) by exact (checked_tail _ _ C1 Si H).
    split; [exact Lv|]. split; [apply Mine; solve [auto]|]. split; [exact Fo|exact Le].
  - (* OStamp *)
    split; [exact Lv|]. split; [|].
    + apply Mine; auto. cbn. destruct os as [|a os']; [constructor|].
      cbn in C1. apply Forall_inv_tail in C1. exact C1.
    + change (known (set_ops t (OIter 0 {| e_thread := t; e_level := level; e_module := module;
        e_message := message; e_stamp := ts |} :: os) (add_logged ({| e_thread := t; e_level := level;
        e_module := module; e_message := message; e_stamp := ts |}, sinks st) st)))
        with (known (add_logged ({| e_thread := t; e_level := level;
        e_module := module; e_message := message; e_stamp := ts |}, sinks st) st)).
      rewrite known_add. cbn [fst]. rewrite app_length. split; [|lia].
      rewrite skipn_app. replace (n - List.length (known st)) with 0 by lia. cbn [skipn].
      apply Forall_app. split; [exact Fo|]. constructor; [|constructor].
      cbn. exact (Forall_inv C1).
  - (* OIter *)
    split; [exact Lv|]. split; [|split; [exact Fo|exact Le]].
    apply Mine; auto.
    + rewrite forallb_app, may_write_ops. exact M1.
    + assert (Q : Forall (fun k => F <= level_of k) (pending (write_ops s e ++ OIter (S i) e :: os))).
      { rewrite pending_app, pending_write_ops. exact C1. }
      destruct (write_ops s e ++ OIter (S i) e :: os) as [|a r] eqn:E; [constructor|].
      destruct a; try exact Q.
      assert (X : In (OCheck level) (write_ops s e ++ OIter (S i) e :: os)) by (rewrite E; left; reflexivity).
      exfalso. pose proof (no_check_write_ops s e) as NC. rewrite forallb_forall in NC.
      cbn in Si. rewrite forallb_forall in Si.
      apply in_app_or in X as [X|[X|X]]; [|discriminate|].
      * apply NC in X. discriminate.
      * apply Si in X. discriminate.
  - (* OSetLevel *)
    split; [exact M0|]. split; [apply Mine; solve [auto]|]. split; [exact Fo|exact Le].
  - (* OOnce *)
    split; [exact Lv|]. split; [|split; [exact Fo|exact Le]].
    apply Mine; auto. cbn. rewrite M0. exact M1.
  - (* OLower *)
    split; [exact Lv|]. split; [|split; [exact Fo|exact Le]].
    apply Mine; auto. cbn. apply Nat.ltb_lt in B.
    rewrite (lowering M0 _ Lv B). exact M1.
Qed.

End Levels.

(** ** When nobody changes the level *)

Definition reaches (L : nat) (k : nat * string * string) : bool := L <=? level_of k.

Definition complete (L : nat) (program : nat -> list call) (st : state) : Prop :=
  forall t, logged_by t st ++ filter (reaches L) (pending (ops (threads st t)))
              ++ filter (reaches L) (to_log (calls (threads st t)))
            = filter (reaches L) (to_log (program t)).

Lemma filter_none : forall A (f : A -> bool) l, Forall (fun x => f x = false) l -> filter f l = [].
Proof. induction 1; cbn; [|rewrite H]; auto. Qed.

Lemma complete_step : forall L p t ts st st',
  level st = L ->
  checked L (ops (threads st t)) ->
  complete L p st -> step t ts st = Some st' -> complete L p st'.
Proof.
  intros L p t ts st st' E Ch O H u. specialize (O u).
  destruct (Nat.eq_dec u t) as [->|N].
  - step_cases H; try rewrite Ops in O; try rewrite Ops in Ch; try rewrite Calls in O;
      cbn [set_ops threads calls]; rewrite ?put_nat_same; cbn [ops calls]; try exact O.
    + rewrite <- O. cbn [pending flat_map stamps filter app to_log].
      change (flat_map stamps (code c)) with (pending (code c)).
      change (flat_map (fun c => pending (code c)) cs) with (to_log cs).
      rewrite filter_app. reflexivity.
    + rewrite <- O. cbn in Ch. cbn [pending flat_map stamps app filter].
      change (flat_map stamps os) with (pending os).
      rewrite (filter_none _ (reaches (LogModel.level st)) (pending os)); [reflexivity|].
      eapply Forall_impl; [|exact Ch]. intros k Hk. unfold reaches. rewrite Hk.
      apply Nat.leb_gt. apply Nat.ltb_lt. exact B.
    + rewrite logged_by_set, (logged_by_add t t (mkEntry t level module message ts) _ _ eq_refl), Nat.eqb_refl.
      rewrite <- O. cbn [pending flat_map stamps app filter]. cbn in Ch.
      apply Forall_inv in Ch. unfold reaches at 3. rewrite (proj2 (Nat.leb_le _ _) Ch).
      rewrite <- app_assoc. reflexivity.
    + rewrite pending_app, pending_write_ops. exact O.
  - step_cases H; cbn [set_ops threads calls]; rewrite ?put_nat_other by exact N; try exact O.
    rewrite logged_by_set, (logged_by_add u t (mkEntry t level module message ts) _ _ eq_refl).
    destruct (Nat.eqb_spec t u); [congruence|]. rewrite app_nil_r. exact O.
Qed.

Lemma complete_start : forall l s p, complete l p (start l s p).
Proof. intros l s p t. reflexivity. Qed.
