(** * The logger: invariants of every schedule *)

From Coq Require Import List String Bool Arith Lia.
From Verif Require Import LogModel.
Import ListNotations.
Local Open Scope list_scope.
Local Open Scope nat_scope.

(** ** Texts *)

Fixpoint flat (l : list string) : string :=
  match l with
  | [] => ""%string
  | s :: r => (s ++ flat r)%string
  end.

Lemma append_assoc : forall a b c : string, ((a ++ b) ++ c = a ++ (b ++ c))%string.
Proof. induction a; intros; cbn; [|rewrite IHa]; reflexivity. Qed.

Lemma append_nil : forall a : string, (a ++ "" = a)%string.
Proof. induction a; cbn; [|rewrite IHa]; reflexivity. Qed.

Lemma flat_app : forall a b, flat (a ++ b) = (flat a ++ flat b)%string.
Proof.
  induction a; intros; cbn; [reflexivity|].
  rewrite IHa, append_assoc. reflexivity.
Qed.

(** ** The mutexes *)

Definition stream_mutex (x : stream) : option nat :=
  match x with TString n => Some n | _ => None end.

(** the operations left of a call, given whether the thread holds the logger's
    mutex, which sink's mutex it holds, and whether it runs the once body *)
Fixpoint wf (m : bool) (k : option nat) (q : bool) (o : list op) : Prop :=
  match o with
  | [] => m = false /\ k = None /\ q = false
  | OCheck _ :: r => m = false /\ k = None /\ q = false /\ wf m k q r
  | OLock :: r => m = false /\ k = None /\ wf true k q r
  | OUnlock :: r => m = true /\ k = None /\ wf false k q r
  | OStamp _ _ _ :: r => m = true /\ k = None /\ q = false /\ wf m k q r
  | OIter _ _ :: r => m = true /\ k = None /\ q = false /\ wf m k q r
  | OSinkLock n :: r => k = None /\ q = false /\ wf m (Some n) q r
  | OSinkUnlock n :: r => k = Some n /\ q = false /\ wf m None q r
  | OWrite x _ :: r => m = true /\ q = false /\ k = stream_mutex x /\ wf m k q r
  | OSetLevel _ :: r | OAdd _ :: r | OClear :: r => m = true /\ k = None /\ wf m k q r
  | OOnce :: r => m = false /\ k = None /\ q = false /\ wf m k q r
  | OOnceEnd :: r => m = false /\ k = None /\ q = true /\ wf m k false r
  | OLower :: r => m = false /\ k = None /\ wf m k q r
  | ORead n :: r | OErase n :: r => m = false /\ k = Some n /\ q = false /\ wf m k q r
  end.

Definition locks (st : state) : Prop :=
  forall t, exists m k q, wf m k q (ops (threads st t)) /\
    (m = true <-> mutex st = Some t) /\
    (forall n, k = Some n <-> sink_mutex st n = Some t) /\
    (q = true <-> once st = OnceRunning t).

Lemma wf_code : forall c, wf false None false (code c).
Proof. destruct c; cbn; repeat split. Qed.

Lemma wf_writes : forall x l r,
  wf true (stream_mutex x) false r ->
  wf true (stream_mutex x) false (map (OWrite x) l ++ r).
Proof. induction l; cbn; auto. Qed.

Lemma wf_write_ops : forall s e r,
  wf true None false r -> wf true None false (write_ops s e ++ r).
Proof.
  intros s e r H. unfold write_ops. destruct s as [n|n|b]; cbn [stream_of].
  - cbn. repeat split. rewrite <- app_assoc.
    apply (wf_writes (TString n)). cbn. auto.
  - apply (wf_writes (TFile n)). exact H.
  - destruct (4 <=? e_level e).
    + apply (wf_writes TErr). exact H.
    + apply (wf_writes TOut). exact H.
Qed.

Lemma put_same : forall A eqb B (f : A -> B) a b, eqb a a = true -> put eqb f a b a = b.
Proof. intros. unfold put. rewrite H. reflexivity. Qed.

Lemma put_nat_same : forall B (f : nat -> B) a b, put Nat.eqb f a b a = b.
Proof. intros. apply put_same, Nat.eqb_refl. Qed.

Lemma put_nat_other : forall B (f : nat -> B) a b x, x <> a -> put Nat.eqb f a b x = f x.
Proof.
  intros. unfold put. destruct (Nat.eqb_spec x a); [contradiction|reflexivity].
Qed.

Lemma stream_eqb_eq : forall a b, stream_eqb a b = true <-> a = b.
Proof.
  destruct a, b; cbn; split; intros; try discriminate; auto;
    try (apply Nat.eqb_eq in H; subst; reflexivity);
    try (inversion H; subst; apply Nat.eqb_refl).
Qed.

Lemma put_stream_same : forall B (f : stream -> B) a b, put stream_eqb f a b a = b.
Proof. intros. apply put_same, stream_eqb_eq. reflexivity. Qed.

Lemma put_stream_other : forall B (f : stream -> B) a b x,
  x <> a -> put stream_eqb f a b x = f x.
Proof.
  intros. unfold put. destruct (stream_eqb x a) eqn:E; [|reflexivity].
  apply stream_eqb_eq in E. contradiction.
Qed.

(** one case per operation of a step *)
Ltac step_cases H :=
  unfold step in H;
  match type of H with
  | match ops (threads ?st ?t) with _ => _ end = _ =>
      let o := fresh "o" in let os := fresh "os" in
      destruct (ops (threads st t)) as [|o os] eqn:Ops;
      [ let c := fresh "c" in let cs := fresh "cs" in
        destruct (calls (threads st t)) as [|c cs] eqn:Calls; [discriminate H|]
      | destruct o ];
      repeat match type of H with
        | (if ?b then _ else _) = _ => let E := fresh "B" in destruct b eqn:E
        | match ?x with _ => _ end = _ => let E := fresh "M" in destruct x eqn:E
        end; try discriminate H; injection H as H; subst
  end.

Lemma locks_step : forall t ts st st',
  locks st -> step t ts st = Some st' -> locks st'.
Proof.
  intros t ts st st' L H u.
  pose proof (L t) as (m & k & q & W & Hm & Hk & Hq).
  pose proof (L u) as (m' & k' & q' & W' & Hm' & Hk' & Hq').
  destruct (Nat.eq_dec u t) as [->|N].
  - clear W' Hm' Hk' Hq'.
    step_cases H; try rewrite Ops in W; cbn in W; cbn;
      rewrite ?put_nat_same; cbn [ops].
    + destruct W as (-> & -> & ->). exists false, None, false. split; [apply wf_code|auto].
    + destruct W as (-> & -> & -> & W). exists false, None, false. cbn. auto.
    + destruct W as (-> & -> & -> & W). exists false, None, false. auto.
    + destruct W as (-> & -> & W). exists true, None, q. repeat split; auto; apply Hk || apply Hq.
    + destruct W as (-> & -> & W). exists false, None, q.
      repeat split; auto; try discriminate; apply Hk || apply Hq.
    + destruct W as (-> & -> & -> & W). exists true, None, false. cbn. repeat split; auto; apply Hk || apply Hq || apply Hm.
    + destruct W as (-> & -> & -> & W). exists true, None, false.
      split; [|auto]. apply wf_write_ops. cbn. auto.
    + destruct W as (-> & -> & -> & W). exists true, None, false. auto.
    + destruct W as (-> & -> & W). exists m, (Some n), false.
      split; [exact W|]. split; [exact Hm|]. split; [|exact Hq].
      intros n'. unfold put. destruct (Nat.eqb_spec n' n) as [->|D].
      * tauto.
      * split; [congruence|]. intros X. apply Hk in X. discriminate.
    + destruct W as (-> & -> & W). exists m, None, false.
      split; [exact W|]. split; [exact Hm|]. split; [|exact Hq].
      intros n'. unfold put. destruct (Nat.eqb_spec n' n) as [->|D]; [split; discriminate|].
      split; [discriminate|]. intros X. apply Hk in X. congruence.
    + destruct W as (-> & -> & -> & W). exists true, (stream_mutex t0), false. auto.
    + destruct W as (-> & -> & W). exists true, None, q. auto.
    + destruct W as (-> & -> & W). exists true, None, q. auto.
    + destruct W as (-> & -> & W). exists true, None, q. auto.
    + destruct W as (-> & -> & -> & W). exists false, None, true.
      split; [cbn; auto 12|]. split; [exact Hm|]. split; [exact Hk|]. tauto.
    + destruct W as (-> & -> & -> & W). exists false, None, false. rewrite M. auto.
    + destruct W as (-> & -> & -> & W). exists false, None, false.
      repeat split; auto; try discriminate; apply Hm || apply Hk.
    + destruct W as (-> & -> & W). exists false, None, q. cbn. auto 12.
    + destruct W as (-> & -> & W). exists false, None, q. auto.
    + destruct W as (-> & -> & -> & W). exists false, (Some n), false. auto.
    + destruct W as (-> & -> & -> & W). exists false, (Some n), false. auto.
  - exists m', k', q'.
    step_cases H; try rewrite Ops in W; cbn in W; cbn;
      rewrite ?put_nat_other by exact N; (split; [exact W'|]); auto.
    + split; [|auto]. rewrite Hm'. split; congruence.
    + split; [|auto]. rewrite Hm'. destruct W as (-> & _). destruct Hm as (Hm & _).
      rewrite Hm by reflexivity. split; congruence.
    + split; [auto|]. split; [|auto]. intros n'. rewrite Hk'. unfold put.
      destruct (Nat.eqb_spec n' n) as [->|D]; [|tauto]. split; congruence.
    + split; [auto|]. split; [|auto]. intros n'. rewrite Hk'. unfold put.
      destruct (Nat.eqb_spec n' n) as [->|D]; [|tauto].
      destruct W as (-> & _). destruct (Hk n) as (X & _). rewrite X by reflexivity.
      split; congruence.
    + split; [auto|]. split; [auto|]. rewrite Hq'. split; congruence.
    + rewrite M. auto.
    + split; [auto|]. split; [auto|]. rewrite Hq'.
      destruct W as (_ & _ & -> & _). destruct Hq as (X & _). rewrite X by reflexivity.
      split; congruence.
Qed.

Lemma locks_start : forall l s p, locks (start l s p).
Proof.
  intros l s p t. exists false, None, false. cbn. repeat split; discriminate.
Qed.

(** an invariant of the steps holds after every schedule *)
Lemma run_invariant : forall (P : state -> Prop),
  (forall t ts st st', locks st -> P st -> step t ts st = Some st' -> P st') ->
  forall sched st st', locks st -> P st -> run sched st = Some st' -> locks st' /\ P st'.
Proof.
  intros P HP. induction sched as [|[t ts] r IH]; intros st st' L H R; cbn in R.
  - injection R as <-. auto.
  - destruct (step t ts st) as [st1|] eqn:E; [|discriminate].
    apply (IH st1); eauto using locks_step.
Qed.

Arguments write_ops : simpl never.

(** ** What is still to be written *)

(** what the sinks [S] write to [x] for an entry *)
Definition out (x : stream) (S : list sink) (e : entry) : string :=
  flat (map (fun s => if stream_eqb (stream_of s (e_level e)) x
                      then flat (fragments s e) else ""%string) S).

Lemma out_app : forall x a b e, out x (a ++ b) e = (out x a e ++ out x b e)%string.
Proof. intros. unfold out. rewrite map_app. apply flat_app. Qed.

Definition writes (x y : stream) (s : string) : string :=
  if stream_eqb y x then s else ""%string.

Fixpoint future (x : stream) (S : list sink) (o : list op) : string :=
  match o with
  | [] => ""%string
  | OWrite y s :: r => (writes x y s ++ future x S r)%string
  | OIter i e :: r => (out x (skipn i S) e ++ future x S r)%string
  | _ :: r => future x S r
  end.

(** the writes left before the current sink is done *)
Fixpoint current (x : stream) (o : list op) : string :=
  match o with
  | OWrite y s :: r => (writes x y s ++ current x r)%string
  | OSinkLock _ :: r => current x r
  | _ => ""%string
  end.

Definition plain1 (o : op) : bool :=
  match o with OWrite _ _ | OIter _ _ => false | _ => true end.
Definition plain (o : list op) : Prop := forallb plain1 o = true.

Fixpoint shape (o : list op) : Prop :=
  match o with
  | OWrite _ _ :: r | OSinkLock _ :: r => shape r
  | OSinkUnlock _ :: r => shape r /\ forall x, current x r = ""%string
  | OIter _ _ :: r => plain r
  | _ => plain o
  end.

Definition shapes (st : state) : Prop :=
  forall t, shape (ops (threads st t)) /\
    (mutex st <> Some t -> plain (ops (threads st t))).

Lemma plain_cons : forall o r, plain (o :: r) <-> plain1 o = true /\ plain r.
Proof. intros. unfold plain. cbn. apply andb_true_iff. Qed.

Lemma plain_current : forall x o, plain o -> current x o = ""%string.
Proof.
  induction o as [|a r IH]; [auto|]. intros H. apply plain_cons in H as (H1 & H2).
  destruct a; cbn in *; auto; discriminate.
Qed.

Lemma plain_shape : forall o, plain o -> shape o.
Proof.
  induction o as [|a r IH]; [auto|]. intros H. apply plain_cons in H as H'.
  destruct H' as (H1 & H2).
  destruct a; cbn in *; auto using plain_current; discriminate.
Qed.

Lemma plain_future : forall x S o, plain o -> future x S o = ""%string.
Proof.
  induction o as [|a r IH]; [auto|]. intros H. apply plain_cons in H as (H1 & H2).
  destruct a; cbn in *; auto; discriminate.
Qed.

Lemma plain_code : forall c, plain (code c).
Proof. destruct c; reflexivity. Qed.

Lemma shape_writes : forall x l r, shape r -> shape (map (OWrite x) l ++ r).
Proof. induction l; cbn; auto. Qed.

Lemma shape_write_ops : forall s e i e' r,
  plain r -> shape (write_ops s e ++ OIter i e' :: r).
Proof.
  intros. unfold write_ops. destruct s; cbn [app]; try (apply shape_writes; assumption).
  cbn. rewrite <- app_assoc. apply shape_writes. cbn. auto.
Qed.

Lemma shape_rest : forall o r,
  shape (o :: r) -> plain1 o = true ->
  match o with OSinkLock _ | OSinkUnlock _ => False | _ => True end -> plain r.
Proof.
  intros o r H P Q. destruct o; cbn in *; try contradiction; try discriminate;
    apply plain_cons in H; tauto.
Qed.

Lemma shapes_step : forall t ts st st',
  locks st -> shapes st -> step t ts st = Some st' -> shapes st'.
Proof.
  intros t ts st st' L Sh H u.
  pose proof (L t) as (m & k & q & W & Hm & _ & _).
  destruct (Nat.eq_dec u t) as [->|N].
  - destruct (Sh t) as (S1 & S2).
    step_cases H; try rewrite Ops in W; try rewrite Ops in S1; try rewrite Ops in S2;
      cbn in W; cbn; rewrite ?put_nat_same; cbn [ops].
    all: try (match goal with
      | S1 : shape (?o :: ?r) |- context [shape ?r] =>
          assert (plain r) by (exact (shape_rest _ _ S1 eq_refl I));
          split; [apply plain_shape|intros _]; assumption
      end).
    + split; [apply plain_shape|intros _]; apply plain_code.
    + split; [|intros _]; reflexivity.
    + assert (P : plain os) by exact (shape_rest _ _ S1 eq_refl I).
      split; [exact P|]. intros X. destruct W as (-> & _).
      destruct X. apply Hm. reflexivity.
    + split; [apply shape_write_ops; exact S1|]. intros X. destruct W as (-> & _).
      destruct X. apply Hm. reflexivity.
    + split; [exact (plain_shape _ S1)|]. intros X. destruct W as (-> & _).
      destruct X. apply Hm. reflexivity.
    + split; [exact S1|]. intros X. apply S2, plain_cons in X. tauto.
    + split; [exact (proj1 S1)|]. intros X. apply S2, plain_cons in X. tauto.
    + split; [exact S1|]. intros X. apply S2, plain_cons in X. tauto.
    + assert (P : plain os) by exact (shape_rest _ _ S1 eq_refl I).
      split; [|intros _]; exact P.
    + assert (P : plain os) by exact (shape_rest _ _ S1 eq_refl I).
      split; [|intros _]; exact P.
  - destruct (Sh u) as (S1 & S2).
    step_cases H; try rewrite Ops in W; cbn in W; cbn;
      rewrite ?put_nat_other by exact N; auto.
    + split; [exact S1|]. intros _. apply S2. congruence.
    + split; [exact S1|]. intros _. apply S2. destruct W as (-> & _).
      destruct Hm as (Hm & _). rewrite Hm by reflexivity. congruence.
Qed.

Lemma shapes_start : forall l s p, shapes (start l s p).
Proof. intros l s p t. split; reflexivity. Qed.

Lemma future_app : forall x S a b, future x S (a ++ b) = (future x S a ++ future x S b)%string.
Proof.
  induction a as [|o r IH]; intros; [reflexivity|].
  destruct o; cbn; rewrite IH, ?append_assoc; reflexivity.
Qed.

Lemma future_writes : forall x y S l,
  future x S (map (OWrite y) l) = writes x y (flat l).
Proof.
  induction l as [|a l IH]; cbn; unfold writes in *.
  - destruct (stream_eqb y x); reflexivity.
  - rewrite IH. destruct (stream_eqb y x); reflexivity.
Qed.

Lemma future_write_ops : forall x S s e, future x S (write_ops s e) = out x [s] e.
Proof.
  intros. unfold out. cbn [map flat]. rewrite append_nil.
  unfold write_ops. destruct s; cbn [app future];
    rewrite ?future_app, future_writes; cbn [future]; rewrite ?append_nil; reflexivity.
Qed.

Lemma current_writes : forall x y l r,
  current x (map (OWrite y) l ++ r) = (writes x y (flat l) ++ current x r)%string.
Proof.
  induction l as [|a l IH]; intros; cbn; unfold writes in *.
  - destruct (stream_eqb y x); reflexivity.
  - rewrite IH. destruct (stream_eqb y x); rewrite ?append_assoc; reflexivity.
Qed.

Lemma current_write_ops : forall x s e i e' r,
  current x (write_ops s e ++ OIter i e' :: r) = out x [s] e.
Proof.
  intros. unfold out. cbn [map flat]. rewrite append_nil.
  unfold write_ops. destruct s; cbn [app current];
    rewrite <- ?app_assoc, current_writes; cbn [current app]; rewrite ?append_nil; reflexivity.
Qed.

Lemma skipn_nth : forall A (l : list A) i a,
  nth_error l i = Some a -> skipn i l = a :: skipn (S i) l.
Proof.
  induction l; intros [|i] b H; cbn in *; try discriminate.
  - injection H as <-. reflexivity.
  - apply IHl. exact H.
Qed.

Lemma skipn_none : forall A (l : list A) i, nth_error l i = None -> skipn i l = [].
Proof. intros. apply nth_error_None in H. apply skipn_all2. exact H. Qed.

(** what the holder of the mutex is still going to write to [x] *)
Definition outstanding (x : stream) (st : state) : string :=
  match mutex st with
  | Some t => future x (sinks st) (ops (threads st t))
  | None => ""%string
  end.

Definition unfinished (x : stream) (st : state) : string :=
  match mutex st with
  | Some t => current x (ops (threads st t))
  | None => ""%string
  end.

(** calls and operations that empty the buffer behind [x] *)
Definition erases (x : stream) (o : op) : bool :=
  match o with OErase n => stream_eqb (TString n) x | _ => false end.
Definition kept (x : stream) (st : state) : Prop :=
  forall t, forallb (fun o => negb (erases x o)) (ops (threads st t)) = true /\
    forallb (fun c => forallb (fun o => negb (erases x o)) (code c)) (calls (threads st t)) = true.

Lemma kept_writes : forall x y l,
  forallb (fun o => negb (erases x o)) (map (OWrite y) l) = true.
Proof. induction l; auto. Qed.

Lemma kept_write_ops : forall x s e,
  forallb (fun o => negb (erases x o)) (write_ops s e) = true.
Proof.
  intros. unfold write_ops. destruct s; cbn; rewrite ?forallb_app, ?kept_writes; reflexivity.
Qed.

Lemma kept_step : forall x t ts st st',
  kept x st -> step t ts st = Some st' -> kept x st'.
Proof.
  intros x t ts st st' K H u. destruct (K t) as (K1 & K2). destruct (K u) as (K3 & K4).
  destruct (Nat.eq_dec u t) as [->|N].
  - step_cases H; try rewrite Ops in K1; try rewrite Calls in K2; cbn in K1, K2; cbn;
      rewrite ?put_nat_same; cbn [ops calls]; auto;
      try (apply andb_true_iff in K1 as (K1 & K1')); auto.
    + apply andb_true_iff in K2. tauto.
    + rewrite forallb_app, kept_write_ops. cbn. auto.
  - step_cases H; cbn; rewrite ?put_nat_other by exact N; auto.
Qed.

Definition shown (x : stream) (l : list (entry * list sink)) : string :=
  flat (map (fun p => out x (snd p) (fst p)) l).

Arguments shown : simpl never.

Lemma shown_app : forall x a b, shown x (a ++ b) = (shown x a ++ shown x b)%string.
Proof. intros. unfold shown. rewrite map_app. apply flat_app. Qed.

(** the text of a stream that nobody empties, and what is still to come,
    is what the sinks of each entry's time write for the entry *)
Definition exact_text (x : stream) (st : state) : Prop :=
  shapes st /\ kept x st /\
  (text st x ++ outstanding x st)%string = shown x (logged st).

Lemma exact_text_step : forall x t ts st st',
  locks st -> exact_text x st -> step t ts st = Some st' -> exact_text x st'.
Proof.
  intros x t ts st st' L (Sh & K & E) H.
  split; [eapply shapes_step; eauto|]. split; [eapply kept_step; eauto|].
  pose proof (L t) as (m & k & q & W & Hm & Hk & Hq).
  destruct (Sh t) as (S1 & S2). destruct (K t) as (K1 & _). clear K.
  unfold outstanding in *.
  destruct (mutex st) as [h|] eqn:Mu.
  - destruct (Nat.eq_dec h t) as [->|N].
    + (* the holder steps *)
      assert (m = true) as -> by (apply Hm; reflexivity).
      step_cases H; try rewrite Ops in W; try rewrite Ops in S1; try rewrite Ops in E;
        cbn in W; cbn; rewrite ?Mu, ?put_nat_same; cbn [ops future] in *;
        try (destruct W as (W & _); discriminate W);
        try (assert (P : plain os) by exact (shape_rest _ _ S1 eq_refl I);
             rewrite ?(plain_future x _ os P) in *).
      * exact E.
      * rewrite shown_app. unfold shown at 2. cbn. rewrite append_nil in E.
        rewrite !append_nil, E. reflexivity.
      * rewrite future_app, future_write_ops. cbn [future].
        rewrite (skipn_nth _ _ _ _ M) in E.
        change (s :: skipn (S i) (sinks st)) with ([s] ++ skipn (S i) (sinks st)) in E.
        rewrite out_app in E. rewrite !append_assoc in E. exact E.
      * rewrite (skipn_none _ _ _ M) in E. exact E.
      * exact E.
      * exact E.
      * rewrite <- E. unfold put. destruct (stream_eqb x t0) eqn:X.
        -- apply stream_eqb_eq in X. subst t0. unfold writes.
           rewrite (proj2 (stream_eqb_eq x x) eq_refl), append_assoc. reflexivity.
        -- unfold writes. destruct (stream_eqb t0 x) eqn:Y; [|reflexivity].
           apply stream_eqb_eq in Y. subst t0.
           rewrite (proj2 (stream_eqb_eq x x) eq_refl) in X. discriminate.
      * exact E.
      * exact E.
      * exact E.
    + (* another thread steps: it neither writes nor changes the sinks *)
      assert (m = false) as ->.
      { destruct m; [|reflexivity]. apply proj1 in Hm. specialize (Hm eq_refl). congruence. }
      step_cases H; try rewrite Ops in W; try rewrite Ops in K1; cbn in W, K1; cbn;
        rewrite ?Mu, ?put_nat_other by exact N;
        try (destruct W as (W & _); discriminate W); try exact E; try congruence.
      unfold put. rewrite <- E. destruct (stream_eqb x (TString n)) eqn:X; [|reflexivity].
      apply stream_eqb_eq in X. subst x. cbn in K1. rewrite Nat.eqb_refl in K1. discriminate.
  - assert (m = false) as ->.
    { destruct m; [|reflexivity]. apply proj1 in Hm. specialize (Hm eq_refl). congruence. }
    assert (P : plain (ops (threads st t))) by (apply S2; congruence).
    step_cases H; try rewrite Ops in W; try rewrite Ops in K1; try rewrite Ops in P;
      cbn in W, K1; cbn; rewrite ?Mu, ?put_nat_same; cbn [ops];
      try (destruct W as (W & _); discriminate W); try exact E; try congruence.
    + rewrite plain_future; [exact E|]. apply plain_cons in P. tauto.
    + unfold put. rewrite <- E. destruct (stream_eqb x (TString n)) eqn:X; [|reflexivity].
      apply stream_eqb_eq in X. subst x. cbn in K1. rewrite Nat.eqb_refl in K1. discriminate.
Qed.

(** ** Whole entries *)

Definition known (st : state) : list entry := map fst (logged st).

Arguments known : simpl never.

Definition whole (x : stream) (es : list entry) (s : string) : Prop :=
  exists l : list (sink * entry),
    Forall (fun p => stream_of (fst p) (e_level (snd p)) = x /\ In (snd p) es) l /\
    s = flat (map (fun p => flat (fragments (fst p) (snd p))) l).

Lemma whole_nil : forall x es, whole x es "".
Proof. intros. exists []. split; [constructor|reflexivity]. Qed.

Lemma whole_app : forall x es a b, whole x es a -> whole x es b -> whole x es (a ++ b).
Proof.
  intros x es a b (l1 & F1 & ->) (l2 & F2 & ->). exists (l1 ++ l2). split.
  - apply Forall_app. auto.
  - rewrite map_app, flat_app. reflexivity.
Qed.

Lemma whole_mono : forall x es es' s, incl es es' -> whole x es s -> whole x es' s.
Proof.
  intros x es es' s I (l & F & ->). exists l. split; [|reflexivity].
  eapply Forall_impl; [|exact F]. intros p (? & ?). auto.
Qed.

Lemma whole_out : forall x es s e, In e es -> whole x es (out x [s] e).
Proof.
  intros. unfold out. cbn. rewrite append_nil.
  destruct (stream_eqb (stream_of s (e_level e)) x) eqn:X; [|apply whole_nil].
  apply stream_eqb_eq in X. exists [(s, e)]. cbn. rewrite append_nil. auto.
Qed.

Definition text_ok (x : stream) (st : state) : Prop :=
  exists A d, text st x = (A ++ d)%string /\
    whole x (known st) A /\ whole x (known st) (d ++ unfinished x st) /\
    (d = ""%string \/
     exists h, mutex st = Some h /\ forall n, x = TString n -> sink_mutex st n = Some h).

Definition returned_ok (st : state) : Prop :=
  Forall (fun r => whole (TString (snd (fst r))) (known st) (snd r)) (returned st).

Definition iters (st : state) : Prop :=
  forall t i e, In (OIter i e) (ops (threads st t)) -> In e (known st).

Definition whole_texts (st : state) : Prop :=
  shapes st /\ iters st /\ (forall x, text_ok x st) /\ returned_ok st.

Lemma known_step : forall t ts st st',
  step t ts st = Some st' -> incl (known st) (known st').
Proof.
  intros t ts st st' H. unfold known.
  step_cases H; cbn; try apply incl_refl.
  rewrite map_app. apply incl_appl, incl_refl.
Qed.

Lemma no_iter_code : forall c i e, ~ In (OIter i e) (code c).
Proof. destruct c; cbn; intuition discriminate. Qed.

Lemma in_write_ops_iter : forall s e i e', ~ In (OIter i e') (write_ops s e).
Proof.
  intros. unfold write_ops.
  destruct s; cbn; rewrite ?in_app_iff, in_map_iff; intros X;
    repeat match goal with
    | H : _ \/ _ |- _ => destruct H
    | H : exists _, _ |- _ => destruct H as (? & ? & ?)
    | H : In _ (_ :: _) |- _ => cbn in H
    | H : False |- _ => destruct H
    end; discriminate.
Qed.

Lemma iters_step : forall t ts st st',
  iters st -> step t ts st = Some st' -> iters st'.
Proof.
  intros t ts st st' I H u i e X.
  pose proof (known_step _ _ _ _ H) as Kn.
  destruct (Nat.eq_dec u t) as [->|N].
  - assert (Sub : forall os, (exists o, ops (threads st t) = o :: os) -> In (OIter i e) os ->
      In e (known st')).
    { intros os (o & Eo) J. apply Kn, (I t i e). rewrite Eo. right. exact J. }
    step_cases H; try rewrite Ops in I; cbn in X; rewrite ?put_nat_same in X; cbn [ops] in X;
      try (apply (Sub os); [eauto|assumption]).
    + destruct (no_iter_code _ _ _ X).
    + destruct X.
    + destruct X as [X|X].
      * injection X as <- <-. unfold known. cbn. rewrite map_app. apply in_or_app.
        right. left. reflexivity.
      * apply (Sub os); eauto.
    + apply in_app_or in X as [X|[X|X]].
      * destruct (in_write_ops_iter _ _ _ _ X).
      * injection X as <- <-. apply Kn, (I t i0 e0). rewrite Ops. left. reflexivity.
      * apply (Sub os); eauto.
    + repeat (destruct X as [X|X]; [discriminate|]). apply (Sub os); eauto.
    + repeat (destruct X as [X|X]; [discriminate|]). apply (Sub os); eauto.
  - apply Kn, (I u i e). step_cases H; cbn in X; rewrite ?put_nat_other in X by exact N; exact X.
Qed.

Lemma text_ok_step : forall x t ts st st',
  locks st -> shapes st -> iters st -> text_ok x st ->
  step t ts st = Some st' -> text_ok x st'.
Proof.
  intros x t ts st st' L Sh It (A & d & T & WA & WD & C) H.
  pose proof (known_step _ _ _ _ H) as Kn.
  apply (whole_mono _ _ _ _ Kn) in WA. apply (whole_mono _ _ _ _ Kn) in WD.
  pose proof (L t) as (m & k & q & W & Hm & Hk & Hq).
  destruct (Sh t) as (S1 & S2).
  unfold text_ok, unfinished in *.
  (* merging: nothing is being written, so the text is whole *)
  assert (Merge : unfinished x st = ""%string -> whole x (known st') (A ++ d)).
  { intros X. unfold unfinished in X. rewrite X, append_nil in WD. apply whole_app; assumption. }
  unfold unfinished in Merge.
  destruct (mutex st) as [h|] eqn:Mu.
  - destruct (Nat.eq_dec h t) as [->|N].
    + assert (m = true) as -> by (apply Hm; reflexivity).
      assert (Same : forall st2, text st2 = text st -> mutex st2 = mutex st ->
        sink_mutex st2 = sink_mutex st -> incl (known st') (known st2) ->
        current x (ops (threads st2 t)) = current x (ops (threads st t)) ->
        exists A0 d0, text st2 x = (A0 ++ d0)%string /\ whole x (known st2) A0 /\
          whole x (known st2) (d0 ++ match mutex st2 with
             | Some t => current x (ops (threads st2 t)) | None => "" end) /\
          (d0 = ""%string \/ (exists h, mutex st2 = Some h /\
             (forall n, x = TString n -> sink_mutex st2 n = Some h)))).
      { intros st2 E1 E2 E3 E4 E5. exists A, d. rewrite E1, E2, E3, Mu, E5.
        split; [exact T|]. split; [exact (whole_mono _ _ _ _ E4 WA)|].
        split; [exact (whole_mono _ _ _ _ E4 WD)|]. exact C. }
      step_cases H; try rewrite Ops in W; try rewrite Ops in S1; try rewrite Ops in Merge;
        cbn in W; cbn in Merge;
        try (destruct W as (W & _); discriminate W);
        try (assert (P : plain os) by exact (shape_rest _ _ S1 eq_refl I)).
      all: try (apply Same; cbn; auto using incl_refl;
                rewrite ?put_nat_same; cbn [ops]; rewrite ?Ops; cbn;
                first [reflexivity|apply plain_current; assumption]).
      * (* OUnlock *)
        exists (A ++ d)%string, ""%string. cbn. rewrite append_nil. auto using whole_nil.
      * (* OIter, one more sink *)
        exists (A ++ d)%string, ""%string. cbn. rewrite Mu, put_nat_same, append_nil.
        cbn [ops append]. split; [exact T|]. split; [auto|]. split; [|auto].
        rewrite current_write_ops. apply whole_out. apply Kn, (It t i e). rewrite Ops.
        left. reflexivity.
      * (* OSinkLock *) 
        exists A, d. cbn. rewrite Mu, put_nat_same. cbn [ops].
        rewrite ?Ops in WD; cbn in WD. split; [exact T|]. split; [auto|]. split; [auto|].
        destruct C as [C|(h & C1 & C2)]; [auto|]. right. exists h. split; [exact C1|].
        intros n' ->. unfold put. destruct (Nat.eqb_spec n' n) as [->|D]; [congruence|]. auto.
      * (* OSinkUnlock *)
        exists (A ++ d)%string, ""%string. cbn. rewrite Mu, put_nat_same, append_nil.
        cbn [ops append]. split; [exact T|]. split; [auto|]. split; [|auto].
        rewrite (proj2 S1). apply whole_nil.
      * (* OWrite *)
        destruct W as (_ & -> & -> & W).
        exists A, (d ++ writes x t0 text)%string. cbn. rewrite Mu, put_nat_same. cbn [ops].
        rewrite ?Ops in WD; cbn in WD. rewrite <- append_assoc in WD.
        split; [|split; [auto|split; [exact WD|]]].
        -- rewrite <- append_assoc, <- T. unfold put, writes.
           destruct (stream_eqb x t0) eqn:X.
           ++ apply stream_eqb_eq in X. subst t0.
              rewrite (proj2 (stream_eqb_eq x x) eq_refl). reflexivity.
           ++ destruct (stream_eqb t0 x) eqn:Y; [|rewrite append_nil; reflexivity].
              apply stream_eqb_eq in Y. subst t0.
              rewrite (proj2 (stream_eqb_eq x x) eq_refl) in X. discriminate.
        -- unfold writes. destruct (stream_eqb t0 x) eqn:Y.
           ++ apply stream_eqb_eq in Y. subst t0. right. exists t. split; [reflexivity|].
              intros n ->. apply Hk. reflexivity.
           ++ rewrite append_nil. exact C.
    + (* another thread steps *)
      assert (m = false) as ->.
      { destruct m; [|reflexivity]. apply proj1 in Hm. specialize (Hm eq_refl). congruence. }
      destruct (L h) as (mh & kh & qh & Wh & Hmh & Hkh & _).
      assert (mh = true) as -> by (apply Hmh; exact Mu).
      step_cases H; try rewrite Ops in W; cbn in W; cbn;
        rewrite ?Mu, ?put_nat_other by exact N;
        try (destruct W as (W & _); discriminate W); try congruence;
        try (exists A, d; split; [exact T|]; split; [exact WA|]; split; [exact WD|]; exact C).
      * (* OSinkLock *)
        exists A, d. split; [exact T|]. split; [exact WA|]. split; [exact WD|].
        destruct C as [C|(h' & C1 & C2)]; [auto|]. right. exists h'. split; [exact C1|].
        intros n' ->. unfold put. destruct (Nat.eqb_spec n' n) as [->|D]; [|auto].
        specialize (C2 n eq_refl). congruence.
      * (* OSinkUnlock *)
        exists A, d. split; [exact T|]. split; [exact WA|]. split; [exact WD|].
        destruct C as [C|(h' & C1 & C2)]; [auto|]. right. exists h'. split; [exact C1|].
        intros n' ->. unfold put. destruct (Nat.eqb_spec n' n) as [->|D]; [|auto].
        specialize (C2 n eq_refl). destruct W as (-> & _).
        destruct (Hk n) as (X & _). specialize (X eq_refl). congruence.
      * (* OErase *)
        unfold put. destruct (stream_eqb x (TString n)) eqn:X.
        -- apply stream_eqb_eq in X. subst x. destruct W as (_ & -> & _).
           destruct (Hk n) as (Y & _). specialize (Y eq_refl).
           destruct C as [->|(h' & C1 & C2)]; [|specialize (C2 n eq_refl); congruence].
           exists ""%string, ""%string. cbn [append] in *. auto using whole_nil.
        -- exists A, d. split; [exact T|]. split; [exact WA|]. split; [exact WD|]. exact C.
  - assert (m = false) as ->.
    { destruct m; [|reflexivity]. apply proj1 in Hm. specialize (Hm eq_refl). congruence. }
    assert (P : plain (ops (threads st t))) by (apply S2; congruence).
    specialize (Merge eq_refl).
    assert (d = ""%string) as -> by (destruct C as [C|(h & C & _)]; [exact C|discriminate C]).
    rewrite append_nil in T, Merge. subst A. clear WA.
    step_cases H; try rewrite Ops in W; try rewrite Ops in P; cbn in W; cbn;
      rewrite ?Mu, ?put_nat_same; cbn [ops];
      try (destruct W as (W & _); discriminate W); try congruence;
      try (exists (text st x), ""%string; rewrite append_nil; solve [auto]).
    + exists (text st x), ""%string. rewrite append_nil. split; [reflexivity|]. split; [exact Merge|].
      split; [|auto]. rewrite plain_current; [apply whole_nil|]. apply plain_cons in P. tauto.
    + unfold put. destruct (stream_eqb x (TString n)) eqn:X.
      * exists ""%string, ""%string. auto using whole_nil.
      * exists (text st x), ""%string. rewrite append_nil. auto.
Qed.

Lemma returned_ok_step : forall t ts st st',
  locks st -> (forall x, text_ok x st) -> returned_ok st ->
  step t ts st = Some st' -> returned_ok st'.
Proof.
  intros t ts st st' L T R H.
  pose proof (known_step _ _ _ _ H) as Kn.
  assert (R' : Forall (fun r => whole (TString (snd (fst r))) (known st') (snd r)) (returned st)).
  { eapply Forall_impl; [|exact R]. intros r. apply whole_mono. exact Kn. }
  pose proof (L t) as (m & k & q & W & Hm & Hk & Hq). unfold returned_ok.
  step_cases H; try rewrite Ops in W; cbn in W; try exact R'.
  cbn [returned set_ops add_returned]. apply Forall_app. split; [exact R'|].
  constructor; [|constructor]. cbn [fst snd].
  destruct W as (-> & -> & _). destruct (T (TString n)) as (A & d & E & WA & _ & C).
  destruct C as [->|(h & C1 & C2)].
  - rewrite E, append_nil. apply (whole_mono _ _ _ _ Kn WA).
  - specialize (C2 n eq_refl). destruct (Hk n) as (X & _). specialize (X eq_refl).
    assert (h = t) by congruence. subst h. apply Hm in C1. discriminate.
Qed.

Lemma whole_texts_step : forall t ts st st',
  locks st -> whole_texts st -> step t ts st = Some st' -> whole_texts st'.
Proof.
  intros t ts st st' L (Sh & It & T & R) H.
  split; [eapply shapes_step; eauto|]. split; [eapply iters_step; eauto|].
  split; [|eapply returned_ok_step; eauto].
  intros x. eapply text_ok_step; eauto.
Qed.

Lemma whole_texts_start : forall l s p, whole_texts (start l s p).
Proof.
  intros l s p. split; [apply shapes_start|]. split; [intros t i e []|].
  split; [|constructor].
  intros x. exists ""%string, ""%string. cbn. auto using whole_nil.
Qed.
