(** C205, C206: the time of a simulation file and one period of its signals. *)
From Coq Require Import List Bool Ascii String QArith Qabs Arith Lia Sorted Lra Lqa.
From Verif Require Import Base QAux CsvModel SignalModel.
Import ListNotations.
Local Open Scope nat_scope.

(** * C205: the time axis *)
Definition rises (d : list Q) : Prop := StronglySorted Qle d /\ exists x y r, d = x :: r ++ [y] /\ (x < y)%Q.

Lemma ascending_spec : forall d, ascending d = true <-> StronglySorted Qle d.
Proof.
  assert (G : forall d, ascending d = true <-> Sorted Qle d).
  { induction d as [|x d IH]; [split; [constructor|reflexivity]|]. cbn [ascending]. destruct d as [|y d].
    - split; [repeat constructor|reflexivity].
    - destruct (Qlt_bool y x) eqn:E; qb.
      + split; [discriminate|]. intro S. inversion S as [|? ? _ H]; subst. inversion H; subst. lra.
      + rewrite IH. split; [intro S; constructor; [exact S|constructor; exact E]|intro S; now inversion S]. }
  intro d. rewrite G. split; [apply Sorted_StronglySorted; intros a b c; apply Qle_trans|apply StronglySorted_Sorted].
Qed.
(** A column can be the time exactly when it never falls and ends above where it
    starts. *)
Theorem C205_time : forall d, d <> [] -> exists b, can_be_time d = Ok b /\ (b = true <-> rises d).
Proof.
  intros d N. destruct d as [|x d]; [contradiction|]. destruct d as [|y d].
  - exists false. split; [reflexivity|]. split; [discriminate|]. intros (_ & a & b & r & E & _). destruct r; discriminate.
  - eexists. split; [reflexivity|]. rewrite andb_true_iff, ascending_spec. unfold rises.
    destruct (exists_last (l := y :: d)) as (r & z & E); [discriminate|]. rewrite E.
    replace (last (x :: r ++ [z]) x) with z by (rewrite app_comm_cons, last_last; reflexivity).
    split; intros (A & B); (split; [exact A|]).
    + qb. exists x, z, r. auto.
    + destruct B as (a & b & s & F & L). injection F as <- F. apply app_inj_tail in F. destruct F as (_ & <-). now apply Qlt_bool_iff.
Qed.
Theorem C205_empty : exists w, can_be_time [] = Throw w.
Proof. eexists. reflexivity. Qed.
(** The time of a file is the first column that can be one; there must be no empty
    column before it. *)
Theorem C205_found : forall cs c, find_time cs = Ok c <->
  exists a b, cs = a ++ c :: b /\ rises (cdata c) /\ Forall (fun x => cdata x <> [] /\ ~ rises (cdata x)) a.
Proof.
  intros cs c. induction cs as [|x cs IH]; cbn [find_time].
  - split; [discriminate|]. intros (a & b & E & _). destruct a; discriminate.
  - destruct (cdata x) as [|q d] eqn:E.
    + cbn [can_be_time bind]. split; [discriminate|]. intros (a & b & F & R & A). exfalso. destruct a as [|y a]; injection F as <- F.
      * destruct R as (_ & u & v & r & G & _). rewrite E in G. discriminate.
      * apply Forall_cons_iff in A. destruct A as ((A & _) & _). contradiction.
    + destruct (C205_time (cdata x)) as (t & T & R); [rewrite E; discriminate|]. rewrite E in *. rewrite T. cbn [bind]. destruct t.
      * split.
        -- intro H. injection H as <-. exists [], cs. split; [reflexivity|]. split; [rewrite E; apply R; reflexivity|constructor].
        -- intros (a & b & F & _ & A). destruct a as [|y a]; injection F as <- F; [reflexivity|]. apply Forall_cons_iff in A. destruct A as ((_ & A) & _). exfalso. apply A. rewrite E. apply R. reflexivity.
      * rewrite IH. split; intros (a & b & F & Rc & A).
        -- exists (x :: a), b. split; [rewrite F; reflexivity|]. split; [exact Rc|]. constructor; [|exact A]. rewrite E. split; [discriminate|]. intro K. apply R in K. discriminate.
        -- destruct a as [|y a]; injection F as F0 F; [exfalso; rewrite <- F0, E in Rc; apply R in Rc; discriminate|]. exists a, b. split; [exact F|]. split; [exact Rc|]. now apply Forall_cons_iff in A.
Qed.

(** Repeated times: of the samples at one time the last is kept. *)
Definition later (a b : Q * Q) : Prop := (fst a < fst b)%Q.
Lemma collapse_in : forall ts ds p, In p (collapse ts ds) -> exists i, nth_error ts i = Some (fst p) /\ nth_error ds i = Some (snd p) /\
  match nth_error ts (S i) with Some u => ~ (fst p == u)%Q | None => True end.
Proof.
  induction ts as [|t ts IH]; intros ds p H; [destruct ds; destruct H|]. destruct ds as [|d ds]; [destruct H|]. cbn [collapse] in H. destruct ts as [|u ts].
  - destruct H as [<-|[]]. exists 0. repeat split.
  - destruct (Qeq_bool t u) eqn:E.
    + destruct (IH ds p H) as (i & A & B & C). exists (S i). auto.
    + destruct H as [<-|H].
      * exists 0. split; [reflexivity|]. split; [reflexivity|]. cbn [nth_error fst]. now apply Qeq_bool_neq.
      * destruct (IH ds p H) as (i & A & B & C). exists (S i). auto.
Qed.
Lemma sorted_nth : forall ts i j a b, StronglySorted Qle ts -> i < j -> nth_error ts i = Some a -> nth_error ts j = Some b -> (a <= b)%Q.
Proof.
  intros ts i j a b S. revert i j. induction S as [|t ts S IH F]; intros i j L A B; [destruct i; discriminate|]. destruct j as [|j]; [lia|]. destruct i as [|i]; cbn [nth_error] in *.
  - injection A as <-. rewrite Forall_forall in F. apply F, (nth_error_In _ _ B).
  - apply (IH i j); [lia|exact A|exact B].
Qed.
Theorem C205_repeated : forall ts ds, List.length ts = List.length ds -> StronglySorted Qle ts ->
  let w := collapse ts ds in
  StronglySorted later w /\
  (forall t, In t ts -> exists p, In p w /\ (fst p == t)%Q) /\
  (forall p, In p w -> exists i, nth_error ts i = Some (fst p) /\ nth_error ds i = Some (snd p) /\
     forall j t, i < j -> nth_error ts j = Some t -> (fst p < t)%Q).
Proof.
  intros ts ds L S w.
  assert (C3 : forall ts ds, StronglySorted Qle ts -> forall p, In p (collapse ts ds) -> exists i, nth_error ts i = Some (fst p) /\ nth_error ds i = Some (snd p) /\
     forall j t, i < j -> nth_error ts j = Some t -> (fst p < t)%Q).
  { clear. intros ts ds S p H. destruct (collapse_in ts ds p H) as (i & A & B & C). exists i. split; [exact A|]. split; [exact B|]. intros j t L K.
    destruct (nth_error ts (Datatypes.S i)) as [u|] eqn:E.
    - assert (P1 : (fst p <= u)%Q) by (apply (sorted_nth ts i (Datatypes.S i)); auto). assert (P2 : (u <= t)%Q).
      { destruct (Nat.eq_dec (Datatypes.S i) j) as [<-|Nj]; [rewrite E in K; injection K as <-; lra|]. apply (sorted_nth ts (Datatypes.S i) j); auto. lia. }
      destruct (Qlt_le_dec (fst p) u) as [X|X]; [lra|]. exfalso. apply C. lra.
    - exfalso. apply nth_error_None in E. assert (j < List.length ts) by (apply nth_error_Some; congruence). lia. }
  split; [|split; [|intros p; apply C3, S]].
  - unfold w. clear w. revert ds L. induction S as [|t ts S IH F]; intros ds L; [destruct ds; constructor|]. destruct ds as [|d ds]; [discriminate|]. cbn [collapse]. destruct ts as [|u ts'].
    + repeat constructor.
    + destruct (Qeq_bool t u) eqn:E; [apply IH; cbn in *; lia|]. constructor; [apply IH; cbn in *; lia|]. apply Forall_forall. intros p H. destruct (C3 _ _ S p H) as (i & A & _ & _).
      unfold later. cbn [fst]. apply Qeq_bool_neq in E. rewrite Forall_forall in F. assert (A1 : (t <= u)%Q) by (apply F; left; reflexivity).
      assert (A2 : (u <= fst p)%Q). { destruct i as [|i]; [injection A as <-; lra|]. inversion S as [|? ? _ F2]; subst. rewrite Forall_forall in F2. cbn [nth_error] in A. apply F2, (nth_error_In _ _ A). }
      destruct (Qlt_le_dec t u); [lra|]. exfalso. apply E. lra.
  - unfold w. clear w C3 S. revert ds L. induction ts as [|t ts IH]; intros ds L x H; [destruct H|]. destruct ds as [|d ds]; [discriminate|]. cbn [collapse]. destruct ts as [|u ts].
    + destruct H as [<-|[]]. exists (t, d). split; [left; reflexivity|reflexivity].
    + assert (L' : List.length (u :: ts) = List.length ds) by (cbn in *; lia). destruct (Qeq_bool t u) eqn:E.
      * destruct H as [<-|H]; [|apply IH; assumption]. destruct (IH ds L' u (or_introl eq_refl)) as (p & A & B). exists p. split; [exact A|]. qb. lra.
      * destruct H as [<-|H]; [exists (t, d); split; [left; reflexivity|reflexivity]|]. destruct (IH ds L' x H) as (p & A & B). exists p. split; [right; exact A|exact B].
Qed.
Example C205_witness : rises [0; 1; 1; 2]%Q /\ collapse [0; 1; 1; 2]%Q [5; 6; 7; 8]%Q = [(0, 5); (1, 7); (2, 8)]%Q /\
  find_time [mkColumn [] [3; 2]; mkColumn ["t"%char] [0; 1; 1; 2]]%Q = Ok (mkColumn ["t"%char] [0; 1; 1; 2]%Q).
Proof.
  split; [|split; reflexivity]. split; [|exists 0%Q, 2%Q, [1; 1]%Q; split; [reflexivity|reflexivity]].
  apply ascending_spec. reflexivity.
Qed.

(** * C206: one period *)
Definition at_ (l : list Q) (i : nat) : Q := nth i l 0%Q.
Definition increasing (ts : list Q) : Prop := forall i j, i < j < List.length ts -> (at_ ts i < at_ ts j)%Q.
(** The signal touches zero between two samples. *)
Definition touches (d : list Q) (i : nat) : Prop := (at_ d i * at_ d (S i) <= 0)%Q.

Lemma crossing_spec : forall a b, crossing a b = true <-> (a * b <= 0)%Q.
Proof.
  intros a b. unfold crossing. rewrite orb_true_iff, !andb_true_iff, !Qle_bool_iff. split; [intros [(A & B)|(A & B)]; nra|].
  intro H. destruct (Qlt_le_dec a 0) as [A|A].
  - right. split; [lra|]. destruct (Qlt_le_dec b 0) as [B|B]; [exfalso; nra|exact B].
  - destruct (Qlt_le_dec 0 b) as [B|B]; [|left; split; assumption]. right. split; [|lra]. destruct (Qlt_le_dec 0 a) as [C|C]; [exfalso; nra|exact C].
Qed.
Lemma back_walk_spec : forall d i,
  match back_walk d i with
  | Some k => k < i /\ touches d k /\ forall j, k < j < i -> ~ touches d j
  | None => forall j, j < i -> ~ touches d j
  end.
Proof.
  intros d. induction i as [|i IH]; cbn [back_walk]; [intros j L; lia|]. destruct (crossing (nth i d 0%Q) (nth (S i) d 0%Q)) eqn:E.
  - apply crossing_spec in E. split; [lia|]. split; [exact E|]. intros j L. lia.
  - assert (N : ~ touches d i) by (intro T; apply (proj2 (crossing_spec _ _)) in T; unfold at_ in T; congruence).
    destruct (back_walk d i) as [k|].
    + destruct IH as (A & B & C). split; [lia|]. split; [exact B|]. intros j L. destruct (Nat.eq_dec j i) as [->|]; [exact N|]. apply C. lia.
    + intros j L. destruct (Nat.eq_dec j i) as [->|]; [exact N|]. apply IH. lia.
Qed.
Lemma last_until_spec : forall bound ts i best,
  let r := last_until bound i ts best in
  (r = best /\ forall k, k < List.length ts -> (bound < at_ ts k)%Q) \/
  (exists k, r = i + k /\ k < List.length ts /\ (at_ ts k <= bound)%Q /\ forall m, k < m < List.length ts -> (bound < at_ ts m)%Q).
Proof.
  intros bound. induction ts as [|t ts IH]; intros i best; cbn [last_until]; [left; split; [reflexivity|cbn; lia]|].
  destruct (IH (S i) (if Qle_bool t bound then i else best)) as [(A & B)|(k & A & B & C & D)].
  - destruct (Qle_bool t bound) eqn:E; qb.
    + right. exists 0. rewrite A. split; [lia|]. split; [cbn; lia|]. split; [exact E|]. intros m L. destruct m as [|m]; [lia|]. apply B. cbn in L. lia.
    + left. split; [exact A|]. intros [|k] L; [exact E|]. apply B. cbn in L. lia.
  - right. exists (S k). split; [rewrite A; lia|]. split; [cbn; lia|]. split; [exact C|]. intros [|m] L; [lia|]. apply D. cbn in L. lia.
Qed.
Lemma first_from_spec : forall bound ts i,
  match first_from bound i ts with
  | Some r => exists k, r = i + k /\ k < List.length ts /\ (bound <= at_ ts k)%Q /\ forall m, m < k -> (at_ ts m < bound)%Q
  | None => forall k, k < List.length ts -> (at_ ts k < bound)%Q
  end.
Proof.
  intros bound. induction ts as [|t ts IH]; intros i; cbn [first_from]; [cbn; lia|]. destruct (Qle_bool bound t) eqn:E; qb.
  - exists 0. split; [lia|]. split; [cbn; lia|]. split; [exact E|]. intros m L. lia.
  - specialize (IH (S i)). destruct (first_from bound (S i) ts) as [r|].
    + destruct IH as (k & A & B & C & D). exists (S k). split; [lia|]. split; [cbn; lia|]. split; [exact C|]. intros [|m] L; [exact E|]. apply D. lia.
    + intros [|k] L; [exact E|]. apply IH. cbn in L. lia.
Qed.
Lemma at_skipn : forall (l : list Q) s k, at_ (skipn s l) k = at_ l (s + k).
Proof. intros l s. revert l. induction s as [|s IH]; intros l k; [reflexivity|]. destruct l as [|x l]; [cbn [skipn Nat.add]; unfold at_; now destruct k|]. cbn [skipn Nat.add]. rewrite IH. reflexivity. Qed.
Lemma last_at : forall (l : list Q), last l 0%Q = at_ l (List.length l - 1).
Proof.
  induction l as [|x l IH]; [reflexivity|]. destruct l as [|y l]; [reflexivity|]. change (last (x :: y :: l) 0%Q) with (last (y :: l) 0%Q). rewrite IH.
  unfold at_. cbn [List.length]. replace (S (S (List.length l)) - 1) with (S (List.length l)) by lia. replace (S (List.length l) - 1) with (List.length l) by lia. reflexivity.
Qed.

(** What a window is: from [s] to [e], without [e]. *)
Definition whole_period (period : Q) (ts ds : list Q) (s e : nat) : Prop :=
  S s < e <= List.length ts /\
  (period <= at_ ts (e - 1) - at_ ts s)%Q /\
  (* without one end less than a period is left *)
  ((at_ ts (e - 2) - at_ ts s < period)%Q \/ (at_ ts (e - 1) - at_ ts (S s) < period)%Q) /\
  (* it starts where the signal touches zero, the latest that leaves a period, or the
     signal did not do so before the last period *)
  (touches ds s \/ forall i, i < s -> ~ touches ds i) /\
  (forall i, s < i -> S i < List.length ts -> (at_ ts (S i) <= last ts 0 - period)%Q -> ~ touches ds i).

Lemma window_period : forall period ts ds, (0 < period)%Q -> increasing ts -> ts <> [] -> (at_ ts 0 <= last ts 0 - period)%Q ->
  exists s e, find_window period true ts ds = Ok (s, e) /\ whole_period period ts ds s e.
Proof.
  intros period ts ds P I0 N C. unfold find_window.
  assert (Z : 0 < List.length ts) by (destruct ts; [contradiction|cbn; lia]).
  pose proof (last_at ts) as LA. set (n := List.length ts) in *. set (T := last ts 0%Q) in *.
  assert (MONO : forall i j, i <= j < n -> (at_ ts i <= at_ ts j)%Q).
  { intros i j L. destruct (Nat.eq_dec i j) as [->|]; [lra|]. apply Qlt_le_weak, I0. unfold n in *. lia. }
  destruct (last_until_spec (T - period)%Q ts 0 0) as [(_ & B)|(s0 & A & B & B1 & B2)]; [exfalso; specialize (B 0 Z); lra|].
  cbn [Nat.add] in A. rewrite A. clear A. fold n in B, B2.
  assert (S0 : S s0 < n).
  { destruct (Nat.eq_dec s0 (n - 1)) as [->|]; [|lia]. exfalso. rewrite <- LA in B1. lra. }
  assert (STEP : forall s from, s <= s0 -> (from + period <= T)%Q -> (at_ ts s <= from)%Q ->
    exists e, first_from (from + period)%Q s (skipn s ts) = Some e /\ S s <= e < n /\ (from + period <= at_ ts e)%Q /\ forall m, s <= m < e -> (at_ ts m < from + period)%Q).
  { intros s from L F1 F2. pose proof (first_from_spec (from + period)%Q (skipn s ts) s) as H. destruct (first_from (from + period)%Q s (skipn s ts)) as [r|].
    - destruct H as (k & -> & K1 & K2 & K3). rewrite skipn_length in K1. rewrite at_skipn in K2. exists (s + k). split; [reflexivity|]. fold n in K1.
      split; [|split; [exact K2|]].
      + destruct k as [|k]; [|lia]. exfalso. rewrite Nat.add_0_r in K2. lra.
      + intros m M. specialize (K3 (m - s)). rewrite at_skipn in K3. replace (s + (m - s)) with m in K3 by lia. apply K3. lia.
    - exfalso. specialize (H (n - 1 - s)). rewrite skipn_length, at_skipn in H. fold n in H. replace (s + (n - 1 - s)) with (n - 1) in H by lia. rewrite <- LA in H. specialize (H ltac:(lia)). lra. }
  pose proof (back_walk_spec ds s0) as W. destruct (back_walk ds s0) as [k|].
  - destruct W as (W1 & W2 & W3). change (nth k ts 0%Q) with (at_ ts k).
    destruct (STEP k (at_ ts k)) as (e & E & E1 & E2 & E3); [lia| |lra|].
    + pose proof (MONO k s0 ltac:(lia)). lra.
    + rewrite E. exists k, (S e). split; [reflexivity|]. unfold whole_period. fold n T. replace (S e - 1) with e by lia. replace (S e - 2) with (e - 1) by lia.
      split; [lia|]. split; [lra|]. split; [left; specialize (E3 (e - 1) ltac:(lia)); lra|]. split; [left; exact W2|].
      intros i L1 L2 L3. apply W3. split; [exact L1|]. destruct (Nat.lt_ge_cases i s0) as [G|G]; [exact G|]. exfalso. specialize (B2 (S i) ltac:(lia)). lra.
  - destruct (STEP s0 (T - period)%Q) as (e & E & E1 & E2 & E3); [lia|lra|exact B1|].
    rewrite E. exists s0, (S e). split; [reflexivity|]. unfold whole_period. fold n T. replace (S e - 1) with e by lia.
    assert (E4 : e = n - 1).
    { destruct (Nat.eq_dec e (n - 1)) as [|Ne]; [assumption|]. exfalso. assert (at_ ts e < at_ ts (n - 1))%Q by (apply I0; unfold n in *; lia). rewrite <- LA in H. lra. }
    subst e. split; [lia|]. rewrite <- LA. split; [lra|]. split; [right; specialize (B2 (S s0) ltac:(lia)); lra|]. split; [right; exact W|].
    intros i L1 L2 L3. exfalso. specialize (B2 (S i) ltac:(lia)). lra.
Qed.

Lemma text_eqb_refl : forall n, text_eqb n n = true.
Proof. induction n as [|c n IH]; [reflexivity|]. cbn. now rewrite Ascii.eqb_refl. Qed.
(** A signal on an axis not used before that covers a period: what is given back is a
    run of its samples, a whole period and no more than one step longer, counted from
    zero, starting where the signal touches zero if it can.  There is no error. *)
Theorem C206_period : forall f name ts ds c, (0 < f)%Q -> increasing ts -> ts <> [] -> List.length ds = List.length ts ->
  window_of name c = None -> (at_ ts 0 <= last ts 0 - 1 / f)%Q ->
  exists s e c', whole_period (1 / f) ts ds s e /\
    get_one_period f true name (Some ts) ds c = Ok ((map (fun t => t - at_ ts s)%Q (firstn (e - s) (skipn s ts)), firstn (e - s) (skipn s ds)), c').
Proof.
  intros f name ts ds c P I0 N L W C. assert (PP : (0 < 1 / f)%Q) by (unfold Qdiv; rewrite Qmult_1_l; now apply Qinv_lt_0_compat).
  destruct (window_period (1 / f)%Q ts ds PP I0 N C) as (s & e & E & H). exists s, e, ((name, (s, e)) :: c). split; [exact H|].
  unfold get_one_period. rewrite L, Nat.eqb_refl. cbn [negb]. destruct ts as [|t ts]; [contradiction|]. rewrite W, E. cbn [bind].
  destruct H as (H & _). rewrite (proj2 (Nat.ltb_ge (List.length (t :: ts)) e)) by lia. rewrite (proj2 (Nat.leb_gt e s)) by lia. reflexivity.
Qed.
Example C206_witness : exists c', get_one_period (1 # 2) true [] (Some [0; 1; 2; 3; 4]%Q) [- 1; 1; 2; 3; 4]%Q [] =
    Ok (([0; 1; 2]%Q, [- 1; 1; 2]%Q), c') /\ increasing [0; 1; 2; 3; 4]%Q /\ (at_ [0; 1; 2; 3; 4] 0 <= last [0; 1; 2; 3; 4] 0 - 1 / (1 # 2))%Q.
Proof.
  eexists. split; [vm_compute; reflexivity|]. split; [|vm_compute; discriminate].
  intros i j (L1 & L2). cbn [List.length] in L2. assert (D : forall k, k < 5 -> (at_ [0; 1; 2; 3; 4] k == inject_Z (Z.of_nat k))%Q) by (intros k K; do 5 (destruct k as [|k]; [reflexivity|]); lia).
  rewrite !D by lia. rewrite <- Zlt_Qlt. lia.
Qed.

(** Full claim: a signal that does not last a period is refused, as the message on
    insufficient data says.  False: it is given back whole. *)
Theorem C206_short_refuted : forall f name ts ds c align, (0 < f)%Q -> increasing ts -> ts <> [] -> List.length ds = List.length ts ->
  window_of name c = None -> (last ts 0 - 1 / f < at_ ts 0)%Q ->
  exists c', get_one_period f align name (Some ts) ds c = Ok ((map (fun t => t - at_ ts 0)%Q ts, ds), c').
Proof.
  intros f name ts ds c align P I0 N L W C. exists ((name, (0, List.length ts)) :: c).
  assert (Z : 0 < List.length ts) by (destruct ts; [contradiction|cbn; lia]). pose proof (last_at ts) as LA.
  assert (F : find_window (1 / f)%Q align ts ds = Ok (0, List.length ts)).
  { unfold find_window. set (T := last ts 0%Q) in *. assert (MONO : forall k, k < List.length ts -> (at_ ts 0 <= at_ ts k)%Q).
    { intros [|k] K; [lra|]. apply Qlt_le_weak, I0. lia. }
    destruct (last_until_spec (T - 1 / f)%Q ts 0 0) as [(A & _)|(k & _ & K & K1 & _)]; [|exfalso; specialize (MONO k K); lra].
    rewrite A. cbn [back_walk]. assert (X : (if align then (0, (T - 1 / f)%Q) else (0, (T - 1 / f)%Q)) = (0, (T - 1 / f)%Q)) by (now destruct align). rewrite X. cbn [skipn].
    pose proof (first_from_spec (T - 1 / f + 1 / f)%Q ts 0) as H. destruct (first_from (T - 1 / f + 1 / f)%Q 0 ts) as [r|].
    - destruct H as (k & -> & K1 & K2 & K3). cbn [Nat.add]. assert (k = List.length ts - 1); [|subst k; repeat f_equal; lia].
      destruct (Nat.eq_dec k (List.length ts - 1)) as [|Nk]; [assumption|]. exfalso. assert (at_ ts k < at_ ts (List.length ts - 1))%Q by (apply I0; lia). rewrite <- LA in H. lra.
    - exfalso. specialize (H (List.length ts - 1) ltac:(lia)). rewrite <- LA in H. lra. }
  unfold get_one_period. rewrite L, Nat.eqb_refl. cbn [negb]. destruct ts as [|t ts]; [contradiction|]. rewrite W, F. cbn [bind]. rewrite Nat.ltb_irrefl.
  cbn [List.length Nat.leb orb]. unfold slice. rewrite Nat.sub_0_r. cbn [skipn]. change (S (List.length ts)) with (List.length (t :: ts)). rewrite firstn_all, <- L, firstn_all. reflexivity.
Qed.
Example C206_short_witness : exists c', get_one_period 1 true [] (Some [0; 1 # 2]%Q) [5; 6]%Q [] = Ok (([0; 1 # 2]%Q, [5; 6]%Q), c').
Proof. eexists. vm_compute. reflexivity. Qed.

(** Signals on one axis stay aligned: a second signal is cut at the same samples as
    the first. *)
Theorem C206_aligned : forall f f' align align' name ts ds ds' c c' w, List.length ds' = List.length ts ->
  get_one_period f align name (Some ts) ds c = Ok (w, c') ->
  exists s e, snd w = firstn (e - s) (skipn s ds) /\ fst w = map (fun t => t - at_ ts s)%Q (firstn (e - s) (skipn s ts)) /\ s < e <= List.length ts /\
    get_one_period f' align' name (Some ts) ds' c' = Ok ((fst w, firstn (e - s) (skipn s ds')), c').
Proof.
  intros f f' align align' name ts ds ds' c c' w L' H. unfold get_one_period in H. destruct (negb (List.length ds =? List.length ts)) eqn:E; [discriminate|].
  apply negb_false_iff, Nat.eqb_eq in E. destruct ts as [|t ts]; [discriminate|]. set (T := t :: ts) in *.
  assert (F : exists s e, window_of name c' = Some (s, e) /\ (List.length ds <? e) || (e <=? s) = false /\ w = (map (fun t => t - nth s T 0)%Q (slice s e T), slice s e ds)).
  { destruct (window_of name c) as [(s, e)|] eqn:W; cbn [bind] in H.
    - destruct ((List.length ds <? e) || (e <=? s)) eqn:B; [discriminate|]. injection H as <- <-. exists s, e. auto.
    - destruct (find_window (1 / f)%Q align T ds) as [(s, e)|x|x|]; cbn [bind] in H; try discriminate. destruct ((List.length ds <? e) || (e <=? s)) eqn:B; [discriminate|]. injection H as <- <-. exists s, e. cbn [window_of]. rewrite text_eqb_refl. auto. }
  destruct F as (s & e & W & B & ->). exists s, e. cbn [fst snd]. split; [reflexivity|]. split; [reflexivity|].
  apply orb_false_iff in B. destruct B as (B1 & B2). apply Nat.ltb_ge in B1. apply Nat.leb_gt in B2. split; [lia|].
  unfold get_one_period. rewrite L', Nat.eqb_refl. cbn [negb]. unfold T at 1. rewrite W. cbn [bind]. rewrite (proj2 (Nat.ltb_ge _ _)) by lia. rewrite (proj2 (Nat.leb_gt _ _)) by lia. reflexivity.
Qed.
(** Full claim: the waveform lasts a period of the frequency that is asked for.
    False: the window of the first question on an axis answers all later ones. *)
Theorem C206_frequency_refuted : forall f f' name ts ds c c' w, List.length ds = List.length ts ->
  get_one_period f true name (Some ts) ds c = Ok (w, c') -> get_one_period f' true name (Some ts) ds c' = Ok (w, c').
Proof.
  intros f f' name ts ds c c' w L H. destruct (C206_aligned f f' true true name ts ds ds c c' w L H) as (s & e & A & B & _ & D). rewrite D, <- A. now destruct w.
Qed.
Example C206_frequency_witness : exists c', get_one_period 1 true [] (Some [0; 1; 2; 3]%Q) [1; - 1; 1; - 1]%Q [] = Ok (([0; 1]%Q, [- 1; 1]%Q), c') /\
  get_one_period (1 # 2) true [] (Some [0; 1; 2; 3]%Q) [1; - 1; 1; - 1]%Q [] <> get_one_period (1 # 2) true [] (Some [0; 1; 2; 3]%Q) [1; - 1; 1; - 1]%Q c'.
Proof. eexists. split; [vm_compute; reflexivity|]. vm_compute. discriminate. Qed.

(** From two columns of a file: if the axis can be a time the period is found, repeated
    times or not. *)
Lemma collapse_fst_last : forall ts ds, List.length ts = List.length ds -> last (map fst (collapse ts ds)) 0%Q = last ts 0%Q.
Proof.
  induction ts as [|t ts IH]; intros ds L; [destruct ds; reflexivity|]. destruct ds as [|d ds]; [discriminate|]. cbn [collapse]. destruct ts as [|u ts]; [reflexivity|].
  assert (L' : List.length (u :: ts) = List.length ds) by (cbn in *; lia). change (last (t :: u :: ts) 0%Q) with (last (u :: ts) 0%Q).
  destruct (Qeq_bool t u); [apply IH, L'|]. cbn [map fst]. rewrite <- (IH ds L'). destruct (collapse (u :: ts) ds) as [|p l] eqn:E; [|reflexivity].
  exfalso. clear -E L'. revert ds u E L'. induction ts as [|v ts IH]; intros ds u E L; destruct ds as [|d ds]; try discriminate. cbn [collapse] in E. destruct (Qeq_bool u v); [|discriminate]. apply (IH ds v E). cbn in *. lia.
Qed.
Lemma sorted_increasing : forall l, StronglySorted later l -> increasing (map fst l).
Proof.
  intros l S. induction S as [|p l S IH F]; intros i j (L1 & L2); cbn [map List.length] in L2; [lia|]. destruct j as [|j]; [lia|]. destruct i as [|i]; cbn [map].
  - change (fst p < at_ (map fst l) j)%Q. assert (K : In (at_ (map fst l) j) (map fst l)) by (apply nth_In; lia). apply in_map_iff in K. destruct K as (q & <- & K). rewrite Forall_forall in F. apply (F q K).
  - apply (IH i j). lia.
Qed.
Theorem C206_import : forall f signal axis c, (0 < f)%Q -> can_be_time (cdata axis) = Ok true ->
  List.length (cdata signal) = List.length (cdata axis) -> window_of (cname axis) c = None ->
  exists ts ds c', extract_waveform f signal axis c = Ok ((ts, ds), c') /\
    ts <> [] /\ List.length ds = List.length ts /\ increasing ts /\ (at_ ts 0 == 0)%Q /\
    (* a whole period if the file has one, else all of it *)
    ((1 / f <= last ts 0)%Q \/ (last ts 0 == last (cdata axis) 0 - at_ (cdata axis) 0)%Q) /\
    forall d, In d ds -> In d (cdata signal).
Proof.
  intros f signal axis c P T L W. destruct (C205_time (cdata axis)) as (b & B & R); [intro E; rewrite E in T; discriminate|].
  rewrite T in B. injection B as <-. destruct (proj1 R eq_refl) as (S & x & y & r & E & LT). clear R.
  pose proof (C205_repeated (cdata axis) (cdata signal) (eq_sym L) S) as (S1 & S2 & S3). cbn zeta in *.
  unfold extract_waveform. rewrite L, Nat.eqb_refl. cbn [negb]. set (w := collapse (cdata axis) (cdata signal)) in *.
  assert (IN : increasing (map fst w)) by (apply sorted_increasing, S1).
  assert (NE : map fst w <> []).
  { destruct (S2 x) as (p & A & _); [rewrite E; left; reflexivity|]. destruct w; [destruct A|discriminate]. }
  assert (LW : List.length (map snd w) = List.length (map fst w)) by (now rewrite !map_length).
  assert (LAST : last (map fst w) 0%Q = last (cdata axis) 0%Q) by (apply collapse_fst_last; symmetry; exact L).
  assert (FIRST : (at_ (map fst w) 0 == at_ (cdata axis) 0)%Q).
  { destruct (S2 x) as (p & A & A1); [rewrite E; left; reflexivity|]. replace (at_ (cdata axis) 0) with x by (rewrite E; reflexivity).
    destruct w as [|q w']; [destruct A|]. cbn [map at_ nth]. change (at_ (fst q :: map fst w') 0) with (fst q). destruct A as [->|A]; [exact A1|].
    exfalso. inversion S1 as [|? ? _ F]; subst. rewrite Forall_forall in F. specialize (F p A). unfold later in F. destruct (S3 q (or_introl eq_refl)) as (i & I1 & _).
    assert (x <= fst q)%Q; [|lra]. rewrite E in S. inversion S as [|? ? _ G]; subst. rewrite E in I1. destruct i as [|i]; [injection I1 as <-; lra|]. cbn [nth_error] in I1. rewrite Forall_forall in G. apply G, (nth_error_In _ _ I1). }
  assert (DATA : forall s e d, In d (firstn (e - s) (skipn s (map snd w))) -> In d (cdata signal)).
  { intros s e d H. assert (K : In d (map snd w)). { rewrite <- (firstn_skipn s (map snd w)). apply in_or_app. right. rewrite <- (firstn_skipn (e - s) (skipn s (map snd w))). apply in_or_app. left. exact H. }
    apply in_map_iff in K. destruct K as (p & <- & K). destruct (S3 p K) as (i & _ & I2 & _). apply (nth_error_In _ _ I2). }
  assert (SHIFT : forall l t k, k < List.length l -> at_ (map (fun u => u - t)%Q l) k = (at_ l k - t)%Q).
  { intros l t k K. unfold at_. rewrite (nth_indep _ 0%Q (0 - t)%Q) by (rewrite map_length; exact K). apply (map_nth (fun u => u - t)%Q). }
  assert (CUT : forall (l : list Q) s e k, k < e - s -> at_ (firstn (e - s) (skipn s l)) k = at_ l (s + k)).
  { intros l s e k K. rewrite <- at_skipn. generalize (skipn s l). intro m. revert k K. generalize (e - s). intro n. revert m. induction n as [|n IH]; intros m k K; [lia|]. destruct m as [|v m]; [unfold at_; now destruct k|]. destruct k as [|k]; [reflexivity|]. change (at_ (firstn n m) k = at_ m k). apply IH. lia. }
  destruct (Qlt_le_dec (last (map fst w) 0 - 1 / f)%Q (at_ (map fst w) 0)) as [C|C].
  - destruct (C206_short_refuted f (cname axis) (map fst w) (map snd w) c true P IN NE LW W C) as (c' & H). rewrite H.
    eexists _, _, c'. split; [reflexivity|]. split; [destruct (map fst w); [contradiction|discriminate]|]. split; [rewrite LW; symmetry; apply map_length|].
    assert (Z : 0 < List.length (map fst w)) by (destruct (map fst w); [contradiction|cbn; lia]).
    split; [|split; [|split]].
    + intros i j (L1 & L2). rewrite map_length in L2. rewrite !SHIFT by lia. specialize (IN i j ltac:(lia)). lra.
    + rewrite SHIFT by exact Z. lra.
    + right. rewrite last_at, map_length, SHIFT by lia. rewrite <- last_at, LAST, FIRST. reflexivity.
    + intros d H1. apply (DATA 0 (List.length (map snd w))). rewrite Nat.sub_0_r. cbn [skipn]. now rewrite firstn_all.
  - destruct (C206_period f (cname axis) (map fst w) (map snd w) c P IN NE LW W C) as (s & e & c' & ((Q1 & Q1') & Q2 & _) & H). rewrite H.
    assert (LEN : forall l : list Q, List.length l = List.length (map fst w) -> List.length (firstn (e - s) (skipn s l)) = e - s) by (intros l LL; rewrite firstn_length, skipn_length, LL; lia).
    eexists _, _, c'. split; [reflexivity|]. split; [|split; [|split; [|split; [|split]]]].
    + intro Z. apply (f_equal (@List.length Q)) in Z. rewrite map_length, LEN in Z by reflexivity. cbn in Z. lia.
    + rewrite map_length, !LEN by (exact LW || reflexivity). reflexivity.
    + intros i j (L1 & L2). rewrite map_length, LEN in L2 by reflexivity. rewrite !SHIFT by (rewrite LEN by reflexivity; lia). rewrite !CUT by lia. specialize (IN (s + i) (s + j) ltac:(lia)). lra.
    + rewrite SHIFT by (rewrite LEN by reflexivity; lia). rewrite CUT by lia. rewrite Nat.add_0_r. lra.
    + left. rewrite last_at, map_length, LEN by reflexivity. rewrite SHIFT by (rewrite LEN by reflexivity; lia). rewrite CUT by lia. replace (s + (e - s - 1)) with (e - 1) by lia. exact Q2.
    + intros d. apply DATA.
Qed.
(** Refused, never undefined: no time, columns of different lengths, a window of another
    axis with the same name that does not fit; only an empty waveform is undefined
    behaviour, and no axis that can be a time gives one. *)
Theorem C206_refused : forall f align name ts ds c,
  (exists w, get_one_period f align name None ds c = Throw w) /\
  (List.length ds <> List.length ts -> exists w, get_one_period f align name (Some ts) ds c = Throw w) /\
  (forall s e, ts <> [] -> List.length ds = List.length ts -> window_of name c = Some (s, e) ->
     (s < e <= List.length ts <-> exists r, get_one_period f align name (Some ts) ds c = Ok r)) /\
  (forall w, get_one_period f align name (Some ts) ds c = UB w -> ts = [] /\ ds = []).
Proof.
  intros f align name ts ds c. split; [eexists; reflexivity|]. split; [|split].
  - intro N. unfold get_one_period. rewrite (proj2 (Nat.eqb_neq _ _) N). eexists. reflexivity.
  - intros s e N L W. unfold get_one_period. rewrite L, Nat.eqb_refl. cbn [negb]. destruct ts as [|t ts]; [contradiction|]. rewrite W. cbn [bind]. split.
    + intros (A & B). rewrite (proj2 (Nat.ltb_ge _ _) B), (proj2 (Nat.leb_gt _ _) A). eexists. reflexivity.
    + intros (r & H). destruct (Nat.ltb_spec (List.length (t :: ts)) e); [discriminate|]. destruct (Nat.leb_spec e s); [discriminate|]. auto.
  - intros w H. unfold get_one_period in H. destruct (negb (List.length ds =? List.length ts)) eqn:E; [discriminate|]. apply negb_false_iff, Nat.eqb_eq in E. destruct ts as [|t ts]; [destruct ds; [auto|discriminate]|]. exfalso.
    destruct (window_of name c) as [(s, e)|]; cbn [bind] in H; [destruct ((List.length ds <? e) || (e <=? s)); discriminate|].
    destruct (find_window (1 / f)%Q align (t :: ts) ds) as [(s, e)|x|x|] eqn:F; cbn [bind] in H; try discriminate; [destruct ((List.length ds <? e) || (e <=? s)); discriminate|].
    unfold find_window in F. destruct (if align then _ else _) as (s, q). destruct (first_from _ _ _); discriminate.
Qed.
Print Assumptions C205_time.
Print Assumptions C205_empty.
Print Assumptions C205_found.
Print Assumptions C205_repeated.
Print Assumptions C206_period.
Print Assumptions C206_short_refuted.
Print Assumptions C206_aligned.
Print Assumptions C206_frequency_refuted.
Print Assumptions C206_import.
Print Assumptions C206_refused.
