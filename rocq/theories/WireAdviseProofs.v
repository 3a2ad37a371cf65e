(** Facts about the wire adviser used in WireAdviseProperties.v. *)
From Coq Require Import QArith List Bool String ZArith Lia Lqa Permutation Sorting.
From Verif Require Import Base QAux UtilsNumModel UtilsNumProofs GateModel WireAdviseModel.
Import ListNotations.
Local Open Scope Q_scope.

Lemma bind_ok : forall (A B : Type) (m : outcome A) (f : A -> outcome B) b, bind m f = Ok b -> exists a, m = Ok a /\ f a = Ok b.
Proof. intros A B [a|w|w|] f b H; try discriminate. exists a. auto. Qed.

(** * Sorting *)
Lemma insert_perm : forall (A : Type) before (x : A) l, Permutation (insert_by before x l) (x :: l).
Proof.
  induction l as [|y r IH]; [reflexivity|]. cbn [insert_by]. destruct (before y x); [|reflexivity].
  rewrite IH. apply perm_swap.
Qed.
Lemma sort_perm : forall (A : Type) before (l : list A), Permutation (sort_by before l) l.
Proof. induction l as [|x r IH]; [reflexivity|]. cbn [sort_by]. rewrite insert_perm. now constructor. Qed.

(** The order of the result: no element should go before an earlier one. *)
Section Order.
Variable A : Type.
Variable before : A -> A -> bool.
Hypothesis asym : forall a b, before a b = true -> before b a = false.
Hypothesis negtrans : forall a b c, before b a = false -> before c b = false -> before c a = false.
Definition in_order (l : list A) : Prop := StronglySorted (fun a b => before b a = false) l.
Lemma insert_order : forall x l, in_order l -> in_order (insert_by before x l).
Proof.
  intros x l S. induction S as [|y r S IH F]; cbn [insert_by]; [repeat constructor|].
  destruct (before y x) eqn:E.
  - constructor; [exact IH|]. apply Forall_forall. intros z I0. apply (Permutation_in _ (insert_perm _ before x r)) in I0.
    destruct I0 as [<-|I0]; [apply asym, E|]. rewrite Forall_forall in F. apply F, I0.
  - constructor; [constructor; assumption|]. constructor; [exact E|]. apply Forall_forall. intros z I0. rewrite Forall_forall in F.
    apply (negtrans x y z); [exact E|apply F, I0].
Qed.
Lemma sort_order : forall l, in_order (sort_by before l).
Proof. induction l; [constructor|]. apply insert_order. assumption. Qed.
(** Elements that do not go before each other keep their order. *)
End Order.

Lemma higher_asym : forall a b, higher a b = true -> higher b a = false.
Proof. intros a b H. unfold higher in *. apply Qlt_bool_false. qb. lra. Qed.
Lemma higher_negtrans : forall a b c, higher b a = false -> higher c b = false -> higher c a = false.
Proof. intros a b c H K. unfold higher in *. apply Qlt_bool_false. qb. lra. Qed.

Lemma thinner_asym : forall a b, thinner a b = true -> thinner b a = false.
Proof. intros a b. unfold thinner. destruct (bulk a), (bulk b); intro H; try reflexivity; try discriminate. apply Qlt_bool_false. qb. lra. Qed.
Lemma thinner_negtrans : forall a b c, thinner b a = false -> thinner c b = false -> thinner c a = false.
Proof. intros a b c. unfold thinner. destruct (bulk a), (bulk b), (bulk c); intros H K; try reflexivity; try discriminate. apply Qlt_bool_false. qb. lra. Qed.
Lemma ahead_false : forall a b, ahead b a = false <-> snd b < snd a \/ (snd b == snd a /\ thinner (fst (fst b)) (fst (fst a)) = false).
Proof.
  intros a b. unfold ahead. destruct (Qeq_bool (snd b) (snd a)) eqn:E; cbn [negb].
  - apply Qeq_bool_iff in E. split; intro H; [right; auto|]. destruct H as [H|H]; [lra|apply H].
  - apply Qeq_bool_neq in E. split; intro H.
    + left. qb. destruct (Qlt_le_dec (snd b) (snd a)); [assumption|]. exfalso. apply E. lra.
    + destruct H as [H|(H & _)]; [|contradiction]. apply Qlt_bool_false. lra.
Qed.
Lemma ahead_asym : forall a b, ahead a b = true -> ahead b a = false.
Proof.
  intros a b H. apply ahead_false. unfold ahead in H. destruct (Qeq_bool (snd a) (snd b)) eqn:E; cbn [negb] in H.
  - apply Qeq_bool_iff in E. right. split; [symmetry; exact E|apply thinner_asym, H].
  - left. qb. exact H.
Qed.
Lemma ahead_negtrans : forall a b c, ahead b a = false -> ahead c b = false -> ahead c a = false.
Proof.
  intros a b c H K. apply ahead_false in H, K. apply ahead_false.
  destruct H as [H|(H & H')], K as [K|(K & K')]; [left; lra|left; lra|left; lra|].
  right. split; [lra|]. eapply thinner_negtrans; eassumption.
Qed.
Lemma break_ties_perm : forall l, Permutation (break_ties l) l.
Proof. intro l. unfold break_ties. destruct (Nat.ltb _ 2); [reflexivity|apply sort_perm]. Qed.
Lemma break_ties_order : forall l, in_order _ ahead (break_ties l).
Proof.
  intro l. unfold break_ties. destruct (Nat.ltb (List.length l) 2) eqn:E.
  - apply Nat.ltb_lt in E. destruct l as [|x [|y l]]; [constructor|repeat constructor|cbn in E; lia].
  - apply sort_order; [apply ahead_asym|apply ahead_negtrans].
Qed.

(** * One filter *)
Section Stage.
Variable ev : candidate -> outcome (bool * option Q).
Definition valid (c : candidate) : bool := match ev c with Ok (b, _) => b | _ => false end.
Definition score (c : candidate) : option Q := match ev c with Ok (_, x) => x | _ => None end.
Definition raw (c : candidate) : Q := match score c with Some q => q | None => 0 end.
Definition kept (l : ranked) : ranked := filter (fun x => valid (fst x)) l.

Lemma judge_spec : forall l i sc er, judge ev i l = Ok (sc, er) ->
  sc = map (fun x => score (fst x)) (kept l) /\ erase i er l = kept l /\ Forall (fun k => (i <= k)%nat) er /\
  (forall x, In x l -> exists v, ev (fst x) = Ok v).
Proof.
  induction l as [|x l IH]; intros i sc er H; cbn [judge] in H.
  - injection H as <- <-. repeat split; [constructor|intros x []].
  - apply bind_ok in H. destruct H as (v & E & H). apply bind_ok in H. destruct H as ((sc' & er') & J & H).
    cbn [fst snd] in H. destruct (IH _ _ _ J) as (A & B & F & D). unfold kept. cbn [filter].
    assert (V : valid (fst x) = fst v) by (unfold valid; rewrite E; destruct v; reflexivity).
    assert (S0 : score (fst x) = snd v) by (unfold score; rewrite E; destruct v; reflexivity).
    rewrite V. destruct (fst v) eqn:EV; injection H as <- <-.
    + split; [cbn [map]; now rewrite S0, A|]. split.
      * cbn [erase]. destruct er' as [|k er']; [now rewrite B|]. inversion F as [|? ? Hk F']. subst.
        replace (Nat.eqb i k) with false by (symmetry; apply Nat.eqb_neq; lia). now rewrite B.
      * split; [eapply Forall_impl; [|exact F]; cbn; intros; lia|]. intros y [<-|I0]; [eauto|apply D, I0].
    + split; [exact A|]. split; [cbn [erase]; rewrite Nat.eqb_refl; exact B|].
      split; [constructor; [lia|eapply Forall_impl; [|exact F]; cbn; intros; lia]|]. intros y [<-|I0]; [eauto|apply D, I0].
Qed.

(** What one filter adds to a score. *)
Definition fair_term (inv : bool) (k : ranked) (term : candidate -> Q) : Prop :=
  (forall x, In x k -> 0 <= term (fst x) <= 1) /\
  (forall x y, In x k -> In y k -> raw (fst x) <= raw (fst y) ->
     if inv then term (fst y) <= term (fst x) else term (fst x) <= term (fst y)) /\
  (forall x y, In x k -> In y k -> raw (fst x) < raw (fst y) ->
     if inv then term (fst y) < term (fst x) else term (fst x) < term (fst y)) /\
  (k <> [] -> exists x, In x k /\ term (fst x) == 1) /\
  (forall x y, In x k -> In y k -> raw (fst x) < raw (fst y) -> exists z, In z k /\ term (fst z) == 0).

Lemma add_terms : forall (term : candidate -> Q) (k : ranked),
  map (fun '((c, s), x) => (c, s + x)) (combine k (map (fun x => term (fst x)) k)) = map (fun x => (fst x, snd x + term (fst x))) k.
Proof. induction k as [|(c, s) k IH]; [reflexivity|]. cbn [map combine fst snd]. now rewrite IH. Qed.

Lemma finite_all : forall (sc : list (option Q)), forallb is_finite sc = true -> sc = map Some (map (fun o => match o with Some q => q | None => 0 end) sc).
Proof. induction sc as [|[q|] sc IH]; intro H; [reflexivity| |discriminate]. cbn [map]. cbn in H. now rewrite <- IH. Qed.

Lemma stage_spec : forall inv l l', stage ev inv l = Ok l' ->
  (forall x, In x l -> exists v, ev (fst x) = Ok v) /\
  (forall x, In x (kept l) -> exists q, score (fst x) = Some q) /\
  in_order _ higher l' /\
  exists term, fair_term inv (kept l) term /\ Permutation l' (map (fun x => (fst x, snd x + term (fst x))) (kept l)).
Proof.
  intros inv l l' H. unfold stage in H. apply bind_ok in H. destruct H as ((sc & er) & J & H). cbn [fst snd] in H.
  destruct (judge_spec _ _ _ _ J) as (A & B & _ & D). rewrite B in H. split; [exact D|].
  destruct (Nat.eqb _ _); [|discriminate]. destruct (kept l) as [|x0 k] eqn:EK.
  - injection H as <-. split; [intros x []|]. split; [constructor|]. exists (fun _ => 0). split; [|reflexivity].
    split; [intros x []|]. split; [intros x y []|]. split; [intros x y []|]. split; [intro X; now elim X|intros x y []].
  - rewrite <- EK in *. clear B D J er. unfold rate in H. destruct (forallb is_finite sc) eqn:FI; [|discriminate].
    assert (FS : forall x, In x (kept l) -> exists q, score (fst x) = Some q).
    { intros x I0. rewrite forallb_forall in FI. assert (I1 : In (score (fst x)) sc) by (rewrite A; apply (in_map (fun x => score (fst x))), I0).
      specialize (FI _ I1). destruct (score (fst x)) as [q|]; [eauto|discriminate]. }
    split; [exact FS|].
    assert (SC : sc = map Some (map (fun x => raw (fst x)) (kept l))).
    { rewrite (finite_all sc FI), A, !map_map. reflexivity. }
    rewrite SC, EK in H. cbn [map] in H. rewrite <- (map_cons Some) in H. rewrite normalize_scoring_some in H. cbn [bind] in H.
    set (mx := Qmaxl _ _) in H. set (mn := Qminl _ _) in H.
    assert (MX : In mx (map (fun x => raw (fst x)) (kept l)) /\ forall v, In v (map (fun x => raw (fst x)) (kept l)) -> v <= mx) by (rewrite EK; apply Qmaxl_spec).
    assert (MN : In mn (map (fun x => raw (fst x)) (kept l)) /\ forall v, In v (map (fun x => raw (fst x)) (kept l)) -> mn <= v) by (rewrite EK; apply Qminl_spec).
    clearbody mx mn. change (raw (fst x0) :: map (fun x => raw (fst x)) k) with (map (fun x => raw (fst x)) (x0 :: k)) in H. rewrite <- EK in H.
    rewrite map_map in H. rewrite add_scores_ok in H by (now rewrite map_length).
    rewrite (add_terms (fun c => normalize_one mx mn 1 inv (raw c))) in H. cbn [bind] in H. injection H as <-.
    split; [apply sort_order; [apply higher_asym|apply higher_negtrans]|].
    exists (fun c => normalize_one mx mn 1 inv (raw c)). split; [|apply sort_perm].
    assert (RG : forall x, In x (kept l) -> mn <= raw (fst x) /\ raw (fst x) <= mx).
    { intros x I0. split; [apply (proj2 MN)|apply (proj2 MX)]; apply (in_map (fun x => raw (fst x))), I0. }
    clear SC FI A FS sc. destruct (Qlt_le_dec mn mx) as [L|L].
    + split; [intros x I0; destruct (RG x I0); apply normalize_one_range; lra|]. split; [|split; [|split]].
      * intros x y _ _ R. destruct (normalize_one_mono mx mn 1 _ _ ltac:(lra) L R). destruct inv; assumption.
      * intros x y _ _ R. destruct (normalize_one_strict mx mn 1 _ _ ltac:(lra) L R). destruct inv; assumption.
      * intros _. destruct (normalize_one_ends mx mn 1 L) as (E1 & E2 & E3 & E4).
        destruct inv; [destruct MN as (I0 & _)|destruct MX as (I0 & _)]; apply in_map_iff in I0; destruct I0 as (x & <- & I0); exists x; auto.
      * intros _ _ _ _ _. destruct (normalize_one_ends mx mn 1 L) as (E1 & E2 & E3 & E4).
        destruct inv; [destruct MX as (I0 & _)|destruct MN as (I0 & _)]; apply in_map_iff in I0; destruct I0 as (x & <- & I0); exists x; auto.
    + assert (E : mx == mn). { pose proof (RG x0) as R0. rewrite EK in R0. specialize (R0 (or_introl eq_refl)). lra. }
      assert (Z : forall c, normalize_one mx mn 1 inv (raw c) = 1) by (intro c; apply (normalize_one_eq mx mn 1 inv E)).
      split; [intros x _; rewrite Z; lra|]. split; [intros x y _ _ _; rewrite !Z; destruct inv; lra|]. split; [|split].
      * intros x y I0 I1 R. destruct (RG x I0), (RG y I1). lra.
      * intros _. exists x0. rewrite Z. split; [rewrite EK; left; reflexivity|reflexivity].
      * intros x y I0 I1 R. destruct (RG x I0), (RG y I1). lra.
Qed.
End Stage.

Lemma order_firstn : forall (A : Type) before n (l : list A), in_order A before l -> in_order A before (firstn n l).
Proof.
  intros A before n l S. revert n. induction S as [|x r S IH F]; intros [|n]; cbn [firstn]; try constructor; [apply IH|].
  apply Forall_forall. intros y I0. rewrite Forall_forall in F. apply F. clear - I0. revert n I0. induction r as [|z r IHr]; intros [|n] I0; try contradiction.
  destruct I0 as [<-|I0]; [left; reflexivity|right; eapply IHr, I0].
Qed.
Lemma in_firstn : forall (A : Type) n (l : list A) x, In x (firstn n l) -> In x l.
Proof. intros A n. induction n as [|n IH]; intros [|y l] x I0; try contradiction. destruct I0 as [<-|I0]; [left; reflexivity|right; apply IH, I0]. Qed.
Lemma kept_all : forall ev l, (forall c, valid ev c = true) -> kept ev l = l.
Proof. intros ev l H. unfold kept. induction l as [|x l IH]; [reflexivity|]. cbn [filter]. now rewrite H, IH. Qed.

(** * The scores that do not sort out *)
Section Scored.
Variable ph : physics.
Variable j : job.
Definition figure_le (a b : option Q) : Prop := match a, b with Some x, Some y => x <= y | _, _ => False end.
Definition figure_lt (a b : option Q) : Prop := match a, b with Some x, Some y => x < y | _, _ => False end.
Definition effect (f : Q) (c : candidate) : option Q := score (by_proximity ph j f) c.
Definition no_worse (f : Q) (c d : candidate) : Prop :=
  figure_le (resistance ph (fst c) f) (resistance ph (fst d) f) /\
  (harmonics j = true -> figure_le (skin ph (fst c)) (skin ph (fst d))) /\
  figure_le (effect f c) (effect f d).
Definition better (f : Q) (c d : candidate) : Prop :=
  figure_lt (resistance ph (fst c) f) (resistance ph (fst d) f) \/
  (harmonics j = true /\ figure_lt (skin ph (fst c)) (skin ph (fst d))) \/
  figure_lt (effect f c) (effect f d).

Lemma le_raw : forall ev c d, figure_le (score ev c) (score ev d) -> raw ev c <= raw ev d.
Proof. intros ev c d. unfold raw. destruct (score ev c), (score ev d); cbn; tauto. Qed.
Lemma lt_raw : forall ev c d, figure_lt (score ev c) (score ev d) -> raw ev c < raw ev d.
Proof. intros ev c d. unfold raw. destruct (score ev c), (score ev d); cbn; tauto. Qed.

(** A list with terms added to its scores, in another order. *)
Definition regraded (t : candidate -> Q) (l l' : ranked) : Prop :=
  exists g : candidate -> Q -> Q, (forall c s, g c s == s + t c) /\ Permutation l' (map (fun x => (fst x, g (fst x) (snd x))) l).
Lemma regraded_refl : forall l, regraded (fun _ => 0) l l.
Proof. intro l. exists (fun _ s => s). split; [intros; lra|]. rewrite <- (map_id l) at 1. apply Permutation_refl', map_ext. now intros []. Qed.
Lemma regraded_perm : forall t l l' l'', regraded t l l' -> Permutation l'' l' -> regraded t l l''.
Proof. intros t l l' l'' (g & G & P) Q0. exists g. split; [exact G|]. now rewrite Q0. Qed.
Lemma regraded_step : forall t t' l l' l'', regraded t l l' -> Permutation l'' (map (fun x => (fst x, snd x + t' (fst x))) l') ->
  regraded (fun c => t c + t' c) l l''.
Proof.
  intros t t' l l' l'' (g & G & P) Q0. exists (fun c s => g c s + t' c). split; [intros; rewrite G; ring|].
  rewrite Q0. rewrite P. rewrite map_map. reflexivity.
Qed.
Lemma regraded_in : forall t l l' c, regraded t l l' -> ((exists s, In (c, s) l') <-> (exists s, In (c, s) l)).
Proof.
  intros t l l' c (g & G & P). split; intros (s & I0).
  - apply (Permutation_in _ P) in I0. apply in_map_iff in I0. destruct I0 as ((d & s') & E & I0). cbn [fst snd] in E. injection E as <- <-. eauto.
  - exists (g c s). apply (Permutation_in _ (Permutation_sym P)). apply in_map_iff. exists (c, s). auto.
Qed.
Definition among (l : ranked) (c : candidate) : Prop := exists s, In (c, s) l.
Lemma fair_on : forall ev inv l term, fair_term ev inv l term ->
  (forall c, among l c -> 0 <= term c <= 1) /\
  (forall c d, among l c -> among l d -> raw ev c <= raw ev d -> if inv then term d <= term c else term c <= term d) /\
  (forall c d, among l c -> among l d -> raw ev c < raw ev d -> if inv then term d < term c else term c < term d).
Proof.
  intros ev inv l term (A & B & C & _). split; [intros c (s & I0); apply (A _ I0)|]. split.
  - intros c d (s & I0) (s' & I1). apply (B _ _ I0 I1).
  - intros c d (s & I0) (s' & I1). apply (C _ _ I0 I1).
Qed.

Lemma scored : forall seen l shown m, score_and_cut ph j seen l = Ok (shown, m) ->
  exists f t full, frequency j = Some f /\ shown = firstn (results j) full /\ in_order _ ahead full /\ regraded t l full /\
    (forall c, among l c -> 0 <= t c <= if harmonics j then 3 else 2) /\
    (forall c d, among l c -> among l d -> no_worse f c d -> t d <= t c) /\
    (forall c d, among l c -> among l d -> no_worse f c d -> better f c d -> t d < t c) /\
    measure ph j seen shown = Ok m.
Proof.
  intros seen l shown m H. unfold score_and_cut in H. destruct (frequency j) as [f|] eqn:EF; [|discriminate].
  apply bind_ok in H. destruct H as (l1 & H1 & H). apply bind_ok in H. destruct H as (l2 & H2 & H).
  apply bind_ok in H. destruct H as (l3 & H3 & H). apply bind_ok in H. destruct H as (m' & HM & H). injection H as <- <-.
  destruct (stage_spec _ _ _ _ H1) as (_ & _ & _ & t1 & F1 & P1). rewrite kept_all in F1, P1 by reflexivity.
  apply fair_on in F1. destruct F1 as (A1 & B1 & C1).
  assert (R1 : regraded (fun c => 0 + t1 c) l l1) by (eapply regraded_step; [apply regraded_refl|exact P1]).
  destruct (stage_spec _ _ _ _ H3) as (_ & _ & _ & t3 & F3 & P3). rewrite kept_all in F3, P3 by reflexivity.
  apply fair_on in F3. destruct F3 as (A3 & B3 & C3).
  assert (K : exists t2, regraded (fun c => 0 + t1 c + t2 c) l l2 /\
    (forall c, among l c -> 0 <= t2 c <= if harmonics j then 1 else 0) /\
    (forall c d, among l c -> among l d -> no_worse f c d -> t2 d <= t2 c) /\
    (forall c d, among l c -> among l d -> harmonics j = true -> figure_lt (skin ph (fst c)) (skin ph (fst d)) -> t2 d < t2 c)).
  { destruct (harmonics j) eqn:EH.
    - destruct (stage_spec _ _ _ _ H2) as (_ & _ & _ & t2 & F2 & P2). rewrite kept_all in F2, P2 by reflexivity.
      apply fair_on in F2. destruct F2 as (A2 & B2 & C2). exists t2.
      split; [eapply regraded_step; [exact R1|exact P2]|].
      assert (M : forall c, among l c -> among l1 c) by (intros c X; apply (regraded_in _ _ _ c R1), X).
      split; [intros c X; apply A2, M, X|]. split.
      + intros c d X Y (_ & N & _). apply (B2 c d (M c X) (M d Y)). apply le_raw. unfold score, by_skin. apply N, EH.
      + intros c d X Y _ N. apply (C2 c d (M c X) (M d Y)). apply lt_raw. unfold score, by_skin. exact N.
    - injection H2 as <-. exists (fun _ => 0). split; [destruct R1 as (g & G & P); exists g; split; [intros; rewrite G; ring|exact P]|].
      split; [intros; lra|]. split; [intros; lra|]. intros; discriminate. }
  destruct K as (t2 & R2 & A2 & B2 & C2).
  assert (R3 : regraded (fun c => 0 + t1 c + t2 c + t3 c) l l3) by (eapply regraded_step; [exact R2|exact P3]).
  assert (M : forall c, among l c -> among l2 c) by (intros c X; apply (regraded_in _ _ _ c R2), X).
  exists f, (fun c => 0 + t1 c + t2 c + t3 c), (break_ties l3). split; [reflexivity|]. split; [reflexivity|]. split; [apply break_ties_order|].
  split; [eapply regraded_perm; [exact R3|apply break_ties_perm]|].
  split; [intros c X; pose proof (A1 c X); pose proof (A2 c X); pose proof (A3 c (M c X)); destruct (harmonics j); lra|].
  assert (N1 : forall c d, among l c -> among l d -> no_worse f c d -> t1 d <= t1 c).
  { intros c d X Y (N & _). apply (B1 c d X Y), le_raw. exact N. }
  assert (N3 : forall c d, among l c -> among l d -> no_worse f c d -> t3 d <= t3 c).
  { intros c d X Y (_ & _ & N). apply (B3 c d (M c X) (M d Y)), le_raw. exact N. }
  split; [intros c d X Y N; pose proof (N1 c d X Y N); pose proof (B2 c d X Y N); pose proof (N3 c d X Y N); lra|].
  split; [|exact HM].
  intros c d X Y N W. pose proof (N1 c d X Y N). pose proof (B2 c d X Y N). pose proof (N3 c d X Y N).
  destruct W as [W|[(EH & W)|W]].
  - assert (t1 d < t1 c) by (apply (C1 c d X Y), lt_raw; exact W). lra.
  - assert (t2 d < t2 c) by (apply (C2 c d X Y EH W)). lra.
  - assert (t3 d < t3 c) by (apply (C3 c d (M c X) (M d Y)), lt_raw; exact W). lra.
Qed.
End Scored.
