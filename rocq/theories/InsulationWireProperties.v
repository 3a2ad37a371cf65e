(** Properties C17, C18 and C56: the insulation required from the wires and the
    insulation they offer. *)
From Coq Require Import ZArith QArith Qround Qabs List String Bool Lia Lqa Arith.
From Verif Require Import Base QAux InsulationModel InsulationData InsulationProofs InsulationProperties.
Import ListNotations.
Open Scope Q_scope.

(** ** C18: margin between neighbours *)

(** The order of the sections: the pattern, repeated. *)
Definition sections (pattern : list nat) (repetitions : nat) : list nat :=
  List.concat (repeat pattern repetitions).

Definition neighbours (l r : nat) (order : list nat) : Prop :=
  exists before after, order = before ++ l :: r :: after.

(** Two windings whose wires do not add up to three layers nor to grade four. *)
Definition uncovered (reqs : list wire_requirement) (l r : nat) : Prop :=
  exists a b, nth_error reqs l = Some a /\ nth_error reqs r = Some b /\
    (or_zero (r_layers a) + or_zero (r_layers b) < 3)%Z /\
    (or_zero (r_grade a) + or_zero (r_grade b) < 4)%Z.

Lemma pair_spec : forall reqs l r, (l < List.length reqs)%nat -> (r < List.length reqs)%nat ->
  exists b, pair_needs_margin reqs l r = Ok b /\ (b = true <-> uncovered reqs l r).
Proof.
  intros reqs l r L R. unfold pair_needs_margin, uncovered.
  destruct (nth_error reqs l) as [a|] eqn:A; [|apply nth_error_None in A; lia].
  destruct (nth_error reqs r) as [b|] eqn:B; [|apply nth_error_None in B; lia].
  eexists. split; [reflexivity|]. rewrite andb_true_iff, !Z.ltb_lt. split.
  - intros (H1 & H2). exists a, b. auto.
  - intros (a' & b' & EA & EB & H1 & H2). injection EA as <-. injection EB as <-. auto.
Qed.

Lemma neighbours_cons : forall l r x p, neighbours l r (x :: p) <->
  neighbours l r p \/ l = x /\ exists q, p = r :: q.
Proof.
  intros l r x p. split.
  - intros ([|b before] & after & E); cbn [app] in E.
    + injection E as <- ->. right. split; [reflexivity|]. exists after. reflexivity.
    + injection E as _ ->. left. exists before, after. reflexivity.
  - intros [(before & after & ->)|(-> & q & ->)].
    + exists (x :: before), after. reflexivity.
    + exists [], q. reflexivity.
Qed.

Lemma needs_margin_from_spec : forall reqs first reps pattern,
  (first < List.length reqs)%nat -> (forall w, In w pattern -> (w < List.length reqs)%nat) ->
  exists b, needs_margin_from reqs first pattern reps = Ok b /\
    (b = true <-> exists l r, uncovered reqs l r /\
      (neighbours l r pattern \/ reps <> 0%nat /\ r = first /\ exists p, pattern = p ++ [l])).
Proof.
  intros reqs first reps. induction pattern as [|x pattern IH]; intros F V.
  - exists false. split; [reflexivity|]. split; [discriminate|].
    intros (l & r & _ & [(b & a & E)|(_ & _ & p & E)]).
    + destruct b; discriminate.
    + destruct p; discriminate.
  - assert (VX : (x < List.length reqs)%nat) by (apply V; left; reflexivity).
    destruct (IH F (fun w I => V w (or_intror I))) as (b & EB & B). clear IH.
    destruct pattern as [|y pattern].
    + cbn [needs_margin_from]. destruct (Nat.eqb_spec reps 0) as [->|NR].
      * exists false. split; [reflexivity|]. split; [discriminate|].
        intros (l & r & _ & [N|(C & _)]); [|lia].
        apply neighbours_cons in N. destruct N as [([|? ?] & ? & ?)|(_ & ? & ?)]; discriminate.
      * destruct (pair_spec reqs x first VX F) as (c & EC & C). exists c. split; [exact EC|].
        rewrite C. split.
        -- intro U. exists x, first. split; [exact U|]. right. split; [exact NR|].
           split; [reflexivity|]. exists []. reflexivity.
        -- intros (l & r & U & [N|(_ & -> & p & E)]).
           ++ apply neighbours_cons in N. destruct N as [([|? ?] & ? & ?)|(_ & ? & ?)]; discriminate.
           ++ destruct p as [|? [|? ?]]; try discriminate. injection E as ->. exact U.
    + assert (VY : (y < List.length reqs)%nat) by (apply V; right; left; reflexivity).
      destruct (pair_spec reqs x y VX VY) as (c & EC & C).
      change (needs_margin_from reqs first (x :: y :: pattern) reps)
        with (b <- pair_needs_margin reqs x y ;;
              if b then Ok true else needs_margin_from reqs first (y :: pattern) reps).
      rewrite EC. cbn [bind]. destruct c.
      * exists true. split; [reflexivity|]. split; [|reflexivity]. intros _.
        exists x, y. split; [apply C; reflexivity|]. left. exists [], pattern. reflexivity.
      * exists b. split; [exact EB|]. rewrite B. split.
        -- intros (l & r & U & [N|(NR & -> & p & E)]); exists l.
           ++ exists r. split; [exact U|]. left. apply neighbours_cons. left. exact N.
           ++ exists first. split; [exact U|]. right. split; [exact NR|]. split; [reflexivity|].
              exists (x :: p). rewrite E. reflexivity.
        -- intros (l & r & U & [N|(NR & -> & p & E)]); exists l.
           ++ apply neighbours_cons in N. destruct N as [N|(-> & q & E)].
              ** exists r. split; [exact U|]. left. exact N.
              ** injection E as -> ->. exfalso. assert (false = true) by (apply C; exact U). discriminate.
           ++ exists first. split; [exact U|]. right. split; [exact NR|]. split; [reflexivity|].
              destruct p as [|z p]; [discriminate|]. injection E as -> E. exists p. exact E.
Qed.

(** The decision, exactly: neighbours in the pattern, and the last section with
    the first one when the pattern is repeated. *)
Theorem C18_margin_decision : forall reqs pattern reps,
  (forall w, In w pattern -> (w < List.length reqs)%nat) ->
  exists b, needs_margin reqs pattern reps = Ok b /\
    (b = true <-> exists l r, uncovered reqs l r /\
      (neighbours l r pattern \/
       reps <> 0%nat /\ (exists p, pattern = p ++ [l]) /\ (exists p, pattern = r :: p))).
Proof.
  intros reqs [|first rest] reps V.
  - exists false. split; [reflexivity|]. split; [discriminate|].
    intros (l & r & _ & [([|? ?] & ? & E)|(_ & ([|? ?] & E) & _)]); discriminate.
  - destruct (needs_margin_from_spec reqs first reps (first :: rest)) as (b & E & B);
      [apply V; left; reflexivity | exact V |].
    exists b. split; [exact E|]. rewrite B. split; intros (l & r & U & N); exists l, r; (split; [exact U|]).
    + destruct N as [N|(NR & -> & P)]; [left; exact N|]. right. split; [exact NR|]. split; [exact P|].
      exists rest. reflexivity.
    + destruct N as [N|(NR & P & p & EP)]; [left; exact N|]. right. split; [exact NR|].
      split; [congruence | exact P].
Qed.

Lemma neighbours_app : forall l r a b, neighbours l r (a ++ b) <->
  neighbours l r a \/ neighbours l r b \/ (exists p, a = p ++ [l]) /\ (exists q, b = r :: q).
Proof.
  intros l r a b. induction a as [|x a IH]; cbn [app].
  - split; [auto|]. intros [([|? ?] & ? & E)|[H|(([|? ?] & E) & _)]]; try discriminate. exact H.
  - rewrite !neighbours_cons, IH. clear IH. split.
    + intros [[H|[H|((p & ->) & Q)]]|(-> & q & E)].
      * left. left. exact H.
      * right. left. exact H.
      * right. right. split; [exists (x :: p); reflexivity | exact Q].
      * destruct a as [|y a].
        -- right. right. split; [exists []; reflexivity|]. exists q. exact E.
        -- injection E as -> E. left. right. split; [reflexivity|]. exists a. reflexivity.
    + intros [[H|(-> & q & ->)]|[H|((p & E) & Q)]].
      * left. left. exact H.
      * right. split; [reflexivity|]. exists (q ++ b). reflexivity.
      * left. right. left. exact H.
      * destruct p as [|z p].
        -- injection E as -> ->. destruct Q as (q & ->). right. split; [reflexivity|].
           exists q. reflexivity.
        -- injection E as -> ->. left. right. right. split; [exists p; reflexivity | exact Q].
Qed.

Lemma sections_neighbours : forall pattern l r n, pattern <> [] ->
  (neighbours l r (sections pattern (S (S n))) <->
   neighbours l r pattern \/ (exists p, pattern = p ++ [l]) /\ (exists p, pattern = r :: p)).
Proof.
  intros pattern l r n NE.
  induction n as [|n IH].
  - unfold sections. cbn [repeat List.concat]. rewrite app_nil_r, neighbours_app.
    split; [intros [H|[H|H]]; auto | intros [H|H]; auto].
  - change (sections pattern (S (S (S n)))) with (pattern ++ sections pattern (S (S n))).
    rewrite neighbours_app, IH. split.
    + intros [H|[H|(P & q & E)]]; auto. right. split; [exact P|].
      unfold sections in E. cbn [repeat List.concat] in E.
      destruct pattern as [|x pattern]; [congruence|]. injection E as -> _. exists pattern. reflexivity.
    + intros [H|(P & p & E)]; [auto|]. right. left. right. split; [exact P | exists p; exact E].
Qed.

(** For two repetitions or more, those are the neighbours in the winding order. *)
Theorem C18_margin_iff_neighbours_uncovered : forall reqs pattern reps,
  (forall w, In w pattern -> (w < List.length reqs)%nat) -> (2 <= reps)%nat ->
  exists b, needs_margin reqs pattern reps = Ok b /\
    (b = true <-> exists l r, uncovered reqs l r /\ neighbours l r (sections pattern reps)).
Proof.
  intros reqs pattern reps V R.
  destruct (C18_margin_decision reqs pattern reps V) as (b & E & B).
  exists b. split; [exact E|]. rewrite B. destruct reps as [|[|n]]; [lia | lia |].
  split; intros (l & r & U & N); exists l, r; (split; [exact U|]).
  - apply sections_neighbours.
    + intros ->. destruct N as [([|? ?] & ? & F)|(_ & ([|? ?] & F) & _)]; discriminate.
    + destruct N as [N|(_ & P)]; auto.
  - apply sections_neighbours in N.
    + destruct N as [N|P]; [left; exact N | right; split; [discriminate | exact P]].
    + intros ->. assert (Z : sections [] (S (S n)) = []).
      { unfold sections. clear. generalize (S (S n)). induction n0; [reflexivity|]. exact IHn0. }
      rewrite Z in N. destruct N as ([|? ?] & ? & F); discriminate.
Qed.

Definition enamel : wire_requirement := mk_wire_requirement (Some 1%Z) (Some 1%Z) (Some 0).
Definition triple : wire_requirement := mk_wire_requirement None (Some 3%Z) (Some 3000).

Example C18_witness : needs_margin [enamel; triple; enamel] [0; 1; 2; 1]%nat 2 = Ok false /\
  needs_margin [enamel; triple; enamel] [0; 1; 2]%nat 2 = Ok true /\
  needs_margin [enamel; triple; enamel] [0; 1; 2]%nat 0 = Ok false.
Proof. repeat split. Qed.

(** With one repetition the last section is compared with the first although no
    section follows it. *)
Theorem C18_single_repetition_refuted : exists reqs pattern,
  (forall w, In w pattern -> (w < List.length reqs)%nat) /\ NoDup pattern /\
  needs_margin reqs pattern 1 = Ok true /\
  forall l r, neighbours l r (sections pattern 1) -> ~ uncovered reqs l r.
Proof.
  exists [enamel; triple; enamel], [0; 1; 2]%nat. split; [|split; [|split]].
  - intros w [<-|[<-|[<-|[]]]]; cbn; lia.
  - repeat constructor; cbn; lia.
  - reflexivity.
  - intros l r N U. unfold sections in N. cbn [repeat List.concat app] in N.
    rewrite !neighbours_cons in N.
    destruct U as (a & b & EA & EB & H1 & H2).
    destruct N as [[[([|? ?] & ? & E)|(_ & q & E)]|(-> & q & E)]|(-> & q & E)]; try discriminate.
    + injection E as <- _. cbn in EA, EB. injection EA as <-. injection EB as <-. cbn in H1. lia.
    + injection E as <- _. cbn in EA, EB. injection EA as <-. injection EB as <-. cbn in H1. lia.
Qed.

(** Sections of one winding are compared with themselves: the inductor with one
    winding needs a margin. *)
Theorem C18_same_winding_refuted :
  needs_margin [enamel] [0]%nat 1 = Ok true /\
  needs_margin [enamel; triple] [0; 0; 1]%nat 0 = Ok true.
Proof. split; reflexivity. Qed.

(** ** C17: the caller's inputs *)

Definition same_insulation_after (am : bool) (ty : class) : Prop :=
  am = true \/ ty <> BASIC /\ ty <> SUPPLEMENTARY.

Lemma set_type_same : forall i q, i_insulation i = Some q -> set_type i (q_type q) = i.
Proof.
  intros [ins w sd rt a b c d e] q H. cbn [i_insulation] in H. subst ins. destruct q. reflexivity.
Qed.

(** Unchanged when every winding has its side and the type is not raised. *)
Theorem C17_inputs_unchanged_partial : forall D am i pattern reps i' out l,
  i_sides i = Some l -> (S (i_ratios i) <= List.length l)%nat ->
  (forall q, i_insulation i = Some q -> same_insulation_after am (q_type q)) ->
  solid_requirements D am i pattern reps = (i', Ok out) -> i' = i.
Proof.
  intros D am i pattern reps i' out l SD LN TY H. unfold solid_requirements, isolation_sides_used in H.
  rewrite SD in H. replace (Nat.ltb (List.length l) (S (i_ratios i))) with false in H
    by (symmetry; apply Nat.ltb_ge; exact LN).
  destruct (calculate_withstand_voltage D i) as [v| | |]; try congruence.
  destruct (i_insulation i) as [q|] eqn:HI; [|congruence].
  specialize (TY q eq_refl).
  assert (RT : raised_type am (q_type q) = q_type q).
  { destruct TY as [->|(A & B)]; [destruct (q_type q); reflexivity|].
    destruct (q_type q); try reflexivity; congruence. }
  rewrite RT in H. destruct (q_type q) eqn:ET; try congruence.
  destruct (calculate_withstand_voltage D (set_type i BASIC)) as [vb| | |]; try congruence.
  assert (i' = set_type i DOUBLE) by congruence. subst i'.
  rewrite <- ET. apply set_type_same. exact HI.
Qed.

Lemma sides_from_length : forall n k l, sides_from k n = Ok l -> List.length l = n.
Proof.
  induction n as [|n IH]; intros k l H; cbn [sides_from] in H; [injection H as <-; reflexivity|].
  destruct (side_from_index k); cbn [bind] in H; try discriminate.
  destruct (sides_from (S k) n) eqn:E; cbn [bind] in H; try discriminate.
  injection H as <-. cbn [List.length]. rewrite (IH _ _ E). reflexivity.
Qed.

Lemma without_margin_incl : forall l pattern reps k, without_margin l pattern reps = Ok k ->
  forall c, In c k -> In c l.
Proof.
  induction l as [|c l IH]; intros pattern reps k H x I; cbn [without_margin] in H.
  - injection H as <-. destruct I.
  - destruct (needs_margin c pattern reps) as [b| | |]; cbn [bind] in H; try discriminate.
    destruct (without_margin l pattern reps) as [k'| | |] eqn:E; cbn [bind] in H; try discriminate.
    injection H as <-. destruct b.
    + right. exact (IH _ _ _ E x I).
    + destruct I as [<-|I]; [left; reflexivity | right; exact (IH _ _ _ E x I)].
Qed.

Lemma without_margin_none : forall l pattern reps k, without_margin l pattern reps = Ok k ->
  forall c, In c k -> needs_margin c pattern reps = Ok false.
Proof.
  induction l as [|c l IH]; intros pattern reps k H x I; cbn [without_margin] in H.
  - injection H as <-. destruct I.
  - destruct (needs_margin c pattern reps) as [b| | |] eqn:NM; cbn [bind] in H; try discriminate.
    destruct (without_margin l pattern reps) as [k'| | |] eqn:E; cbn [bind] in H; try discriminate.
    injection H as <-. destruct b.
    + exact (IH _ _ _ E x I).
    + destruct I as [<-|I]; [exact NM | exact (IH _ _ _ E x I)].
Qed.

Lemma per_side_length : forall used sides req c, In c (per_side used sides req) ->
  List.length c = List.length sides.
Proof.
  intros used sides req c I. unfold per_side in I. apply in_map_iff in I.
  destruct I as (s & <- & _). apply map_length.
Qed.

Lemma basic_length : forall ty used sides v fiw c, In c (basic_combinations ty used sides v fiw) ->
  List.length c = List.length sides.
Proof.
  intros ty used sides v fiw c I. unfold basic_combinations in I. apply in_app_or in I.
  destruct I as [I|I].
  - destruct (class_eqb ty DOUBLE || Nat.eqb (List.length used) 1); [|destruct I].
    destruct I as [<-|[]]. apply repeat_length.
  - destruct (Nat.ltb 1 (List.length used)); [|destruct I]. exact (per_side_length _ _ _ _ I).
Qed.

Lemma sides_used_facts : forall i i' used, isolation_sides_used i = (i', Ok used) ->
  i_ratios i' = i_ratios i /\ i_insulation i' = i_insulation i /\
  (match i_sides i with None => True | Some l => (List.length l <= S (i_ratios i))%nat end ->
   exists l, i_sides i' = Some l /\ List.length l = S (i_ratios i)).
Proof.
  intros i i' used H. unfold isolation_sides_used in H.
  destruct (i_sides i) as [l|] eqn:SD.
  - destruct (Nat.ltb_spec (List.length l) (S (i_ratios i))) as [L|L].
    + destruct (sides_from (List.length l) (S (i_ratios i) - List.length l)) as [more| | |] eqn:E; try congruence.
      assert (i' = set_sides i (l ++ more)) by congruence. subst i'.
      split; [reflexivity|]. split; [reflexivity|]. intros _. exists (l ++ more). split; [reflexivity|].
      rewrite app_length, (sides_from_length _ _ _ E). lia.
    + assert (i' = i) by congruence. subst i'. split; [reflexivity|]. split; [reflexivity|].
      intro LE. exists l. split; [exact SD | lia].
  - destruct (sides_from 1 (S (i_ratios i) - 1)) as [more| | |] eqn:E; try congruence.
    assert (i' = set_sides i (0%nat :: more)) by congruence. subst i'.
    split; [reflexivity|]. split; [reflexivity|]. intros _. exists (0%nat :: more). split; [reflexivity|].
    cbn [List.length]. rewrite (sides_from_length _ _ _ E). lia.
Qed.

Lemma pair_snd : forall (A B : Type) (x y : A) (u w : B), (x, u) = (y, w) -> u = w.
Proof. congruence. Qed.

(** One requirement for each winding in every combination; without margin tape
    no combination left needs one. *)
Theorem C17_one_requirement_per_winding : forall D am i pattern reps i' out,
  match i_sides i with None => True | Some l => (List.length l <= S (i_ratios i))%nat end ->
  solid_requirements D am i pattern reps = (i', Ok out) ->
  forall c, In c out ->
    List.length c = S (i_ratios i) /\
    (am = false -> i_insulation i <> None -> needs_margin c pattern reps = Ok false).
Proof.
  intros D am i0 pattern reps i' out SZ H c I. unfold solid_requirements in H.
  destruct (isolation_sides_used i0) as (i & [used| | |]) eqn:SU; try congruence.
  destruct (sides_used_facts _ _ _ SU) as (RT & IN & LEN). specialize (LEN SZ).
  destruct LEN as (sides & SD & LN). rewrite <- RT in *. rewrite <- IN in *.
  destruct (calculate_withstand_voltage D i) as [v| | |]; try congruence.
  destruct (i_insulation i) as [q|] eqn:HI.
  2: { assert (out = [repeat functional_requirement (S (i_ratios i))]) by congruence. subst out.
       destruct I as [<-|[]]. split; [apply repeat_length|]. intros _ N. congruence. }
  rewrite SD in H. cbv zeta in H.
  set (fiw := can_fully_insulated_wire_be_used q) in *.
  set (bare := if am then [repeat functional_requirement (S (i_ratios i))] else []) in *.
  assert (BL : forall x, In x bare -> List.length x = S (i_ratios i)).
  { intros x J. unfold bare in J. destruct am; [|destruct J]. destruct J as [<-|[]]. apply repeat_length. }
  assert (FIN : forall l, (forall x, In x l -> List.length x = S (i_ratios i)) ->
    (if am then Ok l else without_margin l pattern reps) = Ok out ->
    List.length c = S (i_ratios i) /\
    (am = false -> Some q <> None -> needs_margin c pattern reps = Ok false)).
  { intros l LL F. destruct am.
    - injection F as ->. split; [apply LL; exact I | discriminate].
    - split; [apply LL; exact (without_margin_incl _ _ _ _ F c I)|].
      intros _ _. exact (without_margin_none _ _ _ _ F c I). }
  assert (PS : forall req x, In x (per_side used sides req) -> List.length x = S (i_ratios i)).
  { intros req x J. rewrite (per_side_length _ _ _ _ J). exact LN. }
  assert (BC : forall ty w x, In x (basic_combinations ty used sides w fiw) -> List.length x = S (i_ratios i)).
  { intros ty w x J. rewrite (basic_length _ _ _ _ _ _ J). exact LN. }
  destruct (raised_type am (q_type q)) eqn:TY.
  - eapply FIN; [|exact (pair_snd _ _ _ _ _ _ H)]. exact BL.
  - eapply FIN; [|exact (pair_snd _ _ _ _ _ _ H)].
    intros x J. apply in_app_or in J. destruct J as [J|J]; [auto | exact (BC _ _ _ J)].
  - eapply FIN; [|exact (pair_snd _ _ _ _ _ _ H)].
    intros x J. apply in_app_or in J. destruct J as [J|J]; [auto | exact (BC _ _ _ J)].
  - eapply FIN; [|exact (pair_snd _ _ _ _ _ _ H)].
    intros x J. apply in_app_or in J. destruct J as [J|J]; [auto | exact (PS _ _ J)].
  - destruct (calculate_withstand_voltage D (set_type i BASIC)) as [vb| | |]; try congruence.
    eapply FIN; [|exact (pair_snd _ _ _ _ _ _ H)].
    intros x J. apply in_app_or in J. destruct J as [J|J]; [auto|].
    apply in_app_or in J. destruct J as [J|J]; [exact (PS _ _ J) | exact (BC _ _ _ J)].
Qed.

(** The mains design with a side for each of its two windings. *)
Definition sided (q : requirements) : inputs :=
  mk_inputs (Some q) (Some WOUND) (Some [0; 1]%nat) 1 230 230 325 325 50.

Example C17_witness : forall skin, exists out,
  solid_requirements (bundled skin) true (sided mains) [0; 1]%nat 1 = (sided mains, Ok out) /\
  List.length out = 3%nat.
Proof. intro skin. eexists. split; [vm_compute; reflexivity|]. reflexivity. Qed.

(** Without margin tape basic insulation becomes double in the caller's inputs,
    and the same question then gives another answer: 5000 V instead of 2500 V. *)
Theorem C17_basic_becomes_double_refuted : forall skin, exists i q i' q' out v v',
  i_insulation i = Some q /\ q_type q = BASIC /\
  solid_requirements (bundled skin) false i [0; 1]%nat 1 = (i', Ok out) /\
  i_insulation i' = Some q' /\ q_type q' = DOUBLE /\
  required (bundled skin) Withstand i = Ok v /\ required (bundled skin) Withstand i' = Ok v' /\ v < v'.
Proof.
  intro skin. exists (sided mains), mains. eexists. eexists. eexists. eexists. eexists.
  split; [reflexivity|]. split; [reflexivity|]. split; [vm_compute; reflexivity|].
  split; [reflexivity|]. split; [reflexivity|]. split; [vm_compute; reflexivity|].
  split; [vm_compute; reflexivity|]. reflexivity.
Qed.

(** Sides that were not given are filled in. *)
Theorem C17_sides_filled_in_refuted : forall skin, exists i i' out,
  i_sides i = None /\ solid_requirements (bundled skin) true i [0; 1]%nat 1 = (i', Ok out) /\
  i_sides i' = Some [0; 1]%nat.
Proof.
  intro skin. exists (design mains (Some WOUND) 230 325 50). eexists. eexists.
  split; [reflexivity|]. split; [vm_compute; reflexivity|]. reflexivity.
Qed.

(** ** C56: what the wires cover *)

Definition breakdown_of (w : wire) (bd : Q) : Prop :=
  exists c0 c, w_coating w = Some c0 /\ effective_coating w c0 = Ok c /\ c_breakdown c = Some bd.

Lemma coating_times_antitone : forall c bd v w fiw, v <= w ->
  (coating_times c bd w fiw <= coating_times c bd v fiw)%nat.
Proof.
  intros c bd v w fiw H. unfold coating_times.
  dlt w bd; [rewrite Qlt_yes by lra; lia | lia].
Qed.

Theorem C56_symmetric : forall l r v fiw n m,
  times_covered l r v fiw = Ok n -> times_covered r l v fiw = Ok m -> n = m.
Proof.
  intros l r v fiw n m A B. unfold times_covered in A, B.
  destruct (w_coating l) as [cl|]; destruct (w_coating r) as [cr|]; try congruence.
  - destruct (effective_coating l cl) as [a| | |]; try discriminate; cbn [bind] in A, B;
      destruct (effective_coating r cr) as [b| | |]; try discriminate; cbn [bind] in A, B;
      destruct (c_breakdown a); destruct (c_breakdown b); try discriminate; try congruence.
    injection A as <-. injection B as <-. lia.
  - destruct (effective_coating l cl) as [a| | |]; try discriminate; cbn [bind] in A, B;
      destruct (c_breakdown a); injection A as <-; injection B as <-; lia.
  - destruct (effective_coating r cr) as [b| | |]; try discriminate; cbn [bind] in A, B;
      destruct (c_breakdown b); injection A as <-; injection B as <-; lia.
Qed.

Theorem C56_higher_voltage_is_covered_less : forall l r v w fiw n m, v <= w ->
  times_covered l r v fiw = Ok n -> times_covered l r w fiw = Ok m -> (m <= n)%nat.
Proof.
  intros l r v w fiw n m VW A B. unfold times_covered in A, B.
  destruct (w_coating l) as [cl|].
  - destruct (effective_coating l cl) as [a| | |]; try discriminate; cbn [bind] in A, B.
    destruct (c_breakdown a) as [bd|]; [|injection A as <-; injection B as <-; lia].
    pose proof (coating_times_antitone a bd _ _ fiw VW).
    destruct (w_coating r) as [cr|]; [|injection A as <-; injection B as <-; assumption].
    destruct (effective_coating r cr) as [b| | |]; try discriminate; cbn [bind] in A, B.
    destruct (c_breakdown b) as [bd'|]; [|injection A as <-; injection B as <-; lia].
    pose proof (coating_times_antitone b bd' _ _ fiw VW).
    injection A as <-. injection B as <-. lia.
  - destruct (w_coating r) as [cr|]; [|injection A as <-; injection B as <-; lia].
    destruct (effective_coating r cr) as [b| | |]; try discriminate; cbn [bind] in A, B.
    destruct (c_breakdown b) as [bd'|]; [|injection A as <-; injection B as <-; lia].
    pose proof (coating_times_antitone b bd' _ _ fiw VW).
    injection A as <-. injection B as <-. lia.
Qed.

(** A wire counts only when its breakdown voltage exceeds the voltage. *)
Theorem C56_counted_only_above_the_voltage : forall l r v fiw n,
  times_covered l r v fiw = Ok n -> (0 < n)%nat ->
  exists w bd, (w = l \/ w = r) /\ breakdown_of w bd /\ v < bd.
Proof.
  intros l r v fiw n A N. unfold times_covered in A.
  assert (POS : forall c bd, (0 < coating_times c bd v fiw)%nat -> v < bd).
  { intros c bd P. unfold coating_times in P. dlt v bd; [assumption | lia]. }
  destruct (w_coating l) as [cl|] eqn:WL.
  - destruct (effective_coating l cl) as [a| | |] eqn:EL; try discriminate; cbn [bind] in A.
    destruct (c_breakdown a) as [bd|] eqn:BA; [|injection A as <-; lia].
    destruct (w_coating r) as [cr|] eqn:WR.
    + destruct (effective_coating r cr) as [b| | |] eqn:ER; try discriminate; cbn [bind] in A.
      destruct (c_breakdown b) as [bd'|] eqn:BB; [|injection A as <-; lia].
      injection A as <-. destruct (coating_times a bd v fiw) eqn:CA.
      * exists r, bd'. split; [auto|]. split; [exists cr, b; auto|]. apply (POS b). lia.
      * exists l, bd. split; [auto|]. split; [exists cl, a; auto|]. apply (POS a). lia.
    + injection A as <-. exists l, bd. split; [auto|]. split; [exists cl, a; auto|]. apply (POS a). lia.
  - destruct (w_coating r) as [cr|] eqn:WR; [|injection A as <-; lia].
    destruct (effective_coating r cr) as [b| | |] eqn:ER; try discriminate; cbn [bind] in A.
    destruct (c_breakdown b) as [bd'|] eqn:BB; [|injection A as <-; lia].
    injection A as <-. exists r, bd'. split; [auto|]. split; [exists cr, b; auto|]. apply (POS b). lia.
Qed.

Definition bare_wire : wire := mk_wire false None None.
Definition triple_insulated : wire := mk_wire false (Some (mk_coating (Some 6000) (Some 3%nat) None)) None.

Example C56_witness :
  times_covered triple_insulated bare_wire 2500 true = Ok 3%nat /\
  times_covered triple_insulated bare_wire 7000 true = Ok 0%nat.
Proof. split; vm_compute; reflexivity. Qed.

Print Assumptions C17_inputs_unchanged_partial.
Print Assumptions C17_one_requirement_per_winding.
Print Assumptions C18_margin_iff_neighbours_uncovered.
Print Assumptions C18_single_repetition_refuted.
Print Assumptions C56_higher_voltage_is_covered_less.
Print Assumptions C56_counted_only_above_the_voltage.
