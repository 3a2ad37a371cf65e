(** C196, C197, C198: voltages of the turns, capacitances among turns and the
    core as a floating node. *)
From Coq Require Import QArith Qabs List Bool String ZArith Lia Lqa.
From Verif Require Import Base QAux StrMap StrayModel.
Import ListNotations.
Local Open Scope Q_scope.

(** * Vocabulary *)
(** How many earlier turns belong to the same parallel of the same winding. *)
Definition strand (t : turn) : string * nat := (twinding t, tparallel t).
Definition rank (ts : list turn) (i : nat) : nat :=
  match nth_error ts i with
  | Some t => List.length (filter (fun u => same_strand (strand t) (strand u)) (firstn i ts))
  | None => 0%nat
  end.
Definition named (ws : list winding) (name : string) (n : Z) : Prop :=
  NoDup (map wname ws) /\ In {| wname := name; wturns := n |} ws.

(** * C196 *)
Lemma strand_refl : forall k, same_strand k k = true.
Proof. intros (a, b). unfold same_strand. cbn [fst snd]. rewrite String.eqb_refl, Nat.eqb_refl. reflexivity. Qed.
Lemma strand_eq : forall k k', same_strand k k' = true -> k = k'.
Proof.
  intros (a, b) (c, d) H. unfold same_strand in H. cbn [fst snd] in H. apply andb_true_iff in H. destruct H as (X & Y).
  apply String.eqb_eq in X. apply Nat.eqb_eq in Y. congruence.
Qed.
Lemma go_nth : forall counts rms ts cs i t, nth_error ts i = Some t ->
  nth_error (voltages_go counts rms cs ts) i =
    Some (let '(s, f, c) := dividers (at_or 0%Z (twinding t) counts) (counter (strand t) cs + List.length (filter (fun u => same_strand (strand t) (strand u)) (firstn i ts))) in
          (s, f, at_or 0 (twinding t) rms * c)).
Proof.
  induction ts as [|u ts IH]; intros cs i t H; [destruct i; discriminate|].
  cbn [voltages_go]. destruct i as [|i].
  - cbn [nth_error] in H. injection H as ->. cbn [firstn filter List.length]. rewrite Nat.add_0_r.
    fold (strand t). destruct (dividers _ _) as ((s, f), c). reflexivity.
  - cbn [nth_error] in H. destruct (dividers (at_or 0%Z (twinding u) counts) _) as ((s, f), c). cbn [nth_error].
    rewrite (IH _ i t H). cbn [firstn filter counter]. fold (strand u). destruct (same_strand (strand t) (strand u)) eqn:E.
    + cbn [List.length]. apply strand_eq in E. rewrite E. rewrite Nat.add_succ_r. reflexivity.
    + reflexivity.
Qed.
Lemma go_length : forall counts rms ts cs, List.length (voltages_go counts rms cs ts) = List.length ts.
Proof.
  induction ts as [|u ts IH]; intro cs; [reflexivity|]. cbn [voltages_go]. destruct (dividers _ _) as ((s, f), c). cbn [List.length]. rewrite IH. reflexivity.
Qed.
Lemma counts_skip : forall ws m name, ~ In name (map wname ws) ->
  find name (fold_left (fun m w => insert (wname w) (wturns w) m) ws m) = find name m.
Proof.
  induction ws as [|w ws IH]; intros m name H; [reflexivity|]. cbn [fold_left map] in *. rewrite IH by (intro; apply H; right; assumption).
  rewrite find_insert. destruct (String.eqb_spec name (wname w)); [exfalso; apply H; left; congruence|reflexivity].
Qed.
Lemma counts_named : forall ws m name n, NoDup (map wname ws) -> In {| wname := name; wturns := n |} ws ->
  find name (fold_left (fun m w => insert (wname w) (wturns w) m) ws m) = Some n.
Proof.
  induction ws as [|w ws IH]; intros m name n D H; [contradiction|]. cbn [map] in D. apply NoDup_cons_iff in D. destruct D as (D1 & D2).
  cbn [fold_left]. destruct H as [->|H].
  - cbn [wname wturns]. rewrite counts_skip by exact D1. apply find_insert_same.
  - apply IH; assumption.
Qed.
Definition triple (n : Z) (v : Q) (k : nat) : Q * Q * Q := let '(s, f, c) := dividers n k in (s, f, v * c).
Lemma voltage_at : forall ws rms ts i t n, named ws (twinding t) n -> nth_error ts i = Some t ->
  nth_error (voltages_per_turn ws rms ts) i = Some (triple n (at_or 0 (twinding t) rms) (rank ts i)).
Proof.
  intros ws rms ts i t n (D & I0) H. unfold voltages_per_turn. rewrite (go_nth _ _ _ _ _ _ H). unfold rank. rewrite H. cbn [counter Nat.add].
  unfold turn_counts. unfold at_or at 1. rewrite (counts_named ws [] _ _ D I0). reflexivity.
Qed.

Lemma pred_plus : forall n, inject_Z n == inject_Z (n - 1) + 1.
Proof. intro n. pose proof (inject_Z_plus (n - 1) 1) as E. replace (n - 1 + 1)%Z with n in E by lia. rewrite E. reflexivity. Qed.
Theorem C196_every_turn : forall ws rms ts, List.length (voltages_per_turn ws rms ts) = List.length ts.
Proof. intros. apply go_length. Qed.
(** The first turn of a parallel carries the whole voltage, the last none. *)
Theorem C196_ends : forall ws rms ts i t n, nth_error ts i = Some t -> named ws (twinding t) n -> (1 < n)%Z ->
  (rank ts i = 0%nat -> exists s f v, nth_error (voltages_per_turn ws rms ts) i = Some (s, f, v) /\ s == 1 /\ v == at_or 0 (twinding t) rms) /\
  (Z.of_nat (rank ts i) = n - 1 -> exists s f v, nth_error (voltages_per_turn ws rms ts) i = Some (s, f, v) /\ f == 0 /\ v == 0)%Z.
Proof.
  intros ws rms ts i t n H N L. rewrite (voltage_at _ _ _ _ _ _ N H). unfold triple, dividers.
  replace (1 <? n)%Z with true by (symmetry; apply Z.ltb_lt; exact L).
  assert (P : 0 < inject_Z n) by (change 0 with (inject_Z 0); apply inj_lt; lia).
  assert (P1 : 0 < inject_Z (n - 1)) by (change 0 with (inject_Z 0); apply inj_lt; lia).
  split; intro R; do 3 eexists; (split; [reflexivity|]).
  - rewrite R. change (inject_Z (Z.of_nat 0)) with 0. split; field; lra.
  - rewrite R. assert (E : inject_Z n == inject_Z (n - 1) + 1) by apply pred_plus.
    split; [|field; lra]. rewrite E. field. rewrite <- E. lra.
Qed.
(** One turn after the other in the same parallel: the next starts where this one
    ends, and the voltage falls by the same step every time. *)
Theorem C196_chain : forall ws rms ts i j t u n, nth_error ts i = Some t -> nth_error ts j = Some u ->
  twinding u = twinding t -> rank ts j = S (rank ts i) -> named ws (twinding t) n -> (1 < n)%Z ->
  exists s f v s' f' v', nth_error (voltages_per_turn ws rms ts) i = Some (s, f, v) /\
    nth_error (voltages_per_turn ws rms ts) j = Some (s', f', v') /\
    s' == f /\ (v - v') * inject_Z (n - 1) == at_or 0 (twinding t) rms.
Proof.
  intros ws rms ts i j t u n H1 H2 W R N L. rewrite (voltage_at _ _ _ _ _ _ N H1). rewrite <- W in N. rewrite (voltage_at _ _ _ _ _ _ N H2).
  rewrite W. unfold triple, dividers. replace (1 <? n)%Z with true by (symmetry; apply Z.ltb_lt; exact L).
  assert (P : 0 < inject_Z n) by (change 0 with (inject_Z 0); apply inj_lt; lia).
  assert (P1 : 0 < inject_Z (n - 1)) by (change 0 with (inject_Z 0); apply inj_lt; lia).
  do 6 eexists. split; [reflexivity|]. split; [reflexivity|]. rewrite R, Nat2Z.inj_succ. unfold Z.succ. rewrite inject_Z_plus. change (inject_Z 1) with 1.
  split; field; lra.
Qed.
(** No turn leaves the range, and each takes an equal share. *)
Theorem C196_between : forall ws rms ts i t n, nth_error ts i = Some t -> named ws (twinding t) n -> (1 < n)%Z ->
  (Z.of_nat (rank ts i) < n)%Z -> 0 <= at_or 0 (twinding t) rms ->
  exists s f v, nth_error (voltages_per_turn ws rms ts) i = Some (s, f, v) /\
    0 <= f /\ s <= 1 /\ (s - f) * inject_Z n == 1 /\ 0 <= v /\ v <= at_or 0 (twinding t) rms.
Proof.
  intros ws rms ts i t n H N L R V. rewrite (voltage_at _ _ _ _ _ _ N H). unfold triple, dividers.
  replace (1 <? n)%Z with true by (symmetry; apply Z.ltb_lt; exact L).
  assert (P : 0 < inject_Z n) by (change 0 with (inject_Z 0); apply inj_lt; lia).
  assert (P1 : 0 < inject_Z (n - 1)) by (change 0 with (inject_Z 0); apply inj_lt; lia).
  assert (K0 : 0 <= inject_Z (Z.of_nat (rank ts i))) by (change 0 with (inject_Z 0); apply inj_le; lia).
  assert (K1 : inject_Z (Z.of_nat (rank ts i)) <= inject_Z (n - 1)) by (apply inj_le; lia).
  assert (E : inject_Z n == inject_Z (n - 1) + 1) by apply pred_plus.
  set (k := inject_Z (Z.of_nat (rank ts i))) in *. set (m := inject_Z (n - 1)) in *.
  assert (C0 : 0 <= (m - k) / m) by (apply Qle_div_iff; lra). assert (C1 : (m - k) / m <= 1) by (apply Qdiv_le_iff; lra).
  do 3 eexists. split; [reflexivity|]. split; [apply Qle_div_iff; lra|]. split; [apply Qdiv_le_iff; lra|]. split; [field; lra|].
  split; [apply Qmult_le_0_compat; assumption|]. nra.
Qed.
(** Parallels carry the same. *)
Theorem C196_parallels_agree : forall ws rms ts i j t u n, nth_error ts i = Some t -> nth_error ts j = Some u ->
  twinding u = twinding t -> rank ts i = rank ts j -> named ws (twinding t) n ->
  nth_error (voltages_per_turn ws rms ts) i = nth_error (voltages_per_turn ws rms ts) j.
Proof.
  intros ws rms ts i j t u n H1 H2 W R N. rewrite (voltage_at _ _ _ _ _ _ N H1). rewrite <- W in N. rewrite (voltage_at _ _ _ _ _ _ N H2).
  rewrite W, R. reflexivity.
Qed.
(** A single turn sits at half the voltage. *)
Theorem C196_single : forall ws rms ts i t n, nth_error ts i = Some t -> named ws (twinding t) n -> (n <= 1)%Z ->
  exists v, nth_error (voltages_per_turn ws rms ts) i = Some (1, 0, v) /\ v == at_or 0 (twinding t) rms * (1 # 2).
Proof.
  intros ws rms ts i t n H N L. rewrite (voltage_at _ _ _ _ _ _ N H). unfold triple, dividers.
  replace (1 <? n)%Z with false by (symmetry; apply Z.ltb_ge; exact L). eexists. split; reflexivity.
Qed.
(** Without an operating point every winding gets the same volts per turn, ten in
    all on the first. *)
Lemma defaults_skip : forall g ws m name, ~ In name (map wname ws) ->
  find name (fold_left (fun (m : smap Q) w => insert (wname w) (g w) m) ws m) = find name m.
Proof.
  induction ws as [|w ws IH]; intros m name H; [reflexivity|]. cbn [fold_left map] in *. rewrite IH by (intro; apply H; right; assumption).
  rewrite find_insert. destruct (String.eqb_spec name (wname w)); [exfalso; apply H; left; congruence|reflexivity].
Qed.
Lemma defaults_named : forall g ws m w, NoDup (map wname ws) -> In w ws ->
  find (wname w) (fold_left (fun (m : smap Q) w => insert (wname w) (g w) m) ws m) = Some (g w).
Proof.
  induction ws as [|x ws IH]; intros m w D H; [contradiction|]. cbn [map] in D. apply NoDup_cons_iff in D. destruct D as (D1 & D2).
  cbn [fold_left]. destruct H as [->|H]; [rewrite defaults_skip by exact D1; apply find_insert_same|apply IH; assumption].
Qed.
Theorem C196_default_voltages : forall p ws, NoDup (map wname (p :: ws)) -> Forall (fun w => (0 < wturns w)%Z) (p :: ws) ->
  exists m, default_voltages (p :: ws) = Ok m /\
    (exists v, find (wname p) m = Some v /\ v == 10) /\
    (forall w, In w (p :: ws) -> exists v, find (wname w) m = Some v /\ v * inject_Z (wturns p) == 10 * inject_Z (wturns w)).
Proof.
  intros p ws D P. assert (PP : forall w, In w (p :: ws) -> 0 < inject_Z (wturns w)).
  { intros w I0. rewrite Forall_forall in P. change 0 with (inject_Z 0). apply inj_lt, P, I0. }
  pose proof (PP p (or_introl eq_refl)) as P0. unfold default_voltages.
  eexists. split; [reflexivity|]. split.
  - eexists. split; [apply (defaults_named (fun w => 10 / (inject_Z (wturns p) / inject_Z (wturns w))) (p :: ws) [] p D (or_introl eq_refl))|].
    cbv beta. field. lra.
  - intros w I0. pose proof (PP w I0). eexists. split; [apply (defaults_named (fun w => 10 / (inject_Z (wturns p) / inject_Z (wturns w))) (p :: ws) [] w D I0)|].
    cbv beta. field. split; lra.
Qed.
Example C196_witness :
  voltages_per_turn [{| wname := "p"; wturns := 3 |}; {| wname := "s"; wturns := 1 |}] (insert "s"%string 6 (insert "p"%string 12 []))
    [{| twinding := "p"; tparallel := 0 |}; {| twinding := "s"; tparallel := 0 |}; {| twinding := "p"; tparallel := 1 |};
     {| twinding := "p"; tparallel := 0 |}; {| twinding := "p"; tparallel := 0 |}]
  = voltages_per_turn [{| wname := "p"; wturns := 3 |}; {| wname := "s"; wturns := 1 |}] (insert "p"%string 12 (insert "s"%string 6 []))
    [{| twinding := "p"; tparallel := 0 |}; {| twinding := "s"; tparallel := 0 |}; {| twinding := "p"; tparallel := 1 |};
     {| twinding := "p"; tparallel := 0 |}; {| twinding := "p"; tparallel := 0 |}] /\
  Forall2 Qeq (map snd (voltages_per_turn [{| wname := "p"; wturns := 3 |}; {| wname := "s"; wturns := 1 |}] (insert "s"%string 6 (insert "p"%string 12 []))
    [{| twinding := "p"; tparallel := 0 |}; {| twinding := "s"; tparallel := 0 |}; {| twinding := "p"; tparallel := 1 |};
     {| twinding := "p"; tparallel := 0 |}; {| twinding := "p"; tparallel := 0 |}])) [12; 3; 12; 6; 0].
Proof. split; [reflexivity|]. vm_compute. repeat constructor. Qed.

(** * C197 *)
Lemma pair_eqb_eq : forall p q, pair_eqb p q = true <-> p = q.
Proof.
  intros (a, b) (c, d). unfold pair_eqb. cbn [fst snd]. rewrite andb_true_iff, !Nat.eqb_eq. split; [intros (-> & ->); reflexivity|intro H; injection H; auto].
Qed.
Lemma flip_flip : forall (p : nat * nat), flip (flip p) = p.
Proof. intros (a, b). reflexivity. Qed.
Lemma lookup_cons : forall A p q (a : A) m, lookup p ((q, a) :: m) = if pair_eqb p q then Some a else lookup p m.
Proof. reflexivity. Qed.
Lemma met_iff : forall p seen, met p seen = true <-> In p seen \/ In (flip p) seen.
Proof.
  intros p seen. unfold met. rewrite orb_true_iff, !existsb_exists. split.
  - intros [(q & I0 & E)|(q & I0 & E)]; apply pair_eqb_eq in E; subst; auto.
  - intros [I0|I0]; [left; exists p|right; exists (flip p)]; split; auto; apply pair_eqb_eq; reflexivity.
Qed.
Lemma flip_eqb : forall p q, pair_eqb (flip p) (flip q) = pair_eqb p q.
Proof.
  intros p q. destruct (pair_eqb p q) eqn:E.
  - apply pair_eqb_eq in E. subst. apply pair_eqb_eq. reflexivity.
  - destruct (pair_eqb (flip p) (flip q)) eqn:F; [|reflexivity]. apply pair_eqb_eq in F.
    assert (p = q) by (rewrite <- (flip_flip p), F, flip_flip; reflexivity). subst. assert (pair_eqb q q = true) by (apply pair_eqb_eq; reflexivity). congruence.
Qed.
Lemma among_inv : forall static ps seen m out,
  among_pairs static ps seen m = Ok out ->
  (forall p, lookup p m = lookup (flip p) m) ->
  (forall p, lookup p m <> None <-> In p seen \/ In (flip p) seen) ->
  (forall p c, lookup p m = Some c -> static (fst p) (snd p) = Ok c \/ static (snd p) (fst p) = Ok c) ->
  (forall p, lookup p out = lookup (flip p) out) /\
  (forall p, lookup p out <> None <-> (In p seen \/ In (flip p) seen) \/ (In p ps \/ In (flip p) ps)) /\
  (forall p c, lookup p out = Some c -> static (fst p) (snd p) = Ok c \/ static (snd p) (fst p) = Ok c).
Proof.
  induction ps as [|q ps IH]; intros seen m out H S K V.
  - cbn [among_pairs] in H. injection H as <-. split; [exact S|]. split; [|exact V]. intro p. rewrite K. cbn [In]. tauto.
  - cbn [among_pairs] in H. destruct (met q seen) eqn:M.
    + destruct (IH seen m out H S K V) as (A & B & C). split; [exact A|]. split; [|exact C].
      intro p. rewrite B. apply met_iff in M. split; [cbn [In]; tauto|]. cbn [In].
      intros [X|[[X|X]|[X|X]]]; try tauto.
      * subst q. tauto.
      * left. subst q. rewrite flip_flip in M. tauto.
    + destruct (static (fst q) (snd q)) as [c| | |] eqn:E; cbn [bind] in H; try discriminate.
      assert (NM : ~ (In q seen \/ In (flip q) seen)) by (intro X; apply met_iff in X; congruence).
      destruct (IH (q :: seen) ((flip q, c) :: (q, c) :: m) out H) as (A & B & C).
      * intro p. rewrite !lookup_cons. rewrite flip_eqb.
        rewrite <- (flip_eqb (flip p) q), flip_flip. destruct (pair_eqb p (flip q)), (pair_eqb p q); try reflexivity. apply S.
      * intro p. rewrite !lookup_cons. destruct (pair_eqb p (flip q)) eqn:E1; [|destruct (pair_eqb p q) eqn:E2].
        -- apply pair_eqb_eq in E1. subst p. rewrite flip_flip. cbn [In]. split; [tauto|discriminate].
        -- apply pair_eqb_eq in E2. subst p. cbn [In]. split; [tauto|discriminate].
        -- rewrite K. cbn [In]. split; [tauto|]. intros [[X|X]|[X|X]]; try tauto.
           ++ subst q. assert (pair_eqb p p = true) by (apply pair_eqb_eq; reflexivity). congruence.
           ++ subst q. rewrite flip_flip in E1. assert (pair_eqb p p = true) by (apply pair_eqb_eq; reflexivity). congruence.
      * intros p c'. rewrite !lookup_cons. destruct (pair_eqb p (flip q)) eqn:E1; [|destruct (pair_eqb p q) eqn:E2; [|apply V]].
        -- apply pair_eqb_eq in E1. subst p. intro X. injection X as <-. right. exact E.
        -- apply pair_eqb_eq in E2. subst p. intro X. injection X as <-. left. exact E.
      * split; [exact A|]. split; [|exact C]. intro p. rewrite B. cbn [In].
        split; [intros [[[X|X]|[X|X]]|X]; tauto|]. tauto.
Qed.
Lemma listed : forall near k i j, In (i, j) (flat_map (fun x : nat * list nat => map (fun j => (fst x, j)) (snd x)) (combine (seq k (List.length near)) near)) <->
  (exists l, nth_error near (i - k) = Some l /\ (k <= i)%nat /\ In j l).
Proof.
  induction near as [|l near IH]; intros k i j.
  - cbn. split; [contradiction|]. intros (l & H & _). destruct (i - k)%nat; discriminate.
  - cbn [List.length seq combine flat_map]. rewrite in_app_iff, IH. cbn [fst snd]. rewrite in_map_iff. split.
    + intros [(x & E & I0)|(l' & H & L & I0)].
      * injection E as <- <-. exists l. rewrite Nat.sub_diag. repeat split; auto.
      * exists l'. replace (i - k)%nat with (S (i - S k)) by lia. repeat split; auto. lia.
    + intros (l' & H & L & I0). destruct (Nat.eq_dec i k) as [->|N].
      * left. rewrite Nat.sub_diag in H. cbn [nth_error] in H. injection H as ->. exists j. auto.
      * right. exists l'. replace (i - k)%nat with (S (i - S k)) in H by lia. repeat split; auto. lia.
Qed.
Definition around (near : list (list nat)) (i j : nat) : Prop := exists l, nth_error near i = Some l /\ In j l.
(** A capacitance is listed exactly for turns one of which is around the other,
    it is the same both ways, and it is the capacitance of the two turns. *)
Theorem C197_symmetric : forall static near m, among_turns static near = Ok m ->
  forall i j, lookup (i, j) m = lookup (j, i) m /\
    (lookup (i, j) m <> None <-> around near i j \/ around near j i) /\
    (forall c, lookup (i, j) m = Some c -> static i j = Ok c \/ static j i = Ok c).
Proof.
  intros static near m H i j. unfold among_turns in H.
  destruct (among_inv _ _ _ _ _ H) as (A & B & C).
  - reflexivity.
  - intro p. cbn. split; [congruence|tauto].
  - discriminate.
  - split; [exact (A (i, j))|]. split; [|intros c E; exact (C (i, j) c E)]. rewrite B. cbn [In].
    assert (L : forall a b, In (a, b) (flat_map (fun x : nat * list nat => map (fun j => (fst x, j)) (snd x)) (combine (seq 0 (List.length near)) near)) <-> around near a b).
    { intros a b. rewrite listed. unfold around. rewrite Nat.sub_0_r. split; intros (l & X); exists l; intuition lia. }
    change (flip (i, j)) with (j, i). rewrite !L. tauto.
Qed.
(** The only way to fail is a pair that fails. *)
Lemma among_fails : forall static ps seen m, (forall p, In p ps -> exists c, static (fst p) (snd p) = Ok c) ->
  exists out, among_pairs static ps seen m = Ok out.
Proof.
  induction ps as [|q ps IH]; intros seen m H; [eexists; reflexivity|]. cbn [among_pairs]. destruct (met q seen).
  - apply IH. intros p I0. apply H. right. exact I0.
  - destruct (H q (or_introl eq_refl)) as (c & ->). cbn [bind]. apply IH. intros p I0. apply H. right. exact I0.
Qed.
Theorem C197_answers : forall static near, (forall i j, around near i j -> exists c, static i j = Ok c) ->
  exists m, among_turns static near = Ok m.
Proof.
  intros static near H. apply among_fails. intros (i, j) I0. apply listed in I0. destruct I0 as (l & A & _ & B). apply H. exists l. rewrite Nat.sub_0_r in A. auto.
Qed.
Example C197_witness : exists m, among_turns (fun i j => Ok (inject_Z (Z.of_nat (10 * i + j)))) [[1%nat]; [0%nat; 2%nat]; []] = Ok m /\
  lookup (1%nat, 0%nat) m = Some 1 /\ lookup (2%nat, 1%nat) m = Some 12 /\ lookup (0%nat, 2%nat) m = None.
Proof. eexists. split; [reflexivity|]. repeat split. Qed.

(** * C198 *)
Definition total (cv : list (Q * Q)) : Q := Qsum (map fst cv).
(** The energy with the core at potential [u], and the charge on the core. *)
Definition energy_at (u : Q) (cv : list (Q * Q)) : Q := Qsum (map (fun x => (1 # 2) * fst x * ((snd x - u) * (snd x - u))) cv).
Definition charge_at (u : Q) (cv : list (Q * Q)) : Q := Qsum (map (fun x => fst x * (snd x - u)) cv).

Lemma fold_sum : forall A (f : A -> Q) l acc, fold_left (fun acc x => acc + f x) l acc == acc + Qsum (map f l).
Proof.
  induction l as [|x l IH]; intro acc; [cbn; ring|]. cbn [fold_left map]. rewrite IH. cbn [Qsum]. ring.
Qed.
Lemma charge_eq : forall cv u, charge_at u cv == Qsum (map (fun x => fst x * snd x) cv) - u * total cv.
Proof.
  unfold charge_at, total. induction cv as [|x cv IH]; intro u; [cbn; ring|]. cbn [map]. cbn [Qsum] in *. rewrite IH. ring.
Qed.
Lemma energy_shift : forall cv u w, energy_at u cv == energy_at w cv - (u - w) * charge_at w cv + (1 # 2) * ((u - w) * (u - w)) * total cv.
Proof.
  unfold energy_at, charge_at, total. induction cv as [|x cv IH]; intros u w; [cbn; ring|]. cbn [map]. cbn [Qsum] in *. rewrite (IH u w). ring.
Qed.
Lemma core_potential_eq : forall cv, core_potential cv == Qsum (map (fun x => fst x * snd x) cv) / total cv.
Proof. intro cv. unfold core_potential. rewrite !fold_sum. unfold total. rewrite !Qplus_0_l. reflexivity. Qed.
Lemma core_energy_eq : forall cv, core_energy cv == energy_at (core_potential cv) cv.
Proof. intro cv. unfold core_energy. rewrite (fold_sum _ (fun x => (1 # 2) * fst x * ((snd x - core_potential cv) * (snd x - core_potential cv)))). apply Qplus_0_l. Qed.
Lemma energy_proper : forall cv u w, u == w -> energy_at u cv == energy_at w cv.
Proof. intros cv u w E. unfold energy_at. induction cv as [|x cv IH]; [reflexivity|]. cbn [map]. cbn [Qsum] in *. rewrite IH, E. reflexivity. Qed.
Lemma energy_nonneg : forall cv u, Forall (fun x => 0 <= fst x) cv -> 0 <= energy_at u cv.
Proof.
  intros cv u H. unfold energy_at. induction H as [|x cv P H IH]; [cbn; lra|]. cbn [map]. cbn [Qsum] in *.
  assert (0 <= (1 # 2) * fst x * ((snd x - u) * (snd x - u))); [|lra]. apply Qmult_le_0_compat; [lra|].
  destruct (Qlt_le_dec (snd x) u); nra.
Qed.
Lemma total_nonneg : forall cv, Forall (fun x : Q * Q => 0 <= fst x) cv -> 0 <= total cv.
Proof. intros cv H. unfold total. induction H as [|x cv P H IH]; [cbn; lra|]. cbn [map]. cbn [Qsum] in *. lra. Qed.

(** The core carries no charge, and no other potential stores less energy. *)
Theorem C198_charge_balance : forall cv, 0 < total cv -> charge_at (core_potential cv) cv == 0.
Proof. intros cv P. rewrite charge_eq, core_potential_eq. field. lra. Qed.
Theorem C198_least_energy : forall cv, 0 < total cv -> Forall (fun x => 0 <= fst x) cv ->
  self_energy cv == energy_at (core_potential cv) cv /\ 0 <= self_energy cv /\
  (forall u, self_energy cv <= energy_at u cv).
Proof.
  intros cv P F. assert (E : self_energy cv == energy_at (core_potential cv) cv).
  { unfold self_energy. destruct (Qle_bool _ 0) eqn:L; [|apply core_energy_eq].
    apply Qle_bool_iff in L. rewrite fold_sum in L. fold (total cv) in L. lra. }
  split; [exact E|]. split; [rewrite E; apply energy_nonneg, F|].
  intro u. rewrite E, (energy_shift cv u (core_potential cv)), C198_charge_balance by exact P.
  assert (0 <= (u - core_potential cv) * (u - core_potential cv)) by (destruct (Qlt_le_dec u (core_potential cv)); nra). nra.
Qed.
(** Only differences count: the whole winding may float. *)
Theorem C198_floats : forall cv k, 0 < total cv -> Forall (fun x => 0 <= fst x) cv ->
  self_energy (map (fun x => (fst x, snd x + k)) cv) == self_energy cv.
Proof.
  intros cv k P F. set (cv' := map (fun x => (fst x, snd x + k)) cv).
  assert (T : total cv' == total cv) by (unfold total, cv'; rewrite map_map; reflexivity).
  assert (F' : Forall (fun x => 0 <= fst x) cv') by (unfold cv'; apply Forall_map; exact F).
  assert (EN : forall u, energy_at (u + k) cv' == energy_at u cv).
  { intro u. unfold energy_at, cv'. rewrite map_map. clear. induction cv as [|x cv IH]; [reflexivity|]. cbn [map fst snd]. cbn [Qsum] in *. rewrite IH. ring. }
  destruct (C198_least_energy cv P F) as (E1 & _ & M1). destruct (C198_least_energy cv' ltac:(lra) F') as (E2 & _ & M2).
  apply Qle_antisym.
  - eapply Qle_trans; [apply (M2 (core_potential cv + k))|]. rewrite EN, E1. lra.
  - eapply Qle_trans; [apply (M1 (core_potential cv' - k))|]. rewrite <- EN. rewrite (energy_proper cv' (core_potential cv' - k + k) (core_potential cv')) by ring. rewrite E2. lra.
Qed.
(** One turn alone stores nothing. *)
Theorem C198_one_turn : forall c v, self_energy [(c, v)] == 0.
Proof.
  intros c v. unfold self_energy. destruct (Qle_bool _ 0) eqn:L; [reflexivity|]. apply Qle_bool_false in L. cbn [fold_left fst] in L.
  unfold core_energy, core_potential. cbn [fold_left fst snd]. field. lra.
Qed.

(** Through the core. *)
Lemma fold_max : forall l x, x <= fold_left cmax l x /\ (forall y, In y l -> y <= fold_left cmax l x).
Proof.
  induction l as [|z l IH]; intro x; [split; [apply Qle_refl|contradiction]|]. cbn [fold_left]. destruct (IH (cmax x z)) as (A & B).
  pose proof (cmax_ge_l x z). pose proof (cmax_ge_r x z). split; [lra|]. intros y [->|I0]; [lra|apply B, I0].
Qed.
Lemma fold_min : forall l x, fold_left cmin l x <= x /\ (forall y, In y l -> fold_left cmin l x <= y).
Proof.
  induction l as [|z l IH]; intro x; [split; [apply Qle_refl|contradiction]|]. cbn [fold_left]. destruct (IH (cmin x z)) as (A & B).
  pose proof (cmin_le_l x z). pose proof (cmin_le_r x z). split; [lra|]. intros y [->|I0]; [lra|apply B, I0].
Qed.
Lemma largest_spec : forall l h, largest l = Some h -> forall y, In y l -> y <= h.
Proof. intros [|x l] h H y I0; [discriminate|]. cbn [largest] in H. injection H as <-. destruct (fold_max l x) as (A & B). destruct I0 as [->|I0]; [exact A|apply B, I0]. Qed.
Lemma smallest_spec : forall l h, smallest l = Some h -> forall y, In y l -> h <= y.
Proof. intros [|x l] h H y I0; [discriminate|]. cbn [smallest] in H. injection H as <-. destruct (fold_min l x) as (A & B). destruct I0 as [->|I0]; [exact A|apply B, I0]. Qed.
Lemma fold_max_in : forall l x, fold_left cmax l x = x \/ In (fold_left cmax l x) l.
Proof. induction l as [|z l IH]; intro x; [left; reflexivity|]. cbn [fold_left]. destruct (IH (cmax x z)) as [E|E]; [|right; right; exact E]. rewrite E. destruct (cmax_case x z) as [->| ->]; [left; reflexivity|right; left; reflexivity]. Qed.
Lemma fold_min_in : forall l x, fold_left cmin l x = x \/ In (fold_left cmin l x) l.
Proof. induction l as [|z l IH]; intro x; [left; reflexivity|]. cbn [fold_left]. destruct (IH (cmin x z)) as [E|E]; [|right; right; exact E]. rewrite E. destruct (cmin_case x z) as [->| ->]; [left; reflexivity|right; left; reflexivity]. Qed.
Lemma largest_in : forall l h, largest l = Some h -> In h l.
Proof. intros [|x l] h H; [discriminate|]. cbn [largest] in H. injection H as <-. destruct (fold_max_in l x) as [->|I0]; [left; reflexivity|right; exact I0]. Qed.
Lemma smallest_in : forall l h, smallest l = Some h -> In h l.
Proof. intros [|x l] h H; [discriminate|]. cbn [smallest] in H. injection H as <-. destruct (fold_min_in l x) as [->|I0]; [left; reflexivity|right; exact I0]. Qed.

(** Popoviciu: within a span [d] the energy is at most an eighth of the total
    times the square of the span. *)
Lemma span_energy : forall cv lo hi, Forall (fun x => 0 <= fst x /\ lo <= snd x /\ snd x <= hi) cv ->
  energy_at ((lo + hi) * (1 # 2)) cv <= (1 # 8) * ((hi - lo) * (hi - lo)) * total cv.
Proof.
  intros cv lo hi H. unfold energy_at, total. induction H as [|x cv (P & L & U) H IH]; [cbn; lra|]. cbn [map]. cbn [Qsum] in *.
  set (d := snd x - (lo + hi) * (1 # 2)). assert (D : d * d <= (1 # 4) * ((hi - lo) * (hi - lo))).
  { assert (0 <= (snd x - lo) * (hi - snd x)) by (apply Qmult_le_0_compat; lra). unfold d. nra. }
  assert (fst x * (d * d) <= fst x * ((1 # 4) * ((hi - lo) * (hi - lo)))) by (rewrite !(Qmult_comm (fst x)); apply Qmult_le_compat_r; assumption). nra.
Qed.
(** It is never negative and never more than a quarter of all the elements. *)
Theorem C198_through_core_bounds : forall cv, Forall (fun x => 0 <= fst x) cv ->
  0 <= through_core cv /\ 4 * through_core cv <= total cv.
Proof.
  intros cv F. pose proof (total_nonneg cv F) as T0. unfold through_core. destruct (Qle_bool _ 0) eqn:L; [split; lra|].
  apply Qle_bool_false in L. rewrite fold_sum in L. fold (total cv) in L. assert (T : 0 < total cv) by lra.
  destruct (largest _) as [hi|] eqn:HI; [|split; lra]. destruct (smallest _) as [lo|] eqn:LO; [|split; lra].
  destruct (Qle_bool (hi - lo) 0) eqn:D; [split; lra|]. apply Qle_bool_false in D.
  assert (DD : 0 < (hi - lo) * (hi - lo)) by (apply Qmult_lt_0_compat; lra).
  pose proof (C198_least_energy cv T F) as (E & _ & M). 
  assert (SE : self_energy cv == core_energy cv) by (rewrite E, core_energy_eq; reflexivity).
  assert (IN : Forall (fun x => 0 <= fst x /\ lo <= snd x /\ snd x <= hi) cv).
  { rewrite Forall_forall in *. intros x I0. split; [apply F, I0|].
    assert (HP : 0 <= hi) by (pose proof (largest_in _ _ HI) as X; apply filter_In in X; apply Qle_bool_iff, (proj2 X)).
    assert (LP : lo < 0) by (pose proof (smallest_in _ _ LO) as X; apply filter_In in X; destruct X as (_ & X); apply negb_true_iff, Qle_bool_false in X; exact X).
    assert (IX : In (snd x) (map snd cv)) by (apply in_map, I0).
    destruct (Qle_bool 0 (snd x)) eqn:G.
    - split; [apply Qle_bool_iff in G; lra|]. apply (largest_spec _ _ HI). apply filter_In. split; [exact IX|exact G].
    - split; [|apply Qle_bool_false in G; lra]. apply (smallest_spec _ _ LO). apply filter_In. split; [exact IX|rewrite G; reflexivity]. }
  pose proof (span_energy cv lo hi IN) as S. pose proof (M ((lo + hi) * (1 # 2))) as M'. rewrite SE in M'.
  split.
  - apply Qle_div_iff; [exact DD|]. assert (0 <= core_energy cv) by (rewrite core_energy_eq; apply energy_nonneg, F). lra.
  - assert (X : 2 * core_energy cv / ((hi - lo) * (hi - lo)) <= (1 # 4) * total cv); [|lra].
    apply Qdiv_le_iff; [exact DD|]. lra.
Qed.
(** Two windings, each at one potential: the two capacitances to the core, in
    series. *)
Theorem C198_series : forall ca cb v w, 0 < ca -> 0 < cb -> 0 <= v -> 0 < w ->
  through_core [(ca, v); (cb, - w)] == ca * cb / (ca + cb).
Proof.
  intros ca cb v w A B V W. unfold through_core. cbn [fold_left fst].
  replace (Qle_bool (0 + ca + cb) 0) with false by (symmetry; apply Qle_bool_false; lra).
  cbn [map snd filter]. replace (Qle_bool 0 v) with true by (symmetry; apply Qle_bool_iff; exact V).
  replace (Qle_bool 0 (- w)) with false by (symmetry; apply Qle_bool_false; lra). cbn [negb largest smallest fold_left].
  replace (Qle_bool (v - - w) 0) with false by (symmetry; apply Qle_bool_false; lra).
  unfold core_energy, core_potential. cbn [fold_left fst snd]. field. split; lra.
Qed.
(** The potentials may all be scaled. *)
Lemma filter_scale : forall (p : Q -> bool) k l, (forall x, p (k * x) = p x) -> filter p (map (fun v => k * v) l) = map (fun v => k * v) (filter p l).
Proof. intros p k l H. induction l as [|x l IH]; [reflexivity|]. cbn [map filter]. rewrite H. destruct (p x); cbn [map]; rewrite IH; reflexivity. Qed.
Lemma cmax_scale : forall k a b, 0 < k -> cmax (k * a) (k * b) = k * cmax a b.
Proof.
  intros k a b K. unfold cmax. replace (Qlt_bool (k * a) (k * b)) with (Qlt_bool a b); [destruct (Qlt_bool a b); reflexivity|].
  destruct (Qlt_bool a b) eqn:E; symmetry; [apply Qlt_bool_iff in E; apply Qlt_bool_iff|apply Qlt_bool_false in E; apply Qlt_bool_false]; nra.
Qed.
Lemma cmin_scale : forall k a b, 0 < k -> cmin (k * a) (k * b) = k * cmin a b.
Proof.
  intros k a b K. unfold cmin. replace (Qlt_bool (k * b) (k * a)) with (Qlt_bool b a); [destruct (Qlt_bool b a); reflexivity|].
  destruct (Qlt_bool b a) eqn:E; symmetry; [apply Qlt_bool_iff in E; apply Qlt_bool_iff|apply Qlt_bool_false in E; apply Qlt_bool_false]; nra.
Qed.
Lemma largest_scale : forall k l, 0 < k -> largest (map (fun v => k * v) l) = option_map (fun v => k * v) (largest l).
Proof.
  intros k [|x l] K; [reflexivity|]. cbn [map largest option_map]. f_equal. revert x. induction l as [|y l IH]; intro x; [reflexivity|].
  cbn [map fold_left]. rewrite cmax_scale by exact K. apply IH.
Qed.
Lemma smallest_scale : forall k l, 0 < k -> smallest (map (fun v => k * v) l) = option_map (fun v => k * v) (smallest l).
Proof.
  intros k [|x l] K; [reflexivity|]. cbn [map smallest option_map]. f_equal. revert x. induction l as [|y l IH]; intro x; [reflexivity|].
  cbn [map fold_left]. rewrite cmin_scale by exact K. apply IH.
Qed.
Theorem C198_scale : forall cv k, 0 < k -> Forall (fun x => 0 <= fst x) cv ->
  through_core (map (fun x => (fst x, k * snd x)) cv) == through_core cv.
Proof.
  intros cv k K F. set (cv' := map (fun x => (fst x, k * snd x)) cv).
  assert (T : total cv' == total cv) by (unfold total, cv'; rewrite map_map; reflexivity).
  assert (SN : map snd cv' = map (fun v => k * v) (map snd cv)) by (unfold cv'; rewrite !map_map; reflexivity).
  assert (G0 : forall x, Qle_bool 0 (k * x) = Qle_bool 0 x).
  { intro x. destruct (Qle_bool 0 x) eqn:E; [apply Qle_bool_iff in E; apply Qle_bool_iff|apply Qle_bool_false in E; apply Qle_bool_false]; nra. }
  unfold through_core. 
  assert (TB : Qle_bool (fold_left (fun acc x => acc + fst x) cv' 0) 0 = Qle_bool (fold_left (fun acc x => acc + fst x) cv 0) 0).
  { destruct (Qle_bool (fold_left _ cv 0) 0) eqn:E.
    - apply Qle_bool_iff in E. apply Qle_bool_iff. rewrite fold_sum in *. fold (total cv) in E. fold (total cv'). lra.
    - apply Qle_bool_false in E. apply Qle_bool_false. rewrite fold_sum in *. fold (total cv) in E. fold (total cv'). lra. }
  rewrite TB. destruct (Qle_bool (fold_left _ cv 0) 0) eqn:E; [reflexivity|].
  apply Qle_bool_false in E. rewrite fold_sum in E. fold (total cv) in E.
  rewrite SN, (filter_scale (fun v => Qle_bool 0 v)), (filter_scale (fun v => negb (Qle_bool 0 v))) by (intro x; rewrite ?G0; reflexivity).
  rewrite largest_scale, smallest_scale by exact K.
  destruct (largest _) as [hi|]; cbn [option_map]; [|reflexivity]. destruct (smallest _) as [lo|]; cbn [option_map]; [|reflexivity].
  assert (DB : Qle_bool (k * hi - k * lo) 0 = Qle_bool (hi - lo) 0).
  { destruct (Qle_bool (hi - lo) 0) eqn:D; [apply Qle_bool_iff in D; apply Qle_bool_iff|apply Qle_bool_false in D; apply Qle_bool_false]; nra. }
  rewrite DB. destruct (Qle_bool (hi - lo) 0) eqn:D; [reflexivity|]. apply Qle_bool_false in D.
  assert (CP : core_potential cv' == k * core_potential cv).
  { rewrite !core_potential_eq, T. unfold cv'. rewrite map_map. cbn [fst snd].
    assert (S : Qsum (map (fun x => fst x * (k * snd x)) cv) == k * Qsum (map (fun x => fst x * snd x) cv)).
    { clear. induction cv as [|x cv IH]; [cbn; ring|]. cbn [map]. cbn [Qsum] in *. rewrite IH. ring. }
    rewrite S. field. lra. }
  assert (CE : core_energy cv' == k * k * core_energy cv).
  { rewrite !core_energy_eq. rewrite (energy_proper cv' _ _ CP). unfold energy_at, cv'. rewrite map_map. cbn [fst snd]. generalize (core_potential cv). intro u.
    clear. induction cv as [|x cv IH]; [cbn; ring|]. cbn [map]. cbn [Qsum] in *. rewrite IH. ring. }
  assert (KD : 0 < k * (hi - lo)) by (apply Qmult_lt_0_compat; lra).
  assert (DD : k * hi - k * lo == k * (hi - lo)) by ring. rewrite CE, DD. field. repeat split; lra.
Qed.
Example C198_witness : self_energy [(1, 10); (2, 4); (1, 0)] == 51 # 2 /\ core_potential [(1, 10); (2, 4); (1, 0)] == 9 # 2 /\ through_core [(2, 10); (2, 0); (1, - (5))] == 4 # 5.
Proof. repeat split. Qed.
Print Assumptions C196_every_turn.
Print Assumptions C196_ends.
Print Assumptions C196_chain.
Print Assumptions C196_between.
Print Assumptions C196_parallels_agree.
Print Assumptions C196_single.
Print Assumptions C196_default_voltages.
Print Assumptions C197_symmetric.
Print Assumptions C197_answers.
Print Assumptions C198_charge_balance.
Print Assumptions C198_least_energy.
Print Assumptions C198_floats.
Print Assumptions C198_one_turn.
Print Assumptions C198_through_core_bounds.
Print Assumptions C198_series.
Print Assumptions C198_scale.
