(** Properties C24, C25, C26 (linear mode), C28, C29, C45, C46. *)
From Coq Require Import ZArith QArith Qround Qabs List String Bool Lia Lqa Arith.
From Verif Require Import Base QAux UtilsNumModel UtilsNumProofs.
Import ListNotations.
Open Scope Q_scope.

(** ** Specification vocabulary *)

(** The documented reading of a requirement. *)
Inductive meets : dwt -> Q -> Prop :=
| meets_range : forall mn nom mx v, mn <= v -> v <= mx -> meets (mk_dwt (Some mn) nom (Some mx)) v
| meets_from_nominal : forall n mx v, n <= v -> v <= mx -> meets (mk_dwt None (Some n) (Some mx)) v
| meets_to_nominal : forall mn n v, mn <= v -> v <= n -> meets (mk_dwt (Some mn) (Some n) None) v
| meets_nominal : forall n v, n - n * (25#100) <= v -> v <= n + n * (25#100) ->
    meets (mk_dwt None (Some n) None) v
| meets_minimum : forall mn v, mn < v -> meets (mk_dwt (Some mn) None None) v
| meets_maximum : forall mx v, v < mx -> meets (mk_dwt None None (Some mx)) v.

(** A requirement whose bounds are in the wrong order. *)
Definition out_of_order (a b : option Q) : Prop :=
  match a, b with Some x, Some y => y < x | _, _ => False end.
Definition contradictory (r : dwt) : Prop :=
  out_of_order (minimum r) (maximum r) \/ out_of_order (minimum r) (nominal r) \/
  out_of_order (nominal r) (maximum r).

Definition throws {A} (o : outcome A) : Prop := exists e, o = Throw e.

(** ** C24 *)
Theorem C24_consistent_requirement_decided : forall r v,
  ~ contradictory r ->
  exists b, check_requirement r v = Ok b /\ (b = true <-> meets r v).
Proof.
  intros [[mn|] [n|] [mx|]] v Hc; unfold contradictory, out_of_order in Hc; cbn in Hc;
    unfold check_requirement; cbn [minimum nominal maximum];
    repeat match goal with
    | |- context [Qlt_bool ?a ?b] =>
        match goal with |- exists _, (if Qlt_bool a b then _ else _) = _ /\ _ => idtac end;
        let E := fresh in destruct (Qlt_bool a b) eqn:E; qb; [exfalso; lra|]
    end;
    (eexists; split; [reflexivity|]).
  all: split; [intros Hx; qb; try discriminate | intros Hx; inversion Hx; subst; rewrite ?Bool.andb_true_iff, ?Qle_bool_iff, ?Qlt_bool_iff].
  all: try (constructor; unfold magnetizingInductanceThresholdValidity in *; lra).
  all: unfold magnetizingInductanceThresholdValidity; try split; lra.
Qed.

(** An error is answered only for a contradictory requirement, and for every
    contradictory one but the nominal-below-minimum case with both bounds given. *)
Theorem C24_contradictory_rejected_partial : forall r v,
  (throws (check_requirement r v) -> contradictory r) /\
  (contradictory r ->
   throws (check_requirement r v) \/
   (maximum r <> None /\ out_of_order (minimum r) (nominal r))).
Proof.
  intros [[mn|] [n|] [mx|]] v; unfold contradictory, out_of_order, throws, check_requirement; cbn;
    repeat match goal with
    | |- context [Qlt_bool ?a ?b] => let E := fresh in destruct (Qlt_bool a b) eqn:E; qb
    end;
    (split; [intros [e He]; try discriminate; try tauto; lra
            | intros Hc; try (left; eexists; reflexivity);
              try (exfalso; lra); try tauto;
              try (right; split; [discriminate|]; lra)]).
Qed.

(** The full claim is false of the code: nominal below minimum is answered. *)
Theorem C24_contradictory_rejected_refuted :
  exists r v, contradictory r /\ check_requirement r v = Ok true.
Proof.
  exists (mk_dwt (Some 2) (Some 1) (Some 3)), 2. split; [|reflexivity].
  right. left. cbn. lra.
Qed.

(** The accepted values of any requirement form an interval. *)
Theorem C24_accepted_values_are_an_interval : forall r u v w,
  check_requirement r u = Ok true -> check_requirement r w = Ok true ->
  u <= v -> v <= w -> check_requirement r v = Ok true.
Proof.
  intros [[mn|] [n|] [mx|]] u v w; unfold check_requirement; cbn;
    repeat match goal with
    | |- context [if Qlt_bool ?a ?b then Throw _ else _] => destruct (Qlt_bool a b); try discriminate
    end;
    intros H1 H2 H3 H4; try discriminate; f_equal; injection H1 as H1; injection H2 as H2; qb;
    rewrite ?Bool.andb_true_iff, ?Qle_bool_iff, ?Qlt_bool_iff; try split; lra.
Qed.

(** A nominal-only requirement on a negative quantity rejects even its own
    nominal value (the tolerance interval is empty). *)
Theorem C24_negative_nominal_refuted : exists n,
  check_requirement (mk_dwt None (Some n) None) n = Ok false.
Proof. exists (-(1)). reflexivity. Qed.

Theorem C24_nonnegative_nominal_accepts_itself : forall n, 0 <= n ->
  check_requirement (mk_dwt None (Some n) None) n = Ok true.
Proof.
  intros n H. unfold check_requirement; cbn [minimum nominal maximum]. f_equal.
  unfold magnetizingInductanceThresholdValidity.
  rewrite Bool.andb_true_iff, !Qle_bool_iff. lra.
Qed.

Example C24_witness :
  ~ contradictory (mk_dwt (Some 1) (Some 2) (Some 3)) /\
  check_requirement (mk_dwt (Some 1) (Some 2) (Some 3)) 3 = Ok true /\
  check_requirement (mk_dwt (Some 1) (Some 2) (Some 3)) 4 = Ok false /\
  check_requirement (mk_dwt (Some 1) None None) 1 = Ok false.
Proof. split; [|vm_compute; auto]. unfold contradictory; cbn. lra. Qed.

(** ** C25 *)
Definition resolves (d : dimension) (p : dimensional_values) (v : Q) : Prop :=
  resolve_dimensional_values d p = Ok v.

Theorem C25_missing_iff_error : forall d p,
  throws (resolve_dimensional_values d p) <->
  d = DTol (mk_dwt None None None).
Proof.
  intros [v|[[a|] [b|] [c|]]] [| |]; unfold throws; cbn; split; intros H;
    try discriminate; try reflexivity; try (destruct H; discriminate); eauto.
Qed.

Theorem C25_total : forall d p,
  d <> DTol (mk_dwt None None None) -> exists v, resolves d p v.
Proof.
  intros [v|[[a|] [b|] [c|]]] [| |] H; unfold resolves; cbn; eauto; congruence.
Qed.

Theorem C25_resolution_within_tolerance : forall r p v,
  ~ contradictory r -> resolves (DTol r) p v ->
  (forall mn, minimum r = Some mn -> mn <= v) /\
  (forall mx, maximum r = Some mx -> v <= mx).
Proof.
  intros [[a|] [b|] [c|]] [| |] v Hc H; unfold contradictory, out_of_order in Hc; cbn in *;
    unfold resolves in H; cbn in H; injection H as <- || discriminate;
    split; intros q Hq; injection Hq as <- || discriminate; try lra;
    try (apply Qle_div_iff; lra); try (apply Qdiv_le_iff; lra).
Qed.

Theorem C25_resolutions_are_ordered : forall d lo n hi,
  (forall r, d = DTol r -> ~ contradictory r) ->
  resolves d MINIMUM lo -> resolves d NOMINAL n -> resolves d MAXIMUM hi ->
  lo <= n /\ n <= hi.
Proof.
  intros [v|[[a|] [b|] [c|]]] lo n hi Hc H1 H2 H3; unfold resolves in *; cbn in *;
    try discriminate; injection H1 as <-; injection H2 as <-; injection H3 as <-;
    try lra; specialize (Hc _ eq_refl); unfold contradictory, out_of_order in Hc; cbn in Hc;
    split; try lra; try (apply Qle_div_iff; lra); try (apply Qdiv_le_iff; lra).
Qed.

(** The exact preferred value is returned when it is present. *)
Theorem C25_preferred_value_first : forall r v,
  (maximum r = Some v -> resolves (DTol r) MAXIMUM v) /\
  (nominal r = Some v -> resolves (DTol r) NOMINAL v) /\
  (minimum r = Some v -> resolves (DTol r) MINIMUM v) /\
  (forall p, resolves (DNumber v) p v).
Proof.
  intros [[a|] [b|] [c|]] v; unfold resolves; cbn; repeat split; intros H; try discriminate; try congruence; reflexivity.
Qed.

(** Otherwise the closest limit stands in, and the middle of the range for a
    missing nominal. *)
Theorem C25_fallbacks : forall a b,
  resolves (DTol (mk_dwt a (Some b) None)) MAXIMUM b /\
  resolves (DTol (mk_dwt (Some b) None None)) MAXIMUM b /\
  resolves (DTol (mk_dwt None (Some b) a)) MINIMUM b /\
  resolves (DTol (mk_dwt None None (Some b))) MINIMUM b /\
  resolves (DTol (mk_dwt (Some b) None None)) NOMINAL b /\
  resolves (DTol (mk_dwt None None (Some b))) NOMINAL b /\
  (forall c, exists m, resolves (DTol (mk_dwt (Some b) None (Some c))) NOMINAL m /\ m - b == c - m).
Proof.
  intros [a|] b; unfold resolves; cbn; repeat split; intros c; eexists; (split; [reflexivity|field]).
Qed.

Example C25_witness :
  ~ contradictory (mk_dwt (Some 1) None (Some 3)) /\
  resolves (DTol (mk_dwt (Some 1) None (Some 3))) NOMINAL (4 / 2).
Proof. split; [unfold contradictory; cbn; lra | reflexivity]. Qed.

(** ** C26, linear mode *)
Theorem C26_nan_is_refused : forall scores w inv,
  throws (normalize_scoring scores w inv) <-> In None scores.
Proof. exact normalize_scoring_nan_iff. Qed.

Theorem C26_normalised_scores : forall (scores : list Q) w inv,
  0 <= w ->
  exists ns, normalize_scoring (map Some scores) w inv = Ok ns /\
    List.length ns = List.length scores /\
    (* every score is normalised *)
    (forall i, (i < List.length scores)%nat -> 0 <= nth i ns 0 <= w) /\
    (* order is kept, or reversed when inverted *)
    (forall i j, (i < List.length scores)%nat -> (j < List.length scores)%nat ->
       nth i scores 0 <= nth j scores 0 ->
       if inv then nth j ns 0 <= nth i ns 0 else nth i ns 0 <= nth j ns 0) /\
    (forall i j, (i < List.length scores)%nat -> (j < List.length scores)%nat ->
       0 < w -> nth i scores 0 < nth j scores 0 ->
       if inv then nth j ns 0 < nth i ns 0 else nth i ns 0 < nth j ns 0) /\
    (* the best candidate gets the full weight *)
    (forall i, (i < List.length scores)%nat ->
       (forall k, (k < List.length scores)%nat ->
          if inv then nth i scores 0 <= nth k scores 0 else nth k scores 0 <= nth i scores 0) ->
       nth i ns 0 == w) /\
    (* the worst gets nothing unless all are equal *)
    (forall i j, (i < List.length scores)%nat -> (j < List.length scores)%nat ->
       ~ nth i scores 0 == nth j scores 0 ->
       (forall k, (k < List.length scores)%nat ->
          if inv then nth k scores 0 <= nth i scores 0 else nth i scores 0 <= nth k scores 0) ->
       nth i ns 0 == 0).
Proof.
  intros scores w inv Hw. destruct scores as [|x l].
  { exists []. split; [reflexivity|]. split; [reflexivity|]. repeat split; intros; simpl in *; lia. }
  exists (map (normalize_one (Qmaxl x l) (Qminl x l) w inv) (x :: l)).
  split; [apply normalize_scoring_some|].
  split; [apply map_length|].
  set (v := x :: l). set (mx := Qmaxl x l). set (mn := Qminl x l).
  destruct (Qmaxl_spec l x) as [Mi Mb]. destruct (Qminl_spec l x) as [mi mb].
  fold v mx in Mi, Mb. fold v mn in mi, mb.
  assert (N : forall i, (i < List.length v)%nat ->
     nth i (map (normalize_one mx mn w inv) v) 0 = normalize_one mx mn w inv (nth i v 0)).
  { intros i Hi. rewrite (nth_indep _ 0 (normalize_one mx mn w inv 0)) by (rewrite map_length; exact Hi).
    apply map_nth. }
  assert (B : forall i, (i < List.length v)%nat -> mn <= nth i v 0 /\ nth i v 0 <= mx).
  { intros i Hi. split; [apply mb | apply Mb]; apply nth_In; assumption. }
  assert (Hmm : mn <= mx) by (destruct (B 0%nat); [simpl; lia|lra]).
  repeat split.
  - rewrite N by assumption. apply normalize_one_range; try assumption; now apply B.
  - rewrite N by assumption. apply normalize_one_range; try assumption; now apply B.
  - intros i j Hi Hj H. rewrite !N by assumption.
    destruct (Qeq_dec mx mn) as [E|E].
    + rewrite !normalize_one_eq by assumption. destruct inv; lra.
    + destruct (normalize_one_mono mx mn w (nth i v 0) (nth j v 0)) as [P1 P2];
        try assumption; [lra|]. destruct inv; assumption.
  - intros i j Hi Hj Hw' H. rewrite !N by assumption.
    assert (mn < mx) by (pose proof (B i Hi); pose proof (B j Hj); lra).
    destruct (normalize_one_strict mx mn w (nth i v 0) (nth j v 0)) as [P1 P2];
      try assumption. destruct inv; assumption.
  - intros i Hi H. rewrite N by assumption.
    destruct (Qeq_dec mx mn) as [E|E].
    { rewrite normalize_one_eq by assumption. reflexivity. }
    destruct (In_nth v mx 0 Mi) as (kM & HkM & EkM).
    destruct (In_nth v mn 0 mi) as (km & Hkm & Ekm).
    pose proof (B i Hi) as [B1 B2].
    destruct (normalize_one_ends mx mn w) as (E1 & E2 & E3 & E4); [lra|].
    destruct inv.
    + specialize (H km Hkm). cbn beta iota in H. rewrite Ekm in H.
      assert (Ei : nth i v 0 == mn) by lra.
      refine (Qeq_trans _ _ _ _ E4). unfold normalize_one. destruct (Qeq_bool mx mn); cbn [negb]; [reflexivity|].
      rewrite Ei. reflexivity.
    + specialize (H kM HkM). cbn beta iota in H. rewrite EkM in H.
      assert (Ei : nth i v 0 == mx) by lra.
      refine (Qeq_trans _ _ _ _ E1). unfold normalize_one. destruct (Qeq_bool mx mn); cbn [negb]; [reflexivity|].
      rewrite Ei. reflexivity.
  - intros i j Hi Hj Hneq H. rewrite N by assumption.
    pose proof (B i Hi) as [B1 B2]. pose proof (B j Hj) as [B3 B4].
    assert (D : mn < mx).
    { destruct (Qlt_le_dec mn mx); [assumption|exfalso; apply Hneq; lra]. }
    destruct (In_nth v mx 0 Mi) as (kM & HkM & EkM).
    destruct (In_nth v mn 0 mi) as (km & Hkm & Ekm).
    destruct (normalize_one_ends mx mn w) as (E1 & E2 & E3 & E4); [lra|].
    destruct inv.
    + specialize (H kM HkM). cbn beta iota in H. rewrite EkM in H.
      assert (Ei : nth i v 0 == mx) by lra.
      refine (Qeq_trans _ _ _ _ E3). unfold normalize_one. destruct (Qeq_bool mx mn); cbn [negb].
      { reflexivity. } rewrite Ei. reflexivity.
    + specialize (H km Hkm). cbn beta iota in H. rewrite Ekm in H.
      assert (Ei : nth i v 0 == mn) by lra.
      refine (Qeq_trans _ _ _ _ E2). unfold normalize_one. destruct (Qeq_bool mx mn); cbn [negb].
      { reflexivity. } rewrite Ei. reflexivity.
Qed.

(** Scores are added to the candidates position by position; with one score per
    candidate nothing is read out of range. *)
Theorem C26_candidates_keep_their_positions : forall (C : Type) (cands : list (C * Q)) scores w inv ns,
  List.length cands = List.length scores ->
  normalize_scoring (map Some scores) w inv = Ok ns ->
  exists out, normalize_candidates cands (map Some scores) w inv = Ok out /\
    map fst out = map fst cands /\
    List.length out = List.length cands /\
    (forall i c s, nth_error cands i = Some (c, s) -> nth_error out i = Some (c, s + nth i ns 0)).
Proof.
  intros C cands scores w inv ns HL Hn. unfold normalize_candidates. rewrite Hn. cbn [bind].
  assert (Hlen : List.length cands = List.length ns).
  { destruct scores as [|x l]; [injection Hn as <-; exact HL|].
    rewrite normalize_scoring_some in Hn. injection Hn as <-. rewrite HL.
    cbn [List.length]. now rewrite map_length. }
  rewrite add_scores_ok by assumption. eexists. split; [reflexivity|].
  clear -Hlen. revert ns Hlen.
  induction cands as [|[c s] t IH]; intros [|n ns] Hlen; simpl in *; try discriminate.
  - repeat split; intros [|i]; discriminate.
  - destruct (IH ns) as (A & B & D); [congruence|]. repeat split.
    + now rewrite A.
    + now rewrite B.
    + intros [|i] c' s' H; simpl in *; [injection H as <- <-; reflexivity|]. now apply D.
Qed.

Example C26_witness :
  normalize_scoring (map Some [3; 1; 5; 1]) 2 false = Ok [2 * (3-1) / (5-1); 2*(1-1)/(5-1); 2*(5-1)/(5-1); 2*(1-1)/(5-1)]
  /\ throws (normalize_scoring [Some 1; None; Some 2] 1 true).
Proof. split; [reflexivity|]. apply C26_nan_is_refused. simpl. auto. Qed.

(** ** C28 *)
Definition ascending (v : list Q) : Prop :=
  forall i j, (i <= j < List.length v)%nat -> nth i v 0 <= nth j v 0.
Definition is_closest (v : list Q) (value : Q) (r : nat) : Prop :=
  (r < List.length v)%nat /\
  forall k, (k < List.length v)%nat -> Qabs (nth r v 0 - value) <= Qabs (nth k v 0 - value).

(** The search ends, stays in range, and the answer is closest except possibly
    when the value lies strictly between two neighbours and nearer to the lower
    one, where the upper one may be answered. *)
Theorem C28_closest_index_partial : forall v value,
  v <> [] -> ascending v ->
  exists r, find_closest_index v value = Ok r /\
    (is_closest v value r \/
     exists k, (S k < List.length v)%nat /\ r = S k /\
       nth k v 0 < value /\ value < nth (S k) v 0 /\
       value - nth k v 0 < nth (S k) v 0 - value).
Proof.
  intros v value Hne Hs. destruct (find_closest_spec v value Hne Hs) as (r & Hr & Hl & H).
  exists r. split; [exact Hr|]. destruct H as [H|H]; [left; split; assumption|right; exact H].
Qed.

Theorem C28_present_element_found : forall v k,
  ascending v -> (k < List.length v)%nat ->
  exists r, find_closest_index v (nth k v 0) = Ok r /\ nth r v 0 == nth k v 0.
Proof.
  intros v k Hs Hk. assert (Hne : v <> []) by (destruct v; [simpl in Hk; lia|discriminate]).
  destruct (find_closest_spec v (nth k v 0) Hne Hs) as (r & Hr & Hl & [H|(q & Hq & -> & A & B & D)]).
  - exists r. split; [exact Hr|]. specialize (H k Hk).
    setoid_replace (nth k v 0 - nth k v 0) with 0 in H by lra. change (Qabs 0) with 0 in H.
    apply Qabs_Qle_condition in H. lra.
  - exfalso. destruct (Nat.le_gt_cases k q) as [L|L].
    + assert (nth k v 0 <= nth q v 0) by (apply Hs; lia). lra.
    + assert (nth (S q) v 0 <= nth k v 0) by (apply Hs; lia). lra.
Qed.

(** The full claim is false of the code. *)
Theorem C28_closest_index_refuted : exists v value r,
  v <> [] /\ ascending v /\ find_closest_index v value = Ok r /\ ~ is_closest v value r.
Proof.
  exists [0; 10; 20; 30], 21, 3%nat. repeat split; try discriminate.
  - intros i j [H1 H2]. simpl in H2.
    destruct j as [|[|[|[|j]]]]; try lia; destruct i as [|[|[|[|i]]]]; try lia; simpl; lra.
  - intros [_ H]. specialize (H 2%nat). simpl in H.
    assert (Qabs (30 - 21) <= Qabs (20 - 21)) by (apply H; lia).
    vm_compute in H0. contradiction.
Qed.

Example C28_witness : find_closest_index [0; 10; 20; 30] 26 = Ok 3%nat /\
  find_closest_index [0; 10; 20; 30] 12 = Ok 1%nat.
Proof. split; reflexivity. Qed.

(** ** C29 *)
Definition on_grid (v : Q) (d : nat) : Prop := exists z : Z, v == inject_Z z / inject_Z (10 ^ Z.of_nat d).

Theorem C29_round : forall v d,
  on_grid (roundFloat v d) d /\
  Qabs (roundFloat v d - v) <= (1#2) / inject_Z (10 ^ Z.of_nat d).
Proof.
  intros. split; [eexists; reflexivity|]. apply roundFloat_near.
Qed.

Theorem C29_round_ties_away_from_zero : forall z d,
  roundFloat ((inject_Z z + (1#2)) / p10 d) d ==
  (if Z.leb 0 z then inject_Z (z + 1) else inject_Z z) / p10 d.
Proof.
  intros z d. pose proof (p10_pos d) as P. unfold roundFloat.
  assert (E : (inject_Z z + (1#2)) / p10 d * p10 d == inject_Z z + (1#2)) by (field; lra).
  rewrite (qround_comp _ _ E). clear E.
  enough (E : qround (inject_Z z + (1#2)) = if Z.leb 0 z then (z + 1)%Z else z).
  { rewrite E. destruct (Z.leb 0 z); reflexivity. }
  unfold qround. destruct (Z.leb_spec 0 z) as [L|L].
  - destruct (Qle_bool 0 (inject_Z z + (1#2))) eqn:E; qb.
    + apply Qfloor_unique; rewrite inject_Z_plus; change (inject_Z 1) with 1; lra.
    + exfalso. rewrite <- inj_le in L. change (inject_Z 0) with 0 in L. lra.
  - destruct (Qle_bool 0 (inject_Z z + (1#2))) eqn:E; qb.
    + exfalso. assert (H : (z <= -1)%Z) by lia. rewrite <- inj_le in H.
      change (inject_Z (-1)) with (-(1)) in H. lra.
    + enough (F : Qfloor (- (inject_Z z + (1#2)) + (1#2)) = (- z)%Z) by (rewrite F; lia).
      apply Qfloor_unique; rewrite inject_Z_opp; lra.
Qed.

Theorem C29_ceil : forall v d,
  on_grid (ceilFloat v d) d /\ v <= ceilFloat v d /\
  (forall w, on_grid w d -> v <= w -> ceilFloat v d <= w).
Proof.
  intros v d. split; [eexists; reflexivity|]. split; [apply ceilFloat_ge|].
  intros w [z Hz] H. rewrite Hz in *. now apply ceilFloat_least.
Qed.

Theorem C29_floor : forall v d,
  on_grid (floorFloat v d) d /\ floorFloat v d <= v /\
  (forall w, on_grid w d -> w <= v -> w <= floorFloat v d).
Proof.
  intros v d. split; [eexists; reflexivity|]. split; [apply floorFloat_le|].
  intros w [z Hz] H. rewrite Hz in *. now apply floorFloat_greatest.
Qed.

Theorem C29_idempotent : forall v d,
  roundFloat (roundFloat v d) d == roundFloat v d /\
  ceilFloat (ceilFloat v d) d == ceilFloat v d /\
  floorFloat (floorFloat v d) d == floorFloat v d.
Proof.
  intros v d. repeat split.
  - eapply roundFloat_grid. reflexivity.
  - pose proof (C29_ceil (ceilFloat v d) d) as (_ & A & B).
    apply Qle_antisym; [apply B; [apply C29_ceil|lra] | exact A].
  - pose proof (C29_floor (floorFloat v d) d) as (_ & A & B).
    apply Qle_antisym; [exact A | apply B; [apply C29_floor|lra]].
Qed.

Theorem C29_monotone : forall u v d, u <= v ->
  roundFloat u d <= roundFloat v d /\ ceilFloat u d <= ceilFloat v d /\
  floorFloat u d <= floorFloat v d.
Proof.
  intros u v d H. repeat split.
  - now apply roundFloat_mono.
  - apply C29_ceil; [apply C29_ceil|]. pose proof (ceilFloat_ge v d). lra.
  - apply C29_floor; [apply C29_floor|]. pose proof (floorFloat_le u d). lra.
Qed.

Example C29_witness : roundFloat (12345#10000) 3 == 1235#1000 /\
  roundFloat (-(12345#10000)) 3 == -(1235#1000) /\
  ceilFloat (12341#10000) 3 == 1235#1000 /\ floorFloat (12349#10000) 3 == 1234#1000.
Proof. repeat split; reflexivity. Qed.

(** ** C45: linearly spaced points *)
Theorem C45_linear_spacing : forall a b n, (2 <= n)%nat ->
  List.length (linear_spaced_array a b n) = n /\
  nth 0 (linear_spaced_array a b n) 0 == a /\
  nth (n - 1) (linear_spaced_array a b n) 0 == b /\
  (forall k, (S k < n)%nat ->
     nth (S k) (linear_spaced_array a b n) 0 - nth k (linear_spaced_array a b n) 0
     == (b - a) / inject_Z (Z.of_nat n - 1)) /\
  (a <= b -> forall k, (k < n)%nat -> a <= nth k (linear_spaced_array a b n) 0 <= b).
Proof.
  intros a b n Hn. unfold linear_spaced_array.
  set (m := inject_Z (Z.of_nat n - 1)).
  assert (Hm : 0 < m).
  { unfold m. change 0 with (inject_Z 0). rewrite inj_lt. lia. }
  split; [apply spaced_from_length|].
  split. { rewrite spaced_from_nth by lia. change (inject_Z (Z.of_nat 0)) with 0. ring. }
  split.
  { rewrite spaced_from_nth by lia.
    replace (Z.of_nat (n - 1)) with (Z.of_nat n - 1)%Z by lia. fold m. field. lra. }
  split.
  { intros k Hk. rewrite !spaced_from_nth by lia. rewrite Nat2Z.inj_succ. unfold Z.succ.
    rewrite inject_Z_plus. change (inject_Z 1) with 1. ring. }
  intros Hab k Hk. rewrite spaced_from_nth by lia.
  assert (H1 : 0 <= inject_Z (Z.of_nat k)) by (change 0 with (inject_Z 0); rewrite inj_le; lia).
  assert (H2 : inject_Z (Z.of_nat k) <= m) by (unfold m; rewrite inj_le; lia).
  assert (H3 : 0 <= (b - a) / m) by (apply Qle_div_iff; lra).
  assert (H4 : m * ((b - a) / m) == b - a) by (field; lra).
  split; nra.
Qed.
Example C45_witness : linear_spaced_array 0 1 3 = [0; 0 + (1 - 0) / 2; 0 + (1 - 0) / 2 + (1 - 0) / 2].
Proof. reflexivity. Qed.

(** ** C46: power of two test *)
Theorem C46_power_of_two_iff : forall size,
  is_size_power_of_2 size = true <-> exists k, size = (2 ^ k)%N.
Proof. exact power_of_2_iff. Qed.
Example C46_witness : is_size_power_of_2 1024 = true /\ is_size_power_of_2 1000 = false /\
  is_size_power_of_2 0 = false.
Proof. repeat split. Qed.

Print Assumptions C24_consistent_requirement_decided.
Print Assumptions C24_contradictory_rejected_partial.
Print Assumptions C24_accepted_values_are_an_interval.
Print Assumptions C25_resolution_within_tolerance.
Print Assumptions C25_resolutions_are_ordered.
Print Assumptions C26_nan_is_refused.
Print Assumptions C26_normalised_scores.
Print Assumptions C26_candidates_keep_their_positions.
Print Assumptions C28_closest_index_partial.
Print Assumptions C28_closest_index_refuted.
Print Assumptions C29_round.
Print Assumptions C29_ceil.
Print Assumptions C29_floor.
Print Assumptions C29_idempotent.
Print Assumptions C29_monotone.
Print Assumptions C45_linear_spacing.
Print Assumptions C46_power_of_two_iff.
