From Coq Require Import ZArith QArith Qround Qabs List String Bool Lia Lqa Arith.
From Verif Require Import Base QAux UtilsNumModel.
Import ListNotations.
Open Scope Q_scope.

(** * Rounding *)
Lemma roundFloat_near : forall v d,
  Qabs (roundFloat v d - v) <= (1#2) / p10 d.
Proof.
  intros v d. pose proof (p10_pos d) as P.
  pose proof (qround_bounds (v * p10 d)) as [A B].
  unfold roundFloat. set (z := inject_Z (qround (v * p10 d))) in *.
  apply Qabs_Qle_condition.
  assert (E : z / p10 d - v == (z - v * p10 d) / p10 d) by (field; lra).
  rewrite E. split.
  - assert (Eo : - ((1#2) / p10 d) == (-(1#2)) / p10 d) by (field; lra).
    rewrite Eo. apply Qle_div_iff; [lra|].
    assert ((-(1#2)) / p10 d * p10 d == -(1#2)) by (field; lra). lra.
  - apply Qdiv_le_iff; [lra|].
    assert ((1#2) / p10 d * p10 d == 1#2) by (field; lra). lra.
Qed.

Lemma div_p10_Z : forall z d, inject_Z z / p10 d * p10 d == inject_Z z.
Proof. intros. pose proof (p10_pos d). field. lra. Qed.

Lemma roundFloat_grid : forall v d z, v == inject_Z z / p10 d -> roundFloat v d == v.
Proof.
  intros v d z H. unfold roundFloat.
  assert (E : v * p10 d == inject_Z z) by (rewrite H; apply div_p10_Z).
  rewrite (qround_comp _ _ E), qround_Z. symmetry. exact H.
Qed.

Lemma roundFloat_mono : forall u v d, u <= v -> roundFloat u d <= roundFloat v d.
Proof.
  intros u v d H. pose proof (p10_pos d) as P. unfold roundFloat.
  apply Qdiv_le_iff; [assumption|]. rewrite div_p10_Z. rewrite inj_le.
  apply qround_mono. apply Qmult_le_compat_r; lra.
Qed.

Lemma ceilFloat_ge : forall v d, v <= ceilFloat v d.
Proof.
  intros v d. pose proof (p10_pos d). unfold ceilFloat.
  apply Qle_div_iff; [assumption|]. apply Qle_ceiling.
Qed.

Lemma ceilFloat_least : forall v d z,
  v <= inject_Z z / p10 d -> ceilFloat v d <= inject_Z z / p10 d.
Proof.
  intros v d z H. pose proof (p10_pos d). unfold ceilFloat.
  apply Qdiv_le_iff; [assumption|]. rewrite div_p10_Z. rewrite inj_le.
  apply Qle_div_iff in H; [|assumption].
  apply Qceiling_resp_le in H. now rewrite Qceiling_Z in H.
Qed.

Lemma floorFloat_le : forall v d, floorFloat v d <= v.
Proof.
  intros v d. pose proof (p10_pos d). unfold floorFloat.
  apply Qdiv_le_iff; [assumption|]. apply Qfloor_le.
Qed.

Lemma floorFloat_greatest : forall v d z,
  inject_Z z / p10 d <= v -> inject_Z z / p10 d <= floorFloat v d.
Proof.
  intros v d z H. pose proof (p10_pos d). unfold floorFloat.
  apply Qdiv_le_iff; [assumption|]. rewrite div_p10_Z. rewrite inj_le.
  apply Qdiv_le_iff in H; [|assumption].
  apply Qfloor_resp_le in H. now rewrite Qfloor_Z in H.
Qed.

(** * Scoring *)
Fixpoint Qmaxl (m : Q) (l : list Q) : Q :=
  match l with [] => m | y :: t => Qmaxl (if Qlt_bool m y then y else m) t end.
Fixpoint Qminl (m : Q) (l : list Q) : Q :=
  match l with [] => m | y :: t => Qminl (if Qlt_bool y m then y else m) t end.

Lemma max_element_some : forall l m,
  max_element (Some m) (map Some l) = Some (Qmaxl m l).
Proof. induction l; intros; simpl; [reflexivity|]. destruct (Qlt_bool m a); apply IHl. Qed.
Lemma min_element_some : forall l m,
  min_element (Some m) (map Some l) = Some (Qminl m l).
Proof. induction l; intros; simpl; [reflexivity|]. destruct (Qlt_bool a m); apply IHl. Qed.

Lemma Qmaxl_spec : forall l m,
  In (Qmaxl m l) (m :: l) /\ forall x, In x (m :: l) -> x <= Qmaxl m l.
Proof.
  induction l as [|y t IH]; intros m; simpl.
  - split; [auto|]. intros x [<-|[]]. lra.
  - destruct (IH (if Qlt_bool m y then y else m)) as [A B].
    destruct (Qlt_bool m y) eqn:E; qb; split.
    + simpl in A. tauto.
    + intros x [<-|[<-|Hx]].
      * specialize (B y (or_introl eq_refl)). lra.
      * apply B. now left.
      * apply B. now right.
    + simpl in A. tauto.
    + intros x [<-|[<-|Hx]].
      * apply B. now left.
      * specialize (B m (or_introl eq_refl)). lra.
      * apply B. now right.
Qed.

Lemma Qminl_spec : forall l m,
  In (Qminl m l) (m :: l) /\ forall x, In x (m :: l) -> Qminl m l <= x.
Proof.
  induction l as [|y t IH]; intros m; simpl.
  - split; [auto|]. intros x [<-|[]]. lra.
  - destruct (IH (if Qlt_bool y m then y else m)) as [A B].
    destruct (Qlt_bool y m) eqn:E; qb; split.
    + simpl in A. tauto.
    + intros x [<-|[<-|Hx]].
      * specialize (B y (or_introl eq_refl)). lra.
      * apply B. now left.
      * apply B. now right.
    + simpl in A. tauto.
    + intros x [<-|[<-|Hx]].
      * apply B. now left.
      * specialize (B m (or_introl eq_refl)). lra.
      * apply B. now right.
Qed.

Lemma normalize_loop_some : forall a b w inv l,
  normalize_loop (Some a) (Some b) w inv (map Some l)
  = Ok (map (normalize_one a b w inv) l).
Proof.
  induction l; simpl; [reflexivity|]. rewrite IHl. reflexivity.
Qed.

Lemma normalize_scoring_some : forall x l w inv,
  normalize_scoring (map Some (x :: l)) w inv
  = Ok (map (normalize_one (Qmaxl x l) (Qminl x l) w inv) (x :: l)).
Proof.
  intros. unfold normalize_scoring. cbn [map].
  rewrite max_element_some, min_element_some.
  change (Some x :: map Some l) with (map Some (x :: l)).
  apply normalize_loop_some.
Qed.

Lemma normalize_loop_nan : forall mx mn w inv l,
  In None l -> exists e, normalize_loop mx mn w inv l = Throw e.
Proof.
  induction l as [|[v|] t IH]; intros H; simpl in *.
  - contradiction.
  - destruct H as [H|H]; [discriminate|]. destruct (IH H) as [e ->].
    simpl. eauto.
  - eauto.
Qed.

Lemma nan_or_map : forall l : list nanQ, In None l \/ exists q, l = map Some q.
Proof.
  induction l as [|[v|] t IH]; [|destruct IH as [IH|[q ->]]|].
  - right. exists []. reflexivity.
  - left. now right.
  - right. exists (v :: q). reflexivity.
  - left. now left.
Qed.

Lemma normalize_scoring_nan_iff : forall l w inv,
  (exists e, normalize_scoring l w inv = Throw e) <-> In None l.
Proof.
  intros l w inv. split.
  - intros [e He]. destruct (nan_or_map l) as [|[q ->]]; [assumption|].
    destruct q as [|x q]; [discriminate|].
    rewrite normalize_scoring_some in He. discriminate.
  - intros H. destruct l as [|x l]; [contradiction|].
    unfold normalize_scoring. now apply normalize_loop_nan.
Qed.

Lemma normalize_one_range : forall mx mn w inv v,
  0 <= w -> mn <= v -> v <= mx -> 0 <= normalize_one mx mn w inv v <= w.
Proof.
  intros mx mn w inv v Hw H1 H2. unfold normalize_one.
  destruct (Qeq_bool mx mn) eqn:E; qb; cbn [negb]; [lra|].
  assert (D : 0 < mx - mn) by (destruct (Qlt_le_dec mn mx); lra).
  assert (T : 0 <= (v - mn) / (mx - mn) <= 1).
  { split; [apply Qle_div_iff | apply Qdiv_le_iff]; lra. }
  destruct inv.
  - split; nra.
  - assert (Ee : w * (v - mn) / (mx - mn) == w * ((v - mn) / (mx - mn)))
      by (field; lra).
    rewrite Ee. split; nra.
Qed.

Lemma normalize_one_mono : forall mx mn w u v,
  0 <= w -> mn < mx -> u <= v ->
  normalize_one mx mn w false u <= normalize_one mx mn w false v /\
  normalize_one mx mn w true v <= normalize_one mx mn w true u.
Proof.
  intros mx mn w u v Hw D H. unfold normalize_one.
  destruct (Qeq_bool mx mn) eqn:E; qb; cbn [negb]; [lra|].
  assert (T : (u - mn) / (mx - mn) <= (v - mn) / (mx - mn)).
  { apply Qmult_le_compat_r; [lra|]. apply Qinv_le_0_compat. lra. }
  assert (Eu : w * (u - mn) / (mx - mn) == w * ((u - mn) / (mx - mn))) by (field; lra).
  assert (Ev : w * (v - mn) / (mx - mn) == w * ((v - mn) / (mx - mn))) by (field; lra).
  rewrite Eu, Ev. split; nra.
Qed.

Lemma normalize_one_strict : forall mx mn w u v,
  0 < w -> mn < mx -> u < v ->
  normalize_one mx mn w false u < normalize_one mx mn w false v /\
  normalize_one mx mn w true v < normalize_one mx mn w true u.
Proof.
  intros mx mn w u v Hw D H. unfold normalize_one.
  destruct (Qeq_bool mx mn) eqn:E; qb; cbn [negb]; [lra|].
  assert (T : (u - mn) / (mx - mn) < (v - mn) / (mx - mn)).
  { apply Qlt_div_iff; [lra|].
    assert ((u - mn) / (mx - mn) * (mx - mn) == u - mn) by (field; lra). lra. }
  assert (Eu : w * (u - mn) / (mx - mn) == w * ((u - mn) / (mx - mn))) by (field; lra).
  assert (Ev : w * (v - mn) / (mx - mn) == w * ((v - mn) / (mx - mn))) by (field; lra).
  rewrite Eu, Ev. split; nra.
Qed.

Lemma normalize_one_eq : forall mx mn w inv, mx == mn -> forall v, normalize_one mx mn w inv v = w.
Proof.
  intros. unfold normalize_one. apply Qeq_bool_iff in H. rewrite H. reflexivity.
Qed.

Lemma normalize_one_ends : forall mx mn w, mn < mx ->
  normalize_one mx mn w false mx == w /\ normalize_one mx mn w false mn == 0 /\
  normalize_one mx mn w true mx == 0 /\ normalize_one mx mn w true mn == w.
Proof.
  intros mx mn w D. unfold normalize_one.
  destruct (Qeq_bool mx mn) eqn:E; qb; cbn [negb]; [lra|].
  repeat split; field; lra.
Qed.

Lemma add_scores_ok : forall (C : Type) (cands : list (C * Q)) n,
  List.length cands = List.length n ->
  add_scores cands n = Ok (map (fun '((c, s), x) => (c, s + x)) (combine cands n)).
Proof.
  induction cands as [|[c s] t IH]; destruct n; simpl; intros; try discriminate; auto.
  rewrite IH; [reflexivity|]. congruence.
Qed.

(** * find_closest_index *)
Definition sorted (v : list Q) : Prop :=
  forall i j, (i <= j < List.length v)%nat -> nth i v 0 <= nth j v 0.

Lemma last_nth : forall (v : list Q) x d, v <> [] -> last v x = nth (List.length v - 1) v d.
Proof.
  induction v as [|a t IH]; intros x d H; [congruence|].
  destruct t as [|b t']; [reflexivity|].
  change (last (a :: b :: t') x) with (last (b :: t') x).
  rewrite (IH x d) by discriminate. simpl. now rewrite Nat.sub_0_r.
Qed.

(* Invariant: everything before i is below value, everything from j on is above;
   the last probe, if any, is i-1 or j. *)
Lemma closest_loop_spec : forall fuel v value i j mid,
  sorted v ->
  (j <= List.length v)%nat -> (i <= j)%nat -> (j - i < fuel)%nat ->
  nth 0 v 0 < value -> value < nth (List.length v - 1) v 0 ->
  (forall k, (k < i)%nat -> nth k v 0 < value) ->
  (forall k, (j <= k < List.length v)%nat -> value < nth k v 0) ->
  ((i = 0%nat /\ j = List.length v) \/ (S mid = i) \/ (mid = j /\ (j < List.length v)%nat)) ->
  (* when a probe happened next to the gap, the upper neighbour was not closer *)
  ((j < List.length v)%nat -> (0 < j)%nat -> nth (j - 1) v 0 < value ->
     value - nth (j - 1) v 0 < nth j v 0 - value) ->
  ((0 < i)%nat -> (i < List.length v)%nat -> value < nth i v 0 ->
     value - nth (i - 1) v 0 < nth i v 0 - value) ->
  exists r, closest_loop fuel v value i j mid = Ok r /\ (r < List.length v)%nat /\
    (nth r v 0 == value \/
     (exists k, (S k < List.length v)%nat /\ nth k v 0 < value /\ value < nth (S k) v 0 /\
        ((r = S k /\ nth (S k) v 0 - value <= value - nth k v 0) \/
         ((r = k \/ r = S k) /\ value - nth k v 0 < nth (S k) v 0 - value)))).
Proof.
  induction fuel as [|fuel IH]; intros v value i j mid Hs Hj Hij Hf H0 Hn Hlo Hhi Hmid Hcj Hci.
  - lia.
  - cbn [closest_loop]. destruct (Nat.ltb i j) eqn:Eij.
    + apply Nat.ltb_lt in Eij.
      set (m := Nat.div (i + j) 2).
      assert (Hm : (i <= m < j)%nat).
      { unfold m. split.
        - apply Nat.div_le_lower_bound; lia.
        - apply Nat.div_lt_upper_bound; lia. }
      destruct (Qeq_bool (nth m v 0) value) eqn:Em.
      { qb. exists m. split; [reflexivity|]. split; [lia|]. now left. }
      apply Qeq_bool_neq in Em.
      destruct (Qlt_bool value (nth m v 0)) eqn:El; qb.
      * destruct (Nat.ltb 0 m && Qlt_bool (nth (m - 1) v 0) value &&
                  Qle_bool (nth m v 0 - value) (value - nth (m - 1) v 0))%bool eqn:Ec.
        -- qb. match goal with H : Nat.ltb 0 m = true |- _ => apply Nat.ltb_lt in H end.
           exists m. split; [reflexivity|]. split; [lia|]. right.
           exists (m - 1)%nat. replace (S (m - 1)) with m by lia.
           repeat split; try assumption; try lia. left. auto.
        -- apply IH; try assumption; try lia.
           ++ intros k Hk. destruct (Nat.le_gt_cases j k).
              ** apply Hhi. lia.
              ** apply Qlt_le_trans with (nth m v 0); [assumption|]. apply Hs. lia.
           ++ intros A B D. apply Bool.andb_false_iff in Ec. destruct Ec as [Ec|Ec].
              ** apply Bool.andb_false_iff in Ec. destruct Ec as [Ec|Ec].
                 --- apply Nat.ltb_ge in Ec. lia.
                 --- qb. lra.
              ** qb. lra.
      * assert (Hlt : nth m v 0 < value) by (destruct (Qlt_le_dec (nth m v 0) value); [assumption|lra]).
        assert (Hmlast : (m < List.length v - 1)%nat).
        { destruct (Nat.lt_ge_cases m (List.length v - 1)); [assumption|exfalso].
          assert (m = (List.length v - 1)%nat) by lia. subst m. rewrite H1 in Hlt. lra. }
        destruct (Nat.ltb m (List.length v - 1) && Qlt_bool value (nth (m + 1) v 0) &&
                  Qle_bool (nth (m + 1) v 0 - value) (value - nth m v 0))%bool eqn:Ec.
        -- qb. exists (m + 1)%nat. split; [reflexivity|]. split; [lia|]. right.
           exists m. replace (S m) with (m + 1)%nat by lia.
           repeat split; try assumption; try lia. left. auto.
        -- apply IH; try assumption; try lia.
           ++ intros k Hk. destruct (Nat.lt_ge_cases k i).
              ** now apply Hlo.
              ** apply Qle_lt_trans with (nth m v 0); [|assumption]. apply Hs. lia.
           ++ intros A B D. replace (m + 1 - 1)%nat with m in * by lia.
              apply Bool.andb_false_iff in Ec. destruct Ec as [Ec|Ec].
              ** apply Bool.andb_false_iff in Ec. destruct Ec as [Ec|Ec].
                 --- apply Nat.ltb_ge in Ec. lia.
                 --- qb. lra.
              ** qb. lra.
    + apply Nat.ltb_ge in Eij. assert (i = j) by lia. subst j.
      assert (Hi0 : (0 < i)%nat).
      { destruct i; [|lia]. exfalso. destruct v as [|a t].
        - simpl in *. lra.
        - specialize (Hhi 0%nat). simpl in Hhi, H0.
          assert (value < a) by (apply Hhi; lia). lra. }
      assert (Hin : (i < List.length v)%nat).
      { destruct (Nat.lt_ge_cases i (List.length v)); [assumption|exfalso].
        specialize (Hlo (List.length v - 1)%nat). assert (nth (List.length v - 1) v 0 < value) by (apply Hlo; lia).
        lra. }
      exists mid. split; [reflexivity|]. split; [lia|]. right.
      exists (i - 1)%nat. replace (S (i - 1)) with i by lia.
      assert (A : nth (i - 1) v 0 < value) by (apply Hlo; lia).
      assert (B : value < nth i v 0) by (apply Hhi; lia).
      repeat split; try assumption. right. split; [lia|]. now apply Hci.
Qed.

Lemma find_closest_spec : forall v value,
  v <> [] -> sorted v ->
  exists r, find_closest_index v value = Ok r /\ (r < List.length v)%nat /\
    ((forall k, (k < List.length v)%nat -> Qabs (nth r v 0 - value) <= Qabs (nth k v 0 - value)) \/
     (exists k, (S k < List.length v)%nat /\ r = S k /\
        nth k v 0 < value /\ value < nth (S k) v 0 /\
        value - nth k v 0 < nth (S k) v 0 - value)).
Proof.
  intros v value Hne Hs. unfold find_closest_index.
  destruct v as [|x t]; [congruence|]. set (v := x :: t) in *.
  assert (L : (0 < List.length v)%nat) by (simpl; lia).
  destruct (Qle_bool value x) eqn:E1; qb.
  { exists 0%nat. split; [reflexivity|]. split; [assumption|]. left.
    intros k Hk. assert (nth 0 v 0 <= nth k v 0) by (apply Hs; lia).
    change (nth 0 v 0) with x in *. rewrite (Qabs_pos (x - value)) by lra.
    rewrite (Qabs_pos (nth k v 0 - value)) by lra. lra. }
  rewrite (last_nth v x 0) by discriminate.
  destruct (Qle_bool (nth (List.length v - 1) v 0) value) eqn:E2; qb.
  { exists (List.length v - 1)%nat. split; [reflexivity|]. split; [lia|]. left.
    intros k Hk. assert (nth k v 0 <= nth (List.length v - 1) v 0) by (apply Hs; lia).
    rewrite (Qabs_neg (nth (List.length v - 1) v 0 - value)) by lra.
    rewrite (Qabs_neg (nth k v 0 - value)) by lra. lra. }
  destruct (closest_loop_spec (S (List.length v)) v value 0 (List.length v) 0) as (r & Hr & Hrl & H);
    try assumption; try lia; try (intros; exfalso; lia).
  exists r. split; [exact Hr|]. split; [assumption|].
  destruct H as [H|(k & Hk & A & B & H)].
  - left. intros k Hk. setoid_replace (nth r v 0 - value) with 0 by lra.
    rewrite (Qabs_pos 0) by lra. apply Qabs_nonneg.
  - assert (Far : forall q, (q < List.length v)%nat ->
              (nth q v 0 <= nth k v 0) \/ (nth (S k) v 0 <= nth q v 0)).
    { intros q Hq. destruct (Nat.le_gt_cases q k); [left|right]; apply Hs; lia. }
    destruct H as [[-> H] | [[->| ->] H]].
    + left. intros q Hq. rewrite (Qabs_pos (nth (S k) v 0 - value)) by lra.
      destruct (Far q Hq).
      * rewrite Qabs_neg by lra. lra.
      * rewrite Qabs_pos by lra. lra.
    + left. intros q Hq. rewrite (Qabs_neg (nth k v 0 - value)) by lra.
      destruct (Far q Hq).
      * rewrite Qabs_neg by lra. lra.
      * rewrite Qabs_pos by lra. lra.
    + right. exists k. auto.
Qed.

(** * linear_spaced_array *)
Lemma spaced_from_length : forall n v h, List.length (spaced_from v h n) = n.
Proof. induction n; intros; simpl; auto. Qed.

Lemma spaced_from_nth : forall n v h k, (k < n)%nat ->
  nth k (spaced_from v h n) 0 == v + inject_Z (Z.of_nat k) * h.
Proof.
  induction n as [|n IH]; intros v h k Hk; [lia|].
  destruct k as [|k]; simpl nth.
  - change (inject_Z (Z.of_nat 0)) with 0. ring.
  - rewrite IH by lia. rewrite Nat2Z.inj_succ. unfold Z.succ.
    rewrite inject_Z_plus. change (inject_Z 1) with 1. ring.
Qed.

(** * power of two *)
Lemma land_pred_odd_double : forall p,
  N.land (2 * p + 1) (2 * p) = (2 * p)%N.
Proof.
  intros.
  apply N.bits_inj. intros k. rewrite N.land_spec.
  destruct k using N.peano_ind.
  - destruct p; reflexivity.
  - rewrite (N.testbit_odd_succ p), (N.testbit_even_succ p) by lia.
    apply Bool.andb_diag.
Qed.

Lemma power_of_2_iff : forall n, is_size_power_of_2 n = true <-> exists k, n = (2 ^ k)%N.
Proof.
  assert (Odd : forall p, is_size_power_of_2 (2 * p + 1) = N.eqb p 0).
  { intros p. unfold is_size_power_of_2.
    replace (2 * p + 1 - 1)%N with (2 * p)%N by lia.
    rewrite land_pred_odd_double.
    replace (N.ltb 0 (2 * p + 1)) with true by (symmetry; apply N.ltb_lt; lia).
    simpl. destruct p; reflexivity. }
  assert (Even : forall p, (0 < p)%N -> is_size_power_of_2 (2 * p) = is_size_power_of_2 p).
  { intros p Hp. unfold is_size_power_of_2.
    replace (N.ltb 0 (2 * p)) with true by (symmetry; apply N.ltb_lt; lia).
    replace (N.ltb 0 p) with true by (symmetry; apply N.ltb_lt; lia).
    cbn [andb].
    assert (E : N.land (2 * p) (2 * p - 1) = (2 * N.land p (p - 1))%N).
    { replace (2 * p - 1)%N with (2 * (p - 1) + 1)%N by lia.
      apply N.bits_inj. intros k. rewrite N.land_spec.
      destruct k using N.peano_ind.
      - rewrite !N.testbit_even_0. reflexivity.
      - rewrite !N.testbit_even_succ, N.testbit_odd_succ by lia.
        now rewrite N.land_spec. }
    rewrite E. destruct (N.land p (p - 1)); reflexivity. }
  assert (Main : forall m n, (n <= m)%N -> is_size_power_of_2 n = true <-> exists k, n = (2 ^ k)%N).
  { induction m using N.peano_ind; intros n Hn.
    - assert (n = 0%N) by lia. subst. split; [discriminate|].
      intros [k Hk]. pose proof (N.pow_nonzero 2 k). lia.
    - destruct (N.even n) eqn:Ev.
      + apply N.even_spec in Ev. destruct Ev as [p Hp]. subst n.
        destruct (N.eq_dec p 0) as [->|Hnz].
        * split; [discriminate|]. intros [k Hk]. pose proof (N.pow_nonzero 2 k). lia.
        * rewrite Even by lia. rewrite IHm by lia. split; intros [k Hk].
          -- exists (N.succ k). rewrite N.pow_succ_r by lia. lia.
          -- destruct (N.eq_dec k 0) as [->|Hk0].
             ++ change (2 ^ 0)%N with 1%N in Hk. lia.
             ++ exists (N.pred k). replace k with (N.succ (N.pred k)) in Hk by lia.
                rewrite N.pow_succ_r in Hk by lia. lia.
      + rewrite <- N.negb_odd, Bool.negb_false_iff in Ev.
        apply N.odd_spec in Ev. destruct Ev as [p Hp]. subst n. rewrite Odd.
        split.
        * intros H. apply N.eqb_eq in H. subst. exists 0%N. reflexivity.
        * intros [k Hk]. destruct (N.eq_dec k 0) as [->|Hk0].
          -- apply N.eqb_eq. change (2 ^ 0)%N with 1%N in Hk. lia.
          -- replace k with (N.succ (N.pred k)) in Hk by lia.
             rewrite N.pow_succ_r in Hk by lia. lia. }
  intros n. apply (Main n n). lia.
Qed.
