(** Proofs about patterns, insulation sections and windings wound together. *)
From Coq Require Import ZArith QArith Qround Qabs List String Bool Arith Lia Lqa Permutation Sorted.
From Verif Require Import Base QAux CoilPatternModel.
Import ListNotations.
Open Scope nat_scope.

(** * Ranks of permutations *)

Definition less (x : nat) (l : list nat) : nat := List.length (filter (fun y => y <? x) l).
Fixpoint rank (l : list nat) : nat :=
  match l with
  | [] => 0
  | x :: t => less x t * fact (List.length t) + rank t
  end.

Lemma less_perm x a b : Permutation a b -> less x a = less x b.
Proof.
  intros H. unfold less. induction H; simpl; auto.
  - destruct (x0 <? x); simpl; lia.
  - destruct (x0 <? x), (y <? x); simpl; lia.
  - lia.
Qed.

Lemma less_le x l : less x l <= List.length l.
Proof. unfold less. induction l as [|y t IH]; simpl; auto. destruct (y <? x); simpl; lia. Qed.

Lemma less_app x a b : less x (a ++ b) = less x a + less x b.
Proof. unfold less. rewrite filter_app, app_length. reflexivity. Qed.

Lemma less_all x l : Forall (fun y => y < x) l -> less x l = List.length l.
Proof.
  unfold less. induction 1; simpl; auto. destruct (Nat.ltb_spec x0 x); simpl; lia.
Qed.
Lemma less_none x l : Forall (fun y => x <= y) l -> less x l = 0.
Proof.
  unfold less. induction 1; simpl; auto. destruct (Nat.ltb_spec x0 x); simpl; lia.
Qed.

Lemma rank_lt l : rank l < fact (List.length l).
Proof.
  induction l as [|x t IH]; simpl; [lia|].
  pose proof (less_le x t). nia.
Qed.

Lemma rank_app a b b' : Permutation b b' -> rank (a ++ b) + rank b' = rank (a ++ b') + rank b.
Proof.
  intros H. induction a as [|x t IH]; simpl; [lia|].
  rewrite !app_length, (Permutation_length H).
  rewrite (less_perm x (t ++ b) (t ++ b')) by (now apply Permutation_app_head).
  lia.
Qed.

Lemma rank_desc l : StronglySorted gt l -> S (rank l) = fact (List.length l).
Proof.
  induction 1 as [|x t S IH F]; simpl; auto.
  rewrite less_all by exact F. lia.
Qed.

Lemma rank_asc l : StronglySorted lt l -> rank l = 0.
Proof.
  induction 1 as [|x t S IH F]; simpl; auto.
  rewrite less_none, IH; [lia|]. eapply Forall_impl; [|exact F]. simpl. lia.
Qed.

Lemma StronglySorted_app {A} (R : A -> A -> Prop) a b :
  StronglySorted R a -> StronglySorted R b -> (forall x y, In x a -> In y b -> R x y) ->
  StronglySorted R (a ++ b).
Proof.
  induction 1 as [|x t S IH F]; simpl; intros Hb H; auto.
  constructor.
  - apply IH; [exact Hb|]. intros u v Hu Hv. apply H; [now right|exact Hv].
  - apply Forall_app. split; auto. apply Forall_forall. intros y Hy. apply H; [now left|exact Hy].
Qed.

Lemma StronglySorted_app_inv {A} (R : A -> A -> Prop) a b :
  StronglySorted R (a ++ b) ->
  StronglySorted R a /\ StronglySorted R b /\ (forall x y, In x a -> In y b -> R x y).
Proof.
  induction a as [|x t IH]; simpl; intros H.
  - repeat split; auto; [constructor|]. intros ? ? [].
  - inversion H as [|? ? S F]; subst. destruct (IH S) as (A1 & A2 & A3).
    apply Forall_app in F. destruct F as [F1 F2]. rewrite Forall_forall in F2.
    repeat split; auto.
    + constructor; auto.
    + intros u v [<-|Hu] Hv; auto.
Qed.

Lemma rev_desc l : StronglySorted gt l -> StronglySorted lt (rev l).
Proof.
  induction 1 as [|x t S IH F]; simpl; [constructor|].
  apply StronglySorted_app; auto.
  - repeat constructor.
  - intros u v Hu [<-|[]]. rewrite Forall_forall in F. apply F. now apply in_rev.
Qed.

Lemma swap_spec p s : StronglySorted gt s -> ~ In p s -> (exists x t, s = x :: t /\ p < x) ->
  exists a c b, s = a ++ c :: b /\ swap_with_last_greater p s = (a ++ p :: b, c)%list /\ p < c /\
                Forall (fun y => y < p) b.
Proof.
  induction s as [|x t IH]; intros HS Hni (x0 & t0 & E & Hp); [discriminate|].
  injection E as <- <-.
  inversion HS as [|? ? St F]; subst.
  destruct t as [|y u].
  - exists [], x, []. simpl. destruct (Nat.ltb_spec p x); [|lia]. auto.
  - destruct (Nat.ltb_spec p y) as [Hy|Hy].
    + destruct IH as (a & c & b & E & Es & Hc & Hb); eauto.
      { intros I. apply Hni. now right. }
      exists (x :: a), c, b. rewrite E. split; [reflexivity|]. split; auto.
      cbn [swap_with_last_greater]. destruct (Nat.ltb_spec p x); [|lia].
      rewrite <- E. destruct (Nat.ltb_spec p y); [|lia]. rewrite Es. reflexivity.
    + exists [], x, (y :: u). split; [reflexivity|]. split.
      { cbn [swap_with_last_greater]. destruct (Nat.ltb_spec p x); [|lia].
        destruct (Nat.ltb_spec p y); [lia|]. reflexivity. }
      split; auto.
      assert (y <> p) by (intros ->; apply Hni; right; now left).
      inversion St as [|? ? Su Fu]; subst. constructor; [lia|].
      eapply Forall_impl; [|exact Fu]. simpl. lia.
Qed.

Lemma next_from_spec r : forall s,
  StronglySorted gt s -> NoDup (rev r ++ s) ->
  Permutation (next_permutation_from r s) (rev r ++ s) /\
  (rank (next_permutation_from r s) = S (rank (rev r ++ s)) \/
   rank (next_permutation_from r s) = 0 /\ S (rank (rev r ++ s)) = fact (List.length (rev r ++ s))).
Proof.
  induction r as [|p r IH]; intros s HS HN.
  - simpl. split; [symmetry; apply Permutation_rev|]. right. split.
    + apply rank_asc, rev_desc, HS.
    + apply rank_desc, HS.
  - cbn [rev] in HN |- *. rewrite <- app_assoc in HN |- *. cbn [app] in HN |- *.
    assert (Hps : ~ In p s).
    { intros I. apply NoDup_remove_2 in HN. apply HN. apply in_or_app. now right. }
    cbn [next_permutation_from].
    destruct s as [|x t].
    { apply (IH [p]); auto. repeat constructor. }
    destruct (Nat.ltb_spec p x) as [Hlt|Hge].
    + destruct (swap_spec p (x :: t) HS Hps) as (a & c & b & E & Es & Hc & Hb); [eauto|].
      rewrite Es. rewrite E in *.
      assert (Hperm : Permutation (c :: rev (a ++ p :: b)) (p :: a ++ c :: b)).
      { transitivity (c :: a ++ p :: b); [constructor; symmetry; apply Permutation_rev|].
        transitivity (c :: p :: a ++ b); [constructor; symmetry; apply Permutation_middle|].
        transitivity (p :: c :: a ++ b); [constructor|].
        constructor. apply Permutation_middle. }
      assert (HD : StronglySorted gt (a ++ p :: b)).
      { apply StronglySorted_app_inv in HS. destruct HS as (S1 & S2 & S3).
        inversion S2 as [|? ? S4 F]; subst.
        apply StronglySorted_app; auto.
        - constructor; auto.
        - intros u v Hu [<-|Hv].
          + specialize (S3 u c Hu (or_introl eq_refl)). lia.
          + apply S3; auto. now right. }
      split.
      * apply Permutation_app_head. exact Hperm.
      * left. pose proof (rank_app (rev r) _ _ Hperm) as R.
        enough (rank (c :: rev (a ++ p :: b)) = S (rank (p :: a ++ c :: b))) by lia.
        cbn [rank].
        rewrite (rank_asc _ (rev_desc _ HD)).
        pose proof (rank_desc _ HS) as RD.
        assert (L : List.length (rev (a ++ p :: b)) = List.length (a ++ c :: b)).
        { rewrite rev_length, !app_length. reflexivity. }
        rewrite L. set (F := fact _) in *. set (rk := rank (a ++ c :: b)) in *.
        rewrite (less_perm c (rev (a ++ p :: b)) (a ++ p :: b)) by (symmetry; apply Permutation_rev).
        apply StronglySorted_app_inv in HS. destruct HS as (S1 & S2 & S3).
        inversion S2 as [|? ? S4 F4]; subst.
        assert (Ha : Forall (fun y => c <= y) a).
        { apply Forall_forall. intros u Hu. specialize (S3 u c Hu (or_introl eq_refl)). lia. }
        rewrite !less_app.
        change (p :: b) with ([p] ++ b). change (c :: b) with ([c] ++ b). rewrite !less_app.
        rewrite (less_none c a Ha).
        rewrite (less_none p a) by (eapply Forall_impl; [|exact Ha]; simpl; lia).
        rewrite (less_all c b) by (eapply Forall_impl; [|exact Hb]; simpl; lia).
        rewrite (less_all p b Hb).
        rewrite (less_all c [p]) by (repeat constructor; auto).
        rewrite (less_none p [c]) by (repeat constructor; lia).
        cbn [List.length]. clearbody F rk. nia.
    + assert (p <> x) by (intros ->; apply Hps; now left).
      destruct (IH (p :: x :: t)) as [A B].
      * constructor; auto. inversion HS as [|? ? S F]; subst.
        constructor; [lia|]. eapply Forall_impl; [|exact F]. simpl. lia.
      * exact HN.
      * auto.
Qed.

Lemma next_permutation_perm l : NoDup l -> Permutation (next_permutation l) l.
Proof.
  intros H. destruct (next_from_spec (rev l) []) as [A _].
  - constructor.
  - rewrite rev_involutive, app_nil_r. exact H.
  - rewrite rev_involutive, app_nil_r in A. exact A.
Qed.

Lemma next_permutation_rank l : NoDup l ->
  rank (next_permutation l) = (S (rank l)) mod (fact (List.length l)).
Proof.
  intros H. destruct (next_from_spec (rev l) []) as [A B].
  - constructor.
  - rewrite rev_involutive, app_nil_r. exact H.
  - rewrite rev_involutive, app_nil_r in A, B. fold (next_permutation l) in A, B.
    destruct B as [B|[B1 B2]].
    + rewrite B. symmetry. apply Nat.mod_small. rewrite <- B.
      rewrite <- (Permutation_length A). apply rank_lt.
    + rewrite B1, B2. symmetry. apply Nat.mod_same. apply fact_neq_0.
Qed.

Fixpoint iterate {A} (f : A -> A) (k : nat) (a : A) : A :=
  match k with O => a | S j => iterate f j (f a) end.

Lemma iterate_perm k : forall l, NoDup l -> Permutation (iterate next_permutation k l) l.
Proof.
  induction k as [|k IH]; intros l H; simpl; auto.
  pose proof (next_permutation_perm l H) as P.
  transitivity (next_permutation l); auto. apply IH.
  apply (Permutation_NoDup (Permutation_sym P) H).
Qed.

Lemma iterate_rank k : forall l, NoDup l ->
  rank (iterate next_permutation k l) = (k + rank l) mod (fact (List.length l)).
Proof.
  induction k as [|k IH]; intros l H; simpl.
  - symmetry. apply Nat.mod_small, rank_lt.
  - pose proof (next_permutation_perm l H) as P.
    rewrite IH by apply (Permutation_NoDup (Permutation_sym P) H).
    rewrite (Permutation_length P), next_permutation_rank by auto.
    rewrite Nat.add_mod_idemp_r by apply fact_neq_0.
    f_equal. lia.
Qed.

Lemma iterate_inj l i j : NoDup l -> i < fact (List.length l) -> j < fact (List.length l) ->
  iterate next_permutation i l = iterate next_permutation j l -> i = j.
Proof.
  intros H Hi Hj E. apply (f_equal rank) in E. rewrite !iterate_rank in E by auto.
  pose proof (rank_lt l) as R. set (F := fact (List.length l)) in *. set (r := rank l) in *.
  assert (HF : F <> 0) by lia.
  assert (M : forall k, k < F -> (k + r) mod F = if k + r <? F then k + r else k + r - F).
  { intros k Hk. destruct (Nat.ltb_spec (k + r) F).
    - now apply Nat.mod_small.
    - replace (k + r) with (k + r - F + 1 * F) at 1 by lia.
      rewrite Nat.mod_add by auto. apply Nat.mod_small. lia. }
  rewrite !M in E by auto.
  destruct (Nat.ltb_spec (i + r) F), (Nat.ltb_spec (j + r) F); lia.
Qed.

(** * Sides *)

Lemma existsb_eqb_In x l : existsb (Nat.eqb x) l = true <-> In x l.
Proof.
  rewrite existsb_exists. split.
  - intros (y & Hy & E). apply Nat.eqb_eq in E. now subst.
  - intros H. exists x. split; auto. apply Nat.eqb_refl.
Qed.
Lemma existsb_eqb_not_In x l : existsb (Nat.eqb x) l = false <-> ~ In x l.
Proof.
  rewrite <- existsb_eqb_In. destruct (existsb (Nat.eqb x) l); split; intros; congruence.
Qed.

Lemma sides_used_from_spec l : forall seen, NoDup seen ->
  NoDup (sides_used_from seen l) /\ (forall x, In x (sides_used_from seen l) <-> In x seen \/ In x l).
Proof.
  induction l as [|s t IH]; intros seen H; simpl.
  - split; auto. intros x; tauto.
  - destruct (existsb (Nat.eqb s) seen) eqn:E.
    + apply existsb_eqb_In in E. destruct (IH seen H) as [A B]. split; auto.
      intros x. rewrite B. split; [tauto|]. intros [?|[<-|?]]; auto.
    + apply existsb_eqb_not_In in E.
      assert (N : NoDup (seen ++ [s])).
      { apply (Permutation_NoDup (l := s :: seen)); [apply Permutation_cons_append|].
        constructor; auto. }
      destruct (IH _ N) as [A B]. split; auto.
      intros x. rewrite B, in_app_iff. simpl. tauto.
Qed.

Lemma sides_used_NoDup l : NoDup (sides_used l).
Proof. apply (sides_used_from_spec l []). constructor. Qed.
Lemma sides_used_In l x : In x (sides_used l) <-> In x l.
Proof.
  unfold sides_used. destruct (sides_used_from_spec l []) as [_ B]; [constructor|].
  rewrite B. simpl. tauto.
Qed.

(** Reading the sides of a pattern back. *)
Lemma sides_used_from_repeat s k : forall seen t, In s seen ->
  sides_used_from seen (repeat s k ++ t) = sides_used_from seen t.
Proof.
  induction k as [|k IH]; intros seen t H; simpl; auto.
  apply existsb_eqb_In in H. rewrite H. apply IH. now apply existsb_eqb_In.
Qed.

Lemma sides_used_from_groups cnt : forall s seen,
  (forall x, In x s -> 0 < cnt x) -> NoDup (seen ++ s) ->
  sides_used_from seen (flat_map (fun x => repeat x (cnt x)) s) = seen ++ s.
Proof.
  induction s as [|x t IH]; intros seen Hc HN; simpl.
  - now rewrite app_nil_r.
  - destruct (cnt x) as [|k] eqn:E.
    { specialize (Hc x (or_introl eq_refl)). lia. }
    cbn [repeat app sides_used_from].
    assert (Hx : ~ In x seen).
    { apply NoDup_remove_2 in HN. intros I. apply HN. apply in_or_app. now left. }
    apply existsb_eqb_not_In in Hx. rewrite Hx.
    rewrite sides_used_from_repeat by (apply in_or_app; right; now left).
    rewrite IH.
    + now rewrite <- app_assoc.
    + intros y Hy. apply Hc. now right.
    + rewrite <- app_assoc. exact HN.
Qed.

Definition side_count (W : nat) (R : list nat) (side : nat) : nat :=
  List.length (filter (fun w => Nat.eqb (nth w R O) side) (seq 0 W)).

Lemma map_filter_side R side l :
  map (fun w => nth w R O) (filter (fun w => Nat.eqb (nth w R O) side) l) =
  repeat side (List.length (filter (fun w => Nat.eqb (nth w R O) side) l)).
Proof.
  induction l as [|w t IH]; simpl; auto.
  destruct (Nat.eqb_spec (nth w R O) side); simpl; auto. now rewrite IH, e.
Qed.

Lemma side_pattern_sides W R s :
  map (fun w => nth w R O) (side_pattern W R s) = flat_map (fun x => repeat x (side_count W R x)) s.
Proof.
  unfold side_pattern. induction s as [|x t IH]; simpl; auto.
  rewrite map_app, IH, map_filter_side. reflexivity.
Qed.

Lemma side_pattern_recover W R s : NoDup s -> (forall x, In x s -> 0 < side_count W R x) ->
  sides_used (map (fun w => nth w R O) (side_pattern W R s)) = s.
Proof.
  intros H Hc. rewrite side_pattern_sides. unfold sides_used.
  now rewrite sides_used_from_groups.
Qed.

Lemma side_count_pos W R x : List.length R = W -> In x R -> 0 < side_count W R x.
Proof.
  intros HL Hx. destruct (In_nth R x O Hx) as (w & Hw & E).
  unfold side_count.
  assert (I : In w (filter (fun w => nth w R O =? x) (seq 0 W))).
  { apply filter_In. split; [apply in_seq; lia|]. now apply Nat.eqb_eq. }
  destruct (filter (fun w => nth w R O =? x) (seq 0 W)); [destruct I|simpl; lia].
Qed.

Lemma NoDup_app {A} (a b : list A) : NoDup a -> NoDup b -> (forall x, In x a -> ~ In x b) -> NoDup (a ++ b).
Proof.
  induction 1 as [|x t Hx Ht IH]; simpl; intros Hb H; auto.
  constructor.
  - rewrite in_app_iff. intros [I|I]; [tauto|]. apply (H x); auto.
  - apply IH; auto.
Qed.

Lemma side_pattern_perm W R s : NoDup s -> (forall w, w < W -> In (nth w R O) s) ->
  Permutation (side_pattern W R s) (seq 0 W).
Proof.
  intros HN HC. apply NoDup_Permutation.
  - unfold side_pattern. clear HC. induction HN as [|x t Hx Ht IH]; simpl; [constructor|].
    apply NoDup_app; auto.
    + apply NoDup_filter, seq_NoDup.
    + intros w Hw Hin. apply filter_In in Hw. destruct Hw as [_ Hw]. apply Nat.eqb_eq in Hw.
      apply in_flat_map in Hin. destruct Hin as (y & Hy & Hin).
      apply filter_In in Hin. destruct Hin as [_ Hin]. apply Nat.eqb_eq in Hin.
      rewrite Hw in Hin. subst y. auto.
  - apply seq_NoDup.
  - intros w. unfold side_pattern. rewrite in_flat_map. split.
    + intros (y & Hy & Hin). apply filter_In in Hin. tauto.
    + intros Hw. exists (nth w R O). split.
      * apply HC. apply in_seq in Hw. lia.
      * apply filter_In. split; auto. apply Nat.eqb_refl.
Qed.

Lemma side_patterns_eq b : forall W R s have, have < 6 ->
  side_patterns b W R s have =
  map (fun k => side_pattern W R (iterate next_permutation k s)) (seq 0 (Nat.min b (6 - have))).
Proof.
  induction b as [|b IH]; intros W R s have Hh; [reflexivity|].
  cbn [side_patterns]. unfold maximum_coil_pattern.
  destruct (Nat.min (S b) (6 - have)) as [|k] eqn:E; [lia|].
  cbn [seq map iterate]. f_equal.
  destruct (Nat.leb_spec 6 (S have)).
  - assert (k = 0) by lia. subst k. reflexivity.
  - rewrite IH by lia. replace (Nat.min b (6 - S have)) with k by lia.
    rewrite <- seq_shift, map_map. reflexivity.
Qed.

Lemma NoDup_map_inj_in {A B} (f : A -> B) l :
  NoDup l -> (forall x y, In x l -> In y l -> f x = f y -> x = y) -> NoDup (map f l).
Proof.
  induction 1 as [|x t Hx Ht IH]; simpl; intros H; constructor.
  - rewrite in_map_iff. intros (y & E & Hy). apply H in E; auto. subst. auto.
  - apply IH. intros; apply H; auto.
Qed.

Definition legal (W : nat) (ps : list (list nat)) : Prop :=
  ps <> [] /\ List.length ps <= 6 /\ NoDup ps /\ Forall (fun p => Permutation p (seq 0 W)) ps.

Lemma fact_two n : 2 <= n -> 2 <= fact n.
Proof. intros H. change 2 with (fact 2). now apply fact_le. Qed.

Lemma pattern_bound_le n : pattern_bound n <= fact n.
Proof.
  unfold pattern_bound. pose proof (lt_O_fact n).
  assert (fact n / 2 <= fact n) by (apply Nat.div_le_upper_bound; lia). lia.
Qed.

Lemma side_patterns_legal W R : 0 < W -> List.length R = W ->
  legal W (side_patterns (pattern_bound (List.length (sides_used R))) W R (sides_used R) 0) /\
  List.length (side_patterns (pattern_bound (List.length (sides_used R))) W R (sides_used R) 0) =
    Nat.min (pattern_bound (List.length (sides_used R))) 6.
Proof.
  intros HW HL. rewrite side_patterns_eq by lia. rewrite Nat.sub_0_r.
  set (s := sides_used R). set (m := Nat.min _ 6).
  pose proof (sides_used_NoDup R) as HN. fold s in HN.
  assert (Hm : m <= fact (List.length s)) by (pose proof (pattern_bound_le (List.length s)); lia).
  assert (Hm1 : 1 <= m) by (unfold m, pattern_bound; lia).
  assert (HI : forall k, Permutation (iterate next_permutation k s) s) by (intros; now apply iterate_perm).
  split; [|now rewrite map_length, seq_length].
  repeat split.
  - destruct m; [lia|]. discriminate.
  - rewrite map_length, seq_length. lia.
  - apply NoDup_map_inj_in; [apply seq_NoDup|].
    intros i j Hi Hj E. apply in_seq in Hi, Hj.
    apply (iterate_inj s i j HN); [lia|lia|].
    apply (f_equal (fun p => sides_used (map (fun w => nth w R O) p))) in E.
    rewrite !side_pattern_recover in E; auto.
    + apply (Permutation_NoDup (Permutation_sym (HI j)) HN).
    + intros x Hx. apply side_count_pos; auto. apply sides_used_In.
      now apply (Permutation_in _ (HI j)).
    + apply (Permutation_NoDup (Permutation_sym (HI i)) HN).
    + intros x Hx. apply side_count_pos; auto. apply sides_used_In.
      now apply (Permutation_in _ (HI i)).
  - apply Forall_map, Forall_forall. intros k _. apply side_pattern_perm.
    + apply (Permutation_NoDup (Permutation_sym (HI k)) HN).
    + intros w Hw. apply (Permutation_in _ (Permutation_sym (HI k))).
      apply sides_used_In, nth_In. lia.
Qed.

Lemma add_if_new_legal W ps p : legal W ps -> List.length ps < 6 -> Permutation p (seq 0 W) ->
  legal W (add_if_new ps p).
Proof.
  intros (H1 & H2 & H3 & H4) HL HP. unfold add_if_new.
  destruct (existsb (pattern_eqb p) ps) eqn:E; [repeat split; auto|].
  repeat split.
  - destruct ps; discriminate.
  - rewrite app_length. simpl. lia.
  - apply NoDup_app; auto.
    + repeat constructor. auto.
    + intros x Hx [<-|[]].
      assert (existsb (pattern_eqb p) ps = true); [|congruence].
      apply existsb_exists. exists p. split; auto. unfold pattern_eqb.
      now destruct (list_eq_dec Nat.eq_dec p p).
  - apply Forall_app. split; auto.
Qed.

Lemma add_if_new_length ps p : List.length ps <= List.length (add_if_new ps p) /\
  List.length (add_if_new ps p) <= S (List.length ps).
Proof.
  unfold add_if_new. destruct existsb; [lia|]. rewrite app_length. simpl. lia.
Qed.

Lemma filter_partition {A} (f : A -> bool) l :
  Permutation l (filter (fun x => negb (f x)) l ++ filter f l).
Proof.
  induction l as [|x t IH]; simpl; auto.
  destruct (f x); simpl.
  - apply Permutation_cons_app. exact IH.
  - now constructor.
Qed.

Lemma replace_secondaries_perm f base : forall repl,
  List.length repl = List.length (filter f base) ->
  Permutation (replace_secondaries f base repl) (filter (fun x => negb (f x)) base ++ repl).
Proof.
  induction base as [|w t IH]; intros repl H; simpl in *.
  - destruct repl; [auto|discriminate].
  - destruct (f w); simpl in *.
    + destruct repl as [|r rs]; [discriminate|]. apply Permutation_cons_app. apply IH.
      simpl in H. lia.
    + constructor. now apply IH.
Qed.

Lemma secondary_orderings_legal W R ps : legal W ps ->
  legal W (secondary_orderings W R ps) /\ List.length ps <= List.length (secondary_orderings W R ps).
Proof.
  intros H. unfold secondary_orderings, maximum_coil_pattern.
  destruct ((3 <=? W) && (List.length ps <? 6)) eqn:E; [|auto].
  apply andb_true_iff in E. destruct E as [E1 E2]. apply Nat.leb_le in E1. apply Nat.ltb_lt in E2.
  set (sec := secondary_windings W R).
  set (is_sec := fun w => existsb (Nat.eqb w) sec).
  match goal with |- context [if (W =? 3) && _ && (List.length ?q <? 6) then _ else _] => set (ps1 := q) end.
  assert (H1 : legal W ps1 /\ List.length ps <= List.length ps1).
  { unfold ps1. destruct ((2 <=? List.length sec) && (List.length ps <? 6)); [|auto].
    destruct (2 <=? List.length (filter is_sec (hd [] ps))); [|auto].
    split; [|apply add_if_new_length].
    apply add_if_new_legal; auto.
    destruct H as (N & _ & _ & F). destruct ps as [|b ps']; [now destruct N|]. simpl.
    inversion F; subst.
    etransitivity; [apply replace_secondaries_perm; apply rev_length|].
    etransitivity; [apply Permutation_app_head; symmetry; apply Permutation_rev|].
    etransitivity; [symmetry; apply filter_partition|]. assumption. }
  destruct H1 as [H1 H1l].
  destruct ((W =? 3) && (List.length sec =? 2) && (List.length ps1 <? 6)) eqn:E3; [|auto].
  apply andb_true_iff in E3. destruct E3 as [E3 E4]. apply andb_true_iff in E3. destruct E3 as [E3 E5].
  apply Nat.eqb_eq in E3, E5. apply Nat.ltb_lt in E4. subst W.
  split; [|pose proof (add_if_new_length ps1 [nth 0 sec 0; 0; nth 1 sec 0]); lia].
  apply add_if_new_legal; auto.
  unfold sec, secondary_windings in *. simpl in E5 |- *.
  destruct (nth 1 R 0 =? nth 0 R 0); destruct (nth 2 R 0 =? nth 0 R 0); simpl in E5; try discriminate.
  simpl. apply perm_swap.
Qed.

Lemma add_reversals_legal W todo : forall ps, legal W ps -> Forall (fun p => Permutation p (seq 0 W)) todo ->
  legal W (add_reversals todo ps).
Proof.
  induction todo as [|p t IH]; intros ps H F; simpl; auto.
  unfold maximum_coil_pattern. destruct (Nat.ltb_spec (List.length ps) 6); auto.
  inversion F; subst. apply IH; auto. apply add_if_new_legal; auto.
  etransitivity; [symmetry; apply Permutation_rev|]. assumption.
Qed.

Lemma keep_small n : 1 <= n <= 7 -> Nat.max 1 (n - 1) <= Nat.min (pattern_bound n) 6.
Proof.
  intros H.
  assert (C : n = 1 \/ n = 2 \/ n = 3 \/ n = 4 \/ n = 5 \/ n = 6 \/ n = 7) by lia.
  destruct C as [->|[->|[->|[->|[->|[->| ->]]]]]]; apply Nat.leb_le; vm_compute; reflexivity.
Qed.

Lemma firstn_In {A} (x : A) k l : In x (firstn k l) -> In x l.
Proof.
  intros H. rewrite <- (firstn_skipn k l). apply in_or_app. now left.
Qed.

Lemma NoDup_firstn {A} k (l : list A) : NoDup l -> NoDup (firstn k l).
Proof.
  intros H. revert k. induction H as [|x t Hx Ht IH]; intros [|k]; simpl; constructor; auto.
  intros I. apply Hx. eapply firstn_In; eauto.
Qed.

Lemma sides_used_length R : List.length (sides_used R) = List.length (nodup Nat.eq_dec R).
Proof.
  apply Permutation_length, NoDup_Permutation.
  - apply sides_used_NoDup.
  - apply NoDup_nodup.
  - intros x. rewrite sides_used_In, nodup_In. tauto.
Qed.

Lemma get_patterns_legal W R tor real : 0 < W -> List.length R = W ->
  (tor = true -> List.length (nodup Nat.eq_dec R) <= 7) ->
  exists ps, get_patterns W R tor real = Ok ps /\ legal W ps.
Proof.
  intros HW HL HT. unfold get_patterns.
  destruct (side_patterns_legal W R HW HL) as [HS HSl].
  set (ps0 := side_patterns _ W R _ 0) in *.
  destruct (secondary_orderings_legal W R ps0 HS) as [H1 H1l].
  set (ps1 := secondary_orderings W R ps0) in *.
  assert (exists ps2, (if tor then toroidal_cut (List.length (sides_used R)) ps1 else Ok ps1) = Ok ps2 /\ legal W ps2)
    as (ps2 & E & H2).
  { destruct tor; [|eauto].
    unfold toroidal_cut. specialize (HT eq_refl). rewrite <- sides_used_length in HT.
    assert (1 <= List.length (sides_used R)).
    { destruct (sides_used R) eqn:E; simpl; [|lia].
      destruct R as [|r R']; [simpl in HL; lia|].
      assert (In r (sides_used (r :: R'))) as I by (apply sides_used_In; now left).
      rewrite E in I. destruct I. }
    pose proof (keep_small (List.length (sides_used R)) ltac:(lia)) as K.
    destruct (Nat.ltb_spec (List.length ps1) (Nat.max 1 (List.length (sides_used R) - 1))); [lia|].
    eexists; split; [reflexivity|].
    destruct H1 as (A & B & C & D). repeat split.
    - destruct ps1; [now destruct A|].
      destruct (Nat.max 1 (List.length (sides_used R) - 1)) eqn:Em; [lia|]. discriminate.
    - rewrite firstn_length. lia.
    - now apply NoDup_firstn.
    - apply Forall_forall. intros p Hp. rewrite Forall_forall in D. apply D. eapply firstn_In; eauto. }
  rewrite E. cbn [bind]. eexists; split; [reflexivity|].
  destruct real; auto. apply add_reversals_legal; auto. apply H2.
Qed.

(** * Ordered sections *)
Open Scope Q_scope.

Lemma map_outcome_ok {A B} (f : A -> outcome B) (g : A -> B) l :
  (forall a, In a l -> f a = Ok (g a)) -> map_outcome f l = Ok (map g l).
Proof.
  induction l as [|a t IH]; intros H; simpl; auto.
  rewrite H by now left. cbn [bind]. rewrite IH by (intros; apply H; now right). reflexivity.
Qed.

Lemma map_outcome_inv {A B} (f : A -> outcome B) l : forall r,
  map_outcome f l = Ok r -> Forall2 (fun a b => f a = Ok b) l r.
Proof.
  induction l as [|a t IH]; intros r H; simpl in H.
  - injection H as <-. constructor.
  - destruct (f a) eqn:E; try discriminate. cbn [bind] in H.
    destruct (map_outcome f t) eqn:E2; try discriminate. cbn [bind] in H. injection H as <-.
    constructor; auto.
Qed.

Definition section_size (space : Q) (shares : list Q) (pattern : list nat) (r w : nat) : Q :=
  roundFloat (space * nth w shares 0 / inject_Z (Z.of_nat (number_sections pattern r w))) 9.

Lemma in_concat_repeat {A} (x : A) p r : In x (List.concat (repeat p r)) -> In x p.
Proof. induction r; simpl; [tauto|]. rewrite in_app_iff. tauto. Qed.

Lemma ordered_ok windings space shares pattern r :
  (forall w, In w pattern -> (w < windings)%nat /\ (w < List.length shares)%nat /\
     roundFloat (nth w shares 0) 6 <= 1) ->
  get_ordered_sections windings space shares pattern r =
  Ok (map (fun w => (w, section_size space shares pattern r w)) (List.concat (repeat pattern r))).
Proof.
  intros H. unfold get_ordered_sections.
  destruct (existsb (fun w => (windings <=? w)%nat) pattern) eqn:E.
  { apply existsb_exists in E. destruct E as (w & Hw & E). apply Nat.leb_le in E.
    destruct (H w Hw). lia. }
  apply map_outcome_ok. intros w Hw. apply in_concat_repeat in Hw.
  destruct (H w Hw) as (H1 & H2 & H3).
  unfold ordered_section. rewrite (nth_error_nth' shares 0 H2).
  destruct (Qlt_bool 1 (roundFloat (nth w shares 0) 6)) eqn:E2; [qb; lra|]. reflexivity.
Qed.

Lemma count_concat_repeat p r w :
  count_occ Nat.eq_dec (List.concat (repeat p r)) w = (count_occ Nat.eq_dec p w * r)%nat.
Proof.
  induction r; simpl; [lia|]. rewrite count_occ_app, IHr. lia.
Qed.

Lemma filter_fst_map (f : nat -> Q) w l :
  map snd (filter (fun s => Nat.eqb (fst s) w) (map (fun x => (x, f x)) l)) =
  repeat (f w) (count_occ Nat.eq_dec l w).
Proof.
  induction l as [|x t IH]; simpl; auto.
  destruct (Nat.eqb_spec x w) as [->|Hn]; destruct (Nat.eq_dec _ w); try congruence; simpl; now rewrite IH.
Qed.

Lemma Qsum_repeat x k : Qsum (repeat x k) == inject_Z (Z.of_nat k) * x.
Proof.
  induction k; [simpl; ring|]. cbn [repeat Qsum]. rewrite IHk.
  rewrite Nat2Z.inj_succ. unfold Z.succ. rewrite inject_Z_plus. ring.
Qed.

Lemma roundFloat_close v d : Qabs (roundFloat v d - v) <= (1#2) / p10 d.
Proof. 
  pose proof (p10_pos d) as P. unfold roundFloat.
  destruct (qround_bounds (v * p10 d)) as [A B].
  set (z := inject_Z (qround (v * p10 d))) in *.
  assert (E : z / p10 d - v == (z - v * p10 d) / p10 d) by (field; lra).
  rewrite E. apply Qabs_Qle_condition.
  split.
  - rewrite (Qle_div_iff _ _ _ P).
    assert (E2 : - ((1#2) / p10 d) * p10 d == - (1#2)) by (field; lra). rewrite E2. lra.
  - rewrite (Qdiv_le_iff _ _ _ P).
    assert (E2 : ((1#2) / p10 d) * p10 d == (1#2)) by (field; lra). rewrite E2. lra.
Qed.

Lemma winding_total space shares pattern r w : In w pattern -> (0 < r)%nat ->
  let k := inject_Z (Z.of_nat (count_occ Nat.eq_dec (List.concat (repeat pattern r)) w)) in
  Qabs (k * section_size space shares pattern r w - space * nth w shares 0) <= k * (5#10000000000).
Proof.
  intros Hw Hr. rewrite count_concat_repeat. fold (number_sections pattern r w).
  set (n := number_sections pattern r w).
  assert (Hn : (0 < n)%nat).
  { unfold n, number_sections. apply (count_occ_In Nat.eq_dec) in Hw. nia. }
  cbv zeta. unfold section_size. fold n.
  assert (P : 0 < inject_Z (Z.of_nat n)) by (change 0 with (inject_Z 0); rewrite <- Zlt_Qlt; lia).
  set (k := inject_Z (Z.of_nat n)) in *.
  pose proof (roundFloat_close (space * nth w shares 0 / k) 9) as R.
  assert (E : (1#2) / p10 9 == 5#10000000000) by reflexivity. rewrite E in R. clear E.
  set (q := roundFloat (space * nth w shares 0 / k) 9) in *.
  assert (E : k * q - space * nth w shares 0 == k * (q - space * nth w shares 0 / k)) by (field; lra).
  rewrite E, Qabs_Qmult, (Qabs_pos k) by lra.
  rewrite (Qmult_comm k), (Qmult_comm k). apply Qmult_le_compat_r; auto. lra.
Qed.

Lemma in_map_pair (f : nat -> Q) l w x : In (w, x) (map (fun w => (w, f w)) l) -> x = f w.
Proof. rewrite in_map_iff. intros (y & E & _). congruence. Qed.

(** Grouping a sum by winding. *)
Lemma Qsum_by_key (f : nat -> Q) l : forall keys, NoDup keys -> (forall x, In x l -> In x keys) ->
  Qsum (map f l) == Qsum (map (fun w => inject_Z (Z.of_nat (count_occ Nat.eq_dec l w)) * f w) keys).
Proof.
  induction l as [|x t IH]; intros keys HN HI.
  - simpl. clear. induction keys; simpl; [reflexivity|]. rewrite <- IHkeys. ring.
  - cbn [map Qsum]. rewrite (IH keys HN) by (intros; apply HI; now right).
    assert (Hx : In x keys) by (apply HI; now left). clear IH HI.
    induction HN as [|w ws Hw HN IH]; [destruct Hx|].
    cbn [map Qsum count_occ].
    destruct (Nat.eq_dec x w) as [->|Hne].
    + rewrite Nat2Z.inj_succ. unfold Z.succ. rewrite inject_Z_plus.
      assert (E : Qsum (map (fun w0 => inject_Z (Z.of_nat (if Nat.eq_dec w w0 then S (count_occ Nat.eq_dec t w0)
                                             else count_occ Nat.eq_dec t w0)) * f w0) ws) ==
                  Qsum (map (fun w0 => inject_Z (Z.of_nat (count_occ Nat.eq_dec t w0)) * f w0) ws)).
      { clear - Hw. induction ws as [|v vs IH]; simpl; [reflexivity|].
        destruct (Nat.eq_dec w v) as [->|]; [exfalso; apply Hw; now left|].
        rewrite IH; [reflexivity|]. intros I. apply Hw. now right. }
      rewrite E. ring.
    + destruct Hx as [Hx|Hx]; [congruence|].
      rewrite <- (IH Hx). ring.
Qed.

Lemma Qsum_abs_diff {A} (f g e : A -> Q) l : (forall a, In a l -> Qabs (f a - g a) <= e a) ->
  Qabs (Qsum (map f l) - Qsum (map g l)) <= Qsum (map e l).
Proof.
  induction l as [|a t IH]; intros H; cbn [map Qsum].
  - apply Qabs_Qle_condition. split; lra.
  - pose proof (H a (or_introl eq_refl)) as H1.
    pose proof (IH (fun b Hb => H b (or_intror Hb))) as H2.
    apply Qabs_Qle_condition in H1, H2. apply Qabs_Qle_condition. split; lra.
Qed.

(** * Insulation sections *)

Definition gap (ins : nat -> nat -> option Q) (l : list (nat * Q)) (i : nat) : Q :=
  match nth_error l i, nth_error l (S i) with
  | Some a, Some b => match ins (fst a) (fst b) with Some d => d | None => 0 end
  | _, _ => 0
  end.

Lemma carve_shape ins rest : forall f,
  exists f' r', carve ins f rest = f' :: r' /\ fst f' = fst f /\ map fst r' = map fst rest.
Proof.
  induction rest as [|g t IH]; intros f; simpl.
  - exists f, []. auto.
  - destruct (ins (fst f) (fst g)) as [d|].
    + destruct (IH (fst g, snd g - d / 2)) as (f' & r' & E & H1 & H2).
      rewrite E. eexists _, _. split; [reflexivity|]. split; auto. simpl. simpl in H1. now rewrite H1, H2.
    + destruct (IH g) as (f' & r' & E & H1 & H2).
      rewrite E. eexists _, _. split; [reflexivity|]. split; auto. simpl. now rewrite H1, H2.
Qed.

Definition size_at (l : list (nat * Q)) (i : nat) : Q := snd (nth i l (O, 0)).

Lemma carve_sizes ins rest : forall f i, (i <= List.length rest)%nat ->
  size_at (carve ins f rest) i ==
  size_at (f :: rest) i - (match i with O => 0 | S j => gap ins (f :: rest) j end) / 2
                        - gap ins (f :: rest) i / 2.
Proof.
  induction rest as [|g t IH]; intros f i Hi.
  - simpl in Hi. assert (i = O) by lia. subst. unfold size_at, gap. simpl. field.
  - cbn [carve].
    destruct i as [|i].
    + unfold gap. cbn [nth_error].
      destruct (ins (fst f) (fst g)) as [d|]; unfold size_at; simpl; field.
    + simpl in Hi.
      assert (HG : forall h, fst h = fst g -> forall j, gap ins (h :: t) j = gap ins (f :: g :: t) (S j)).
      { intros h Eh j. unfold gap. cbn [nth_error]. destruct j; simpl; [now rewrite Eh|reflexivity]. }
      destruct (ins (fst f) (fst g)) as [d|] eqn:E.
      * change (size_at ((fst f, snd f - d / 2) :: carve ins (fst g, snd g - d / 2) t) (S i))
          with (size_at (carve ins (fst g, snd g - d / 2) t) i).
        rewrite IH by lia. rewrite HG by reflexivity.
        destruct i as [|i].
        -- unfold size_at, gap at 2. cbn [nth_error]. rewrite E. simpl. field.
        -- rewrite HG by reflexivity. reflexivity.
      * change (size_at (f :: carve ins g t) (S i)) with (size_at (carve ins g t) i).
        rewrite IH by lia. rewrite HG by reflexivity.
        destruct i as [|i].
        -- unfold size_at, gap at 2. cbn [nth_error]. rewrite E. simpl. field.
        -- rewrite HG by reflexivity. reflexivity.
Qed.

Definition entry_size (e : section_entry) : Q := snd (snd e).

Lemma insert_total ins rest : forall f f' r', carve ins f rest = f' :: r' ->
  snd f' + Qsum (map entry_size (interpose ins (fst f) r')) == snd f + Qsum (map snd rest).
Proof.
  induction rest as [|g t IH]; intros f f' r' E; cbn [carve] in E.
  - injection E as <- <-. simpl. ring.
  - destruct (ins (fst f) (fst g)) as [d|] eqn:Ei; injection E as <- <-.
    + destruct (carve_shape ins t (fst g, snd g - d / 2)) as (g' & r'' & E & H1 & H2).
      rewrite E. cbn [interpose]. cbn [fst] in H1. rewrite H1, Ei. cbn [map Qsum entry_size snd].
      pose proof (IH _ _ _ E) as I. cbn [fst snd] in I. unfold entry_size in *. cbn [snd].
      set (S1 := Qsum (map _ (interpose _ _ _))) in *. set (S2 := Qsum (map snd t)) in *.
      assert (E2 : d == d / 2 + d / 2) by field. clearbody S1 S2. set (h := d / 2) in *. clearbody h. rewrite I. lra.
    + destruct (carve_shape ins t g) as (g' & r'' & E & H1 & H2).
      rewrite E. cbn [interpose]. rewrite H1, Ei. cbn [map Qsum entry_size snd].
      pose proof (IH _ _ _ E) as I. unfold entry_size in *. cbn [snd].
      set (S1 := Qsum (map _ (interpose _ _ _))) in *. set (S2 := Qsum (map snd t)) in *.
      clearbody S1 S2. rewrite I. lra.
Qed.

(** * Integrity of patterns *)
Open Scope nat_scope.

Lemma count_filter f l w :
  count_occ Nat.eq_dec (filter f l) w = if f w then count_occ Nat.eq_dec l w else 0.
Proof.
  induction l as [|x t IH]; simpl; [now destruct (f w)|].
  destruct (Nat.eq_dec x w) as [->|Hn].
  - destruct (f w); simpl; [|exact IH]. destruct (Nat.eq_dec w w); [|congruence]. now rewrite IH.
  - destruct (f x); simpl; [|exact IH]. destruct (Nat.eq_dec x w); [congruence|]. exact IH.
Qed.

Lemma count_passes phys pattern w r : forall s,
  count_occ Nat.eq_dec
    (flat_map (fun rep => filter (fun w => Nat.leb rep (nth w phys 0)) pattern) (seq s r)) w =
  count_occ Nat.eq_dec pattern w * Nat.min r (S (nth w phys 0) - s).
Proof.
  induction r as [|r IH]; intros s; cbn [seq flat_map]; [simpl; lia|].
  rewrite count_occ_app, IH, count_filter. cbv beta.
  destruct (Nat.leb_spec s (nth w phys 0)).
  - replace (Nat.min (S r) (S (nth w phys 0) - s)) with (S (Nat.min r (S (nth w phys 0) - S s))) by lia.
    rewrite Nat.mul_succ_r. lia.
  - replace (Nat.min (S r) (S (nth w phys 0) - s)) with 0 by lia.
    replace (Nat.min r (S (nth w phys 0) - S s)) with 0 by lia. lia.
Qed.

(** * Grouping *)

Lemma index_by_name_bound coil : forall i n k, index_by_name_from i coil n = Ok k ->
  i <= k < i + List.length coil /\ name (nth (k - i) coil dummy_winding) = n.
Proof.
  induction coil as [|w t IH]; intros i n k H; simpl in H; [discriminate|].
  destruct (String.eqb_spec (name w) n).
  - injection H as <-. simpl. replace (i - i) with 0 by lia. split; [lia|auto].
  - apply IH in H. destruct H as [H1 H2]. simpl. split; [lia|].
    replace (k - i) with (S (k - S i)) by lia. exact H2.
Qed.

Lemma index_by_name_unique coil : NoDup (map name coil) -> forall i k, k < List.length coil ->
  index_by_name_from i coil (name (nth k coil dummy_winding)) = Ok (i + k).
Proof.
  induction coil as [|w t IH]; intros HN i k Hk; simpl in *; [lia|].
  inversion HN as [|? ? Hni HN']; subst.
  destruct k as [|k].
  - rewrite String.eqb_refl. f_equal. lia.
  - destruct (String.eqb_spec (name w) (name (nth k t dummy_winding))) as [e|].
    + exfalso. apply Hni. rewrite e. apply in_map. apply nth_In. lia.
    + rewrite IH by (auto; lia). f_equal. lia.
Qed.

Lemma index_by_name_total coil : forall i n, In n (map name coil) ->
  exists k, index_by_name_from i coil n = Ok k.
Proof.
  induction coil as [|w t IH]; intros i n H; simpl in *; [destruct H|].
  destruct (String.eqb_spec (name w) n); eauto.
  apply IH. destruct H; [congruence|auto].
Qed.

Lemma minimum_index_spec coil names : forall cur m, minimum_index coil cur names = Ok m ->
  m <= cur /\ (m = cur \/ exists n, In n names /\ get_winding_index_by_name coil n = Ok m) /\
  (forall n k, In n names -> get_winding_index_by_name coil n = Ok k -> m <= k).
Proof.
  induction names as [|n t IH]; intros cur m H; simpl in H.
  - injection H as <-. repeat split; auto. intros ? ? [].
  - destruct (get_winding_index_by_name coil n) eqn:E; try discriminate. cbn [bind] in H.
    apply IH in H. destruct H as (H1 & H2 & H3). split; [lia|]. split.
    + destruct H2 as [H2|(n' & Hn & E')].
      * destruct (Nat.min_spec a cur) as [[A B]|[A B]]; rewrite B in H2; subst; auto.
        right. exists n. split; auto. now left.
      * right. exists n'. split; auto. now right.
    + intros n' k [<-|Hn] Ek.
      * rewrite E in Ek. injection Ek as <-. lia.
      * eauto.
Qed.

Lemma minimum_index_total coil names : (forall n, In n names -> In n (map name coil)) ->
  forall cur, exists m, minimum_index coil cur names = Ok m.
Proof.
  induction names as [|n t IH]; intros H cur; simpl; eauto.
  destruct (index_by_name_total coil 0 n) as (k & E); [apply H; now left|].
  unfold get_winding_index_by_name. rewrite E. cbn [bind]. apply IH. intros; apply H; now right.
Qed.

Lemma group_min_le coil w m : get_winding_group_minimum_index coil w = Ok m -> m <= w.
Proof.
  unfold get_winding_group_minimum_index. destruct (nth_error coil w); [|discriminate].
  intros H. now apply minimum_index_spec in H.
Qed.

(** What the loop keeps true: virtual indexes are handed out contiguously, a
    winding shares the index of the smallest member of its list. *)
Definition good_inv (coil : list winding) (inv : list nat) (next : nat) : Prop :=
  (forall w, w < List.length inv -> nth w inv 0 < next) /\
  (forall v, v < next -> exists w, w < List.length inv /\ nth w inv 0 = v) /\
  (forall w, w < List.length inv -> exists m, get_winding_group_minimum_index coil w = Ok m /\
     nth w inv 0 = nth m inv 0) /\
  (forall w m, w < List.length inv -> get_winding_group_minimum_index coil w = Ok m -> m = w ->
     forall u, u < w -> nth u inv 0 <> nth w inv 0).

Lemma nth_snoc (l : list nat) x i : nth i (l ++ [x]) 0 = if i <? List.length l then nth i l 0
  else if i =? List.length l then x else 0.
Proof.
  destruct (Nat.ltb_spec i (List.length l)).
  - now apply app_nth1.
  - rewrite app_nth2 by lia. destruct (Nat.eqb_spec i (List.length l)).
    + subst. now rewrite Nat.sub_diag.
    + destruct (i - List.length l) as [|[|k]] eqn:E; simpl; auto. lia.
Qed.

Lemma assign_good coil todo : forall inv next r,
  good_inv coil inv next -> assign_virtual coil inv next todo = Ok r ->
  exists next', good_inv coil r next' /\ List.length r = List.length inv + todo.
Proof.
  induction todo as [|k IH]; intros inv next r HG H; cbn [assign_virtual] in H.
  - injection H as <-. exists next. split; auto.
  - destruct (get_winding_group_minimum_index coil (List.length inv)) as [m| | |] eqn:Em;
      try discriminate. cbn [bind] in H.
    pose proof (group_min_le _ _ _ Em) as Hm.
    destruct HG as (G1 & G2 & G3 & G4).
    destruct (nth_error inv m) as [v|] eqn:Ev.
    + assert (Hml : m < List.length inv) by (apply nth_error_Some; congruence).
      apply (nth_error_nth _ _ 0) in Ev.
      destruct (IH (inv ++ [v]) next r) as (n' & A & B); auto.
      { unfold good_inv. rewrite app_length. simpl. repeat split.
        - intros w Hw. rewrite nth_snoc. destruct (Nat.ltb_spec w (List.length inv)); auto.
          destruct (Nat.eqb_spec w (List.length inv)); [|lia]. rewrite <- Ev. auto.
        - intros u Hu. destruct (G2 u Hu) as (w & Hw & E). exists w. split; [lia|].
          rewrite nth_snoc. destruct (Nat.ltb_spec w (List.length inv)); [auto|lia].
        - intros w Hw. destruct (Nat.eq_dec w (List.length inv)) as [->|Hn].
          + exists m. split; auto. rewrite !nth_snoc.
            destruct (Nat.ltb_spec (List.length inv) (List.length inv)); [lia|].
            rewrite Nat.eqb_refl. destruct (Nat.ltb_spec m (List.length inv)); [auto|lia].
          + destruct (G3 w ltac:(lia)) as (m' & E1 & E2). exists m'. split; auto.
            pose proof (group_min_le _ _ _ E1).
            rewrite !nth_snoc.
            destruct (Nat.ltb_spec w (List.length inv)); [|lia].
            destruct (Nat.ltb_spec m' (List.length inv)); [auto|lia].
        - intros w m' Hw E1 -> u Hu.
          destruct (Nat.eq_dec w (List.length inv)) as [->|Hn]; [rewrite Em in E1; injection E1; lia|].
          rewrite !nth_snoc.
          destruct (Nat.ltb_spec w (List.length inv)); [|lia].
          destruct (Nat.ltb_spec u (List.length inv)); [|lia]. eapply G4; eauto. }
      exists n'. split; auto. rewrite B, app_length. simpl. lia.
    + assert (Hml : m = List.length inv) by (apply nth_error_None in Ev; lia). subst m.
      destruct (IH (inv ++ [next]) (S next) r) as (n' & A & B); auto.
      { unfold good_inv. rewrite app_length. simpl. repeat split.
        - intros w Hw. rewrite nth_snoc. destruct (Nat.ltb_spec w (List.length inv)) as [l|l].
          + specialize (G1 w l). lia.
          + destruct (Nat.eqb_spec w (List.length inv)); lia.
        - intros u Hu. destruct (Nat.eq_dec u next) as [->|Hn].
          + exists (List.length inv). split; [lia|]. rewrite nth_snoc.
            rewrite Nat.ltb_irrefl, Nat.eqb_refl. reflexivity.
          + destruct (G2 u ltac:(lia)) as (w & Hw & E). exists w. split; [lia|].
            rewrite nth_snoc. destruct (Nat.ltb_spec w (List.length inv)); [auto|lia].
        - intros w Hw. destruct (Nat.eq_dec w (List.length inv)) as [->|Hn].
          + exists (List.length inv). split; auto.
          + destruct (G3 w ltac:(lia)) as (m' & E1 & E2). exists m'. split; auto.
            pose proof (group_min_le _ _ _ E1).
            rewrite !nth_snoc.
            destruct (Nat.ltb_spec w (List.length inv)); [|lia].
            destruct (Nat.ltb_spec m' (List.length inv)); [auto|lia].
        - intros w m' Hw E1 -> u Hu. rewrite !nth_snoc.
          destruct (Nat.ltb_spec u (List.length inv)); [|lia].
          destruct (Nat.ltb_spec w (List.length inv)) as [l|l].
          + eapply G4; eauto.
          + destruct (Nat.eqb_spec w (List.length inv)); [|lia]. specialize (G1 u ltac:(lia)). lia. }
      exists n'. split; auto. rewrite B, app_length. simpl. lia.
Qed.

Lemma good_inv_nil coil : good_inv coil [] 0.
Proof. repeat split; simpl; intros; lia. Qed.

Lemma assign_total coil todo : (forall w, w < List.length coil ->
    forall n, In n (wound_with (nth w coil dummy_winding)) -> In n (map name coil)) ->
  forall inv next, List.length inv + todo <= List.length coil ->
  exists r, assign_virtual coil inv next todo = Ok r.
Proof.
  intros HW. induction todo as [|k IH]; intros inv next H; cbn [assign_virtual]; eauto.
  unfold get_winding_group_minimum_index.
  rewrite (nth_error_nth' coil dummy_winding) by lia.
  destruct (minimum_index_total coil (wound_with (nth (List.length inv) coil dummy_winding))
              (HW (List.length inv) ltac:(lia)) (List.length inv)) as (m & ->).
  cbn [bind]. destruct (nth_error inv m); apply IH; rewrite app_length; simpl; lia.
Qed.

Lemma max_bound l v : In v l -> v < fold_right Nat.max 0 (map S l).
Proof.
  induction l as [|a l IHl]; cbn [fold_right map In]; [tauto|].
  intros [->|H]; [lia|]. specialize (IHl H). lia.
Qed.

Lemma max_attained l : fold_right Nat.max 0 (map S l) = 0 \/
  In (pred (fold_right Nat.max 0 (map S l))) l.
Proof.
  induction l as [|x t IH]; cbn [fold_right map In]; auto. right.
  set (m := fold_right Nat.max 0 (map S t)) in *.
  destruct m as [|m]; [left; lia|].
  destruct IH as [|IH]; [discriminate|].
  destruct (Nat.max_spec (S x) (S m)) as [[A B]|[A B]]; rewrite B; simpl; auto.
Qed.

Lemma members_In inv v w : In w (members inv v) <-> w < List.length inv /\ nth w inv 0 = v.
Proof.
  unfold members. rewrite filter_In, in_seq, Nat.eqb_eq. lia.
Qed.

Lemma groups_partition inv : Permutation (List.concat (virtualization_map inv)) (seq 0 (List.length inv)).
Proof.
  unfold virtualization_map.
  set (N := fold_right Nat.max 0 (map S inv)).
  assert (H : forall k s, Permutation (List.concat (map (members inv) (seq s k)))
     (filter (fun w => (s <=? nth w inv 0) && (nth w inv 0 <? s + k)) (seq 0 (List.length inv)))).
  { induction k as [|k IH]; intros s; simpl.
    - rewrite Nat.add_0_r.
      replace (filter _ _) with (@nil nat); auto.
      symmetry. induction (seq 0 (List.length inv)) as [|x t IHl]; simpl; auto.
      destruct (Nat.leb_spec s (nth x inv 0)), (Nat.ltb_spec (nth x inv 0) s); simpl; auto; lia.
    - etransitivity; [apply Permutation_app_head; apply IH|].
      unfold members. clear.
      induction (seq 0 (List.length inv)) as [|x t IHl]; cbn [filter app]; auto.
      destruct (Nat.eqb_spec (nth x inv 0) s), (Nat.leb_spec s (nth x inv 0)),
        (Nat.leb_spec (S s) (nth x inv 0)), (Nat.ltb_spec (nth x inv 0) (S s + k)),
        (Nat.ltb_spec (nth x inv 0) (s + S k)); cbn [andb app]; try lia; auto.
      + etransitivity; [symmetry; apply Permutation_middle|]. now constructor. }
  etransitivity; [apply H|].
  replace (filter _ _) with (seq 0 (List.length inv)); auto.
  clear H. assert (F : forall w, w < List.length inv -> nth w inv 0 < N).
  { intros w Hw. apply max_bound, nth_In, Hw. }
  assert (G : forall l, (forall w, In w l -> w < List.length inv) ->
    l = filter (fun w => (0 <=? nth w inv 0) && (nth w inv 0 <? 0 + N)) l).
  { induction l as [|x t IH]; intros HL; simpl; auto.
    specialize (F x (HL x (or_introl eq_refl))).
    destruct (Nat.ltb_spec (nth x inv 0) N); [|lia]. f_equal. apply IH. intros; apply HL; now right. }
  apply G. intros w Hw. apply in_seq in Hw. lia.
Qed.

Lemma groups_nonempty coil inv next : good_inv coil inv next ->
  Forall (fun g => g <> []) (virtualization_map inv).
Proof.
  intros (G1 & G2 & _). unfold virtualization_map. apply Forall_map, Forall_forall.
  intros v Hv. apply in_seq in Hv. simpl in Hv.
  assert (Hn : v < next).
  { destruct (max_attained inv) as [E|I]; [lia|].
    apply (In_nth _ _ 0) in I. destruct I as (w & Hw & E). specialize (G1 w Hw). lia. }
  destruct (G2 v Hn) as (w & Hw & E). intros C.
  assert (I : In w (members inv v)) by (apply members_In; auto). rewrite C in I. destruct I.
Qed.

(** Merging. *)
Lemma merge_spec ws : forall n p s x n' p' s' x',
  Forall (fun w => 0 < number_parallels w) ws ->
  merge_windings (n, p, s, x) ws = Ok (n', p', s', x') ->
  n' = n + fold_right Nat.add 0 (map number_turns ws) /\
  (0 < p -> p' = p) /\ Forall (fun w => number_parallels w = p') ws.
Proof.
  induction ws as [|w t IH]; intros n p s x n' p' s' x' HP H; cbn [merge_windings] in H.
  - injection H as -> -> -> ->. simpl. repeat split; auto.
  - inversion HP as [|? ? P1 P2]; subst.
    destruct (negb (p =? 0) && negb (p =? number_parallels w)) eqn:E1; [discriminate|].
    destruct (match s with Some s0 => _ | None => _ end); [discriminate|].
    destruct (match x with Some s0 => _ | None => _ end); [discriminate|].
    apply IH in H; auto. destruct H as (A & B & C). simpl.
    assert (E : (if p =? 0 then number_parallels w else p) = number_parallels w).
    { destruct (Nat.eqb_spec p 0); auto. simpl in E1.
      destruct (Nat.eqb_spec p (number_parallels w)); [auto|discriminate]. }
    rewrite E in B. specialize (B P1). repeat split.
    + lia.
    + intros Hp. destruct (Nat.eqb_spec p 0); [lia|]. congruence.
    + constructor; auto.
Qed.

Lemma merge_total ws p side x : forall n,
  0 < p ->
  Forall (fun w => number_parallels w = p /\ isolation_side w = side /\ wire w = x) ws ->
  exists n', merge_windings (n, p, Some side, Some x) ws = Ok (n', p, Some side, Some x).
Proof.
  induction ws as [|w t IH]; intros n Hp H; cbn [merge_windings]; eauto.
  inversion H as [|? ? (A & B & C) F]; subst.
  rewrite !Nat.eqb_refl. simpl.
  destruct (Nat.eqb_spec (number_parallels w) 0); [lia|]. simpl. apply IH; auto.
Qed.

(** Dealing turns back. *)
Lemma decrement_length l i : List.length (decrement l i) = List.length l.
Proof. revert i. induction l; intros [|i]; simpl; auto. Qed.
Lemma increment_length l i : List.length (increment l i) = List.length l.
Proof. revert i. induction l; intros [|i]; simpl; auto. Qed.
Lemma decrement_nth l : forall i j, nth j (decrement l i) 0 = if i =? j then pred (nth j l 0) else nth j l 0.
Proof.
  induction l as [|x t IH]; intros i j; [destruct i, j; simpl; try reflexivity; now destruct (i =? j)|].
  destruct i, j; simpl; auto.
Qed.
Lemma increment_nth l : forall i j, j < List.length l ->
  nth j (increment l i) 0 = if i =? j then S (nth j l 0) else nth j l 0.
Proof.
  induction l as [|x t IH]; intros i j H; simpl in H; [lia|].
  destruct i, j; simpl; auto. apply IH. lia.
Qed.
Lemma decrement_sum l : forall i, 0 < nth i l 0 ->
  S (fold_right Nat.add 0 (decrement l i)) = fold_right Nat.add 0 l.
Proof.
  induction l as [|x t IH]; intros [|i] H; simpl in *; try lia.
  specialize (IH i H). lia.
Qed.

Lemma sum_pos l : 0 < fold_right Nat.add 0 l -> exists i, i < List.length l /\ 0 < nth i l 0.
Proof.
  induction l as [|x t IH]; simpl; [lia|]. intros H.
  destruct x as [|x].
  - destruct IH as (i & Hi & Hn); [simpl in H; lia|]. exists (S i). split; [lia|auto].
  - exists 0. split; lia.
Qed.

Lemma next_member_finds pattern rem d : forall timeout index,
  List.length pattern <> 0 -> index < List.length pattern -> d < timeout ->
  0 < nth (nth ((index + d) mod List.length pattern) pattern 0) rem 0 ->
  exists j, next_member timeout pattern index rem = Some j /\ j < List.length pattern /\
            0 < nth (nth j pattern 0) rem 0.
Proof.
  induction d as [|d IH]; intros timeout index HP HI HT HR.
  - rewrite Nat.add_0_r, Nat.mod_small in HR by auto.
    destruct timeout; [lia|]. cbn [next_member].
    destruct (Nat.ltb_spec 0 (nth (nth index pattern 0) rem 0)); [|lia]. eauto.
  - destruct timeout; [lia|]. cbn [next_member].
    destruct (Nat.ltb_spec 0 (nth (nth index pattern 0) rem 0)); [eauto|].
    apply IH; auto.
    + now apply Nat.mod_upper_bound.
    + lia.
    + rewrite Nat.add_mod_idemp_l by auto. replace (S index + d) with (index + S d) by lia. exact HR.
Qed.

Lemma next_member_any pattern rem index m :
  index < List.length pattern -> In m pattern -> 0 < nth m rem 0 ->
  exists j, next_member (S (List.length pattern)) pattern index rem = Some j /\ j < List.length pattern /\
            0 < nth (nth j pattern 0) rem 0.
Proof.
  intros HI HM HR. destruct (In_nth _ _ 0 HM) as (k & Hk & E).
  set (L := List.length pattern) in *.
  apply (next_member_finds pattern rem (if index <=? k then k - index else L - index + k)); try lia.
  - fold L. destruct (Nat.leb_spec index k); lia.
  - fold L. destruct (Nat.leb_spec index k).
    + replace (index + (k - index)) with k by lia. rewrite Nat.mod_small by lia. now rewrite E.
    + replace (index + (L - index + k)) with (k + 1 * L) by lia.
      rewrite Nat.mod_add by lia. rewrite Nat.mod_small by lia. now rewrite E.
Qed.

Lemma dealing_pattern_In phys m : m < List.length phys -> (forall n, In n phys -> 0 < n) ->
  In m (dealing_pattern phys).
Proof.
  intros Hm Hp. unfold dealing_pattern. apply in_flat_map. exists (m, nth m phys 0). split.
  - pose proof (combine_nth (seq 0 (List.length phys)) phys m 0 0 (seq_length _ _)) as C.
    rewrite seq_nth in C by auto. simpl in C. rewrite <- C. apply nth_In.
    rewrite combine_length, seq_length. lia.
  - set (x := nth m phys 0).
    assert (Hx : In x phys) by (now apply nth_In).
    assert (Hf : 0 < fewest phys /\ fewest phys <= x).
    { unfold fewest. split.
      - assert (G : forall l d, 0 < d -> (forall n, In n l -> 0 < n) -> 0 < fold_right Nat.min d l).
        { induction l; intros d Hd Hl; simpl; auto. 
          specialize (IHl d Hd (fun n Hn => Hl n (or_intror Hn))). specialize (Hl a (or_introl eq_refl)). lia. }
        apply G; auto. destruct phys; [destruct Hx|]. apply Hp. now left.
      - assert (G : forall l d, In x l -> fold_right Nat.min d l <= x).
        { induction l as [|b l IHl]; intros d Hl; [destruct Hl|]. simpl. destruct Hl as [->|Hl]; [lia|]. specialize (IHl d Hl). lia. }
        apply G; auto. }
    destruct Hf as [F1 F2].
    assert (Q1 : (1 <= qround (inject_Z (Z.of_nat x) / inject_Z (Z.of_nat (fewest phys))))%Z).
    { rewrite <- (qround_Z 1). apply qround_mono.
      assert (P : (0 < inject_Z (Z.of_nat (fewest phys)))%Q).
      { change 0%Q with (inject_Z 0). rewrite <- Zlt_Qlt. lia. }
      rewrite (Qle_div_iff _ _ _ P). rewrite Qmult_1_l. rewrite <- Zle_Qle. lia. }
    destruct (Z.to_nat _) eqn:E; [lia|]. now left.
Qed.

Definition slots_of (n a k q : nat) : nat := List.length (filter (fun i => i / n =? q) (seq a k)).

Definition given {T} (m q : nat) (out : list (T * nat * nat)) : nat :=
  List.length (filter (fun e => (snd (fst e) =? m) && (snd e =? q)) out).

Lemma deal_spec {T} (ns ps pattern : list nat) : forall (turns : list T) index rem asg,
  (forall i, i < List.length pattern -> nth i pattern 0 < List.length ns) ->
  (forall m, m < List.length ns -> In m pattern) ->
  List.length ps = List.length ns -> List.length rem = List.length ns -> List.length asg = List.length ns ->
  (forall m, m < List.length ns -> 0 < nth m ns 0 /\ nth m asg 0 + nth m rem 0 = nth m ns 0 * nth m ps 0) ->
  fold_right Nat.add 0 rem = List.length turns ->
  (turns <> [] -> index < List.length pattern) ->
  exists out, deal ns ps pattern index rem asg turns = Ok out /\
    map (fun e => fst (fst e)) out = turns /\
    Forall (fun e => snd (fst e) < List.length ns /\ snd e < nth (snd (fst e)) ps 0) out /\
    forall m q, m < List.length ns -> given m q out = slots_of (nth m ns 0) (nth m asg 0) (nth m rem 0) q.
Proof.
  induction turns as [|t rest IH]; intros index rem asg HP HM L1 L2 L3 HI HS Hidx.
  - exists []. simpl. repeat split; auto. intros m q Hm.
    assert (Z0 : nth m rem 0 = 0).
    { simpl in HS. clear - HS. revert m. induction rem as [|x r IHr]; intros [|m]; simpl in *; auto; try lia.
      apply IHr. lia. }
    rewrite Z0. reflexivity.
  - specialize (Hidx ltac:(discriminate)).
    destruct (sum_pos rem) as (m0 & Hm0 & Hr0); [rewrite HS; simpl; lia|].
    destruct (next_member_any pattern rem index m0 Hidx) as (j & E & Hj & Hr);
      [apply HM; lia|exact Hr0|].
    cbn [deal]. rewrite E. cbv zeta.
    set (m := nth j pattern 0) in *.
    assert (Hm : m < List.length ns) by (now apply HP).
    destruct (HI m Hm) as [Hn HA].
    set (q0 := nth m asg 0 / nth m ns 0).
    assert (Hq : q0 < nth m ps 0).
    { apply Nat.div_lt_upper_bound; lia. }
    destruct (Nat.leb_spec (nth m ps 0) q0) as [|_]; [lia|].
    destruct (IH (S j mod List.length pattern) (decrement rem m) (increment asg m))
      as (out & E2 & M2 & F2 & G2); auto.
    + rewrite decrement_length. auto.
    + rewrite increment_length. auto.
    + intros m' Hm'. destruct (HI m' Hm') as [A B]. split; auto.
      rewrite decrement_nth, increment_nth by lia.
      destruct (Nat.eqb_spec m m'); [subst m'; lia|auto].
    + pose proof (decrement_sum rem m Hr). simpl in HS. lia.
    + intros _. apply Nat.mod_upper_bound. lia.
    + rewrite E2. cbn [bind]. exists ((t, m, q0) :: out). split; [reflexivity|].
      split; [simpl; now rewrite M2|]. split; [constructor; auto|].
      intros m' q Hm'. unfold given. cbn [filter fst snd].
      specialize (G2 m' q Hm'). unfold given in G2.
      rewrite decrement_nth, increment_nth in G2 by lia.
      destruct (Nat.eqb_spec m m') as [<-|Hne].
      * simpl. destruct (nth m rem 0) as [|r] eqn:Er; [lia|]. simpl in G2.
        unfold slots_of in *. cbn [seq filter]. fold q0.
        destruct (q0 =? q); simpl; now rewrite G2.
      * simpl. exact G2.
Qed.

Lemma slots_full n p q : 0 < n -> q < p -> slots_of n 0 (n * p) q = n.
Proof.
  intros Hn Hq. unfold slots_of.
  assert (A : forall k a, (forall i, a <= i < a + k -> i / n <> q) ->
    List.length (filter (fun i => i / n =? q) (seq a k)) = 0).
  { induction k; intros a H; simpl; auto.
    destruct (Nat.eqb_spec (a / n) q); [exfalso; apply (H a); auto; lia|].
    apply IHk. intros i Hi. apply H. lia. }
  assert (B : forall k a, (forall i, a <= i < a + k -> i / n = q) ->
    List.length (filter (fun i => i / n =? q) (seq a k)) = k).
  { induction k; intros a H; simpl; auto.
    destruct (Nat.eqb_spec (a / n) q) as [|Hne]; [|exfalso; apply Hne, H; lia].
    simpl. f_equal. apply IHk. intros i Hi. apply H. lia. }
  replace (n * p) with (n * q + (n + n * (p - q - 1))) by nia.
  rewrite seq_app, filter_app, app_length, seq_app, filter_app, app_length.
  rewrite A, B, A; [lia| | |].
  - intros i Hi. assert (S q <= i / n); [|lia]. apply Nat.div_le_lower_bound; nia.
  - intros i Hi. symmetry. apply (Nat.div_unique i n q (i - n * q)); nia.
  - intros i Hi. assert (i / n < q); [|lia]. apply Nat.div_lt_upper_bound; nia.
Qed.

Lemma dealing_pattern_range phys i : i < List.length (dealing_pattern phys) ->
  nth i (dealing_pattern phys) 0 < List.length phys.
Proof.
  intros H. apply (nth_In _ 0) in H. unfold dealing_pattern in H at 2.
  apply in_flat_map in H. destruct H as ([k n] & Hin & H).
  apply in_combine_l in Hin. apply in_seq in Hin. apply repeat_spec in H. lia.
Qed.

Lemma nth_map0' {A} (f : A -> nat) l m d : f d = 0 -> nth m (map f l) 0 = f (nth m l d).
Proof. intros H. rewrite <- H. apply map_nth. Qed.

Lemma devirtualize_spec {T} (group : list winding) (turns : list T) :
  (forall w, In w group -> 0 < number_turns w /\ 0 < number_parallels w) ->
  fold_right Nat.add 0 (map physical group) = List.length turns ->
  exists out, devirtualize_turns group turns = Ok out /\
    map (fun e => fst (fst e)) out = turns /\
    Forall (fun e => snd (fst e) < List.length group /\
                     snd e < number_parallels (nth (snd (fst e)) group dummy_winding)) out /\
    forall m q, m < List.length group -> q < number_parallels (nth m group dummy_winding) ->
      given m q out = number_turns (nth m group dummy_winding).
Proof.
  intros HP HS. unfold devirtualize_turns. cbv zeta. rewrite HS, Nat.eqb_refl. cbn [negb].
  set (phys := map physical group).
  assert (HPos : forall n, In n phys -> 0 < n).
  { intros n Hn. unfold phys in Hn. apply in_map_iff in Hn. destruct Hn as (w & <- & Hw).
    unfold physical. destruct (HP w Hw). nia. }
  destruct (existsb (Nat.eqb 0) phys) eqn:E0.
  { apply existsb_eqb_In in E0. specialize (HPos 0 E0). lia. }
  assert (LP : List.length phys = List.length group) by apply map_length.
  destruct (deal_spec (map number_turns group) (map number_parallels group) (dealing_pattern phys) turns 0
              phys (map (fun _ => 0) group)) as (out & E & M & F & G).
  - intros i Hi. rewrite map_length, <- LP. now apply dealing_pattern_range.
  - intros m Hm. rewrite map_length, <- LP in Hm. now apply dealing_pattern_In.
  - now rewrite !map_length.
  - now rewrite map_length.
  - now rewrite !map_length.
  - intros m Hm. rewrite map_length in Hm. unfold phys.
    rewrite (nth_map0' number_turns group m dummy_winding eq_refl),
            (nth_map0' number_parallels group m dummy_winding eq_refl),
            (nth_map0' physical group m dummy_winding eq_refl),
            (nth_map0' (fun _ => 0) group m dummy_winding eq_refl).
    destruct (HP (nth m group dummy_winding) (nth_In _ _ Hm)). split; auto.
  - exact HS.
  - intros Hne. destruct turns as [|t ts]; [congruence|].
    destruct (sum_pos phys) as (m & Hm & _); [unfold phys; rewrite HS; simpl; lia|].
    pose proof (dealing_pattern_In phys m Hm HPos) as I.
    destruct (dealing_pattern phys); [destruct I|simpl; lia].
  - exists out. split; [exact E|]. split; [exact M|]. split.
    + eapply Forall_impl; [|exact F]. intros e [A B]. rewrite map_length in A. split; auto.
      now rewrite (nth_map0' number_parallels group _ dummy_winding eq_refl) in B.
    + intros m q Hm Hq. rewrite G by (now rewrite map_length). unfold phys.
      rewrite (nth_map0' number_turns group m dummy_winding eq_refl),
            (nth_map0' physical group m dummy_winding eq_refl),
            (nth_map0' (fun _ => 0) group m dummy_winding eq_refl).
      unfold physical. apply slots_full; auto.
      apply HP. now apply nth_In.
Qed.


