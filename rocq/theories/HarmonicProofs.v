(** Facts about the choice of harmonics. *)
From Coq Require Import ZArith QArith List String Bool Lia Sorted Lra Lqa.
From Verif Require Import Base QAux HarmonicModel.
Import ListNotations.
Open Scope outcome_scope.
Open Scope list_scope.
Open Scope Q_scope.

Lemma bind_ok : forall A B (x : outcome A) (f : A -> outcome B) r,
  bind x f = Ok r -> exists a, x = Ok a /\ f a = Ok r.
Proof. intros A B [a| | |] f r H; try discriminate. eauto. Qed.
Ltac step H := let y := fresh "x" in let E := fresh "E" in apply bind_ok in H; destruct H as (y & E & H).

(** ** Lines *)

(** the line of index k: amplitude a at frequency f *)
Definition line (h : harmonics) (k : nat) (a f : Q) : Prop :=
  nth_error (amplitudes h) k = Some a /\ nth_error (frequencies h) k = Some f.

Lemma combine_nth_error : forall A B (l : list A) (r : list B) k a b,
  nth_error (combine l r) k = Some (a, b) <-> nth_error l k = Some a /\ nth_error r k = Some b.
Proof.
  induction l as [|x l IH]; intros [|y r] [|k] a b; cbn; try (split; intros; intuition discriminate).
  - split; [intros [= -> ->]; auto|intros [[= ->] [= ->]]; reflexivity].
  - apply IH.
Qed.
Lemma lines_ok : forall h l, lines h = Ok l ->
  (List.length (amplitudes h) <= List.length (frequencies h))%nat /\
  List.length l = List.length (amplitudes h) /\
  forall k x, nth_error l k = Some x <-> line h k (fst x) (snd x).
Proof.
  unfold lines. intros h l H. destruct (Nat.ltb_spec (List.length (frequencies h)) (List.length (amplitudes h))) as [L|L];
    [discriminate|]. injection H as <-. split; [exact L|]. split; [rewrite combine_length; lia|].
  intros k [a f]. apply combine_nth_error.
Qed.
Lemma of_lines_ok : forall l, lines (of_lines l) = Ok l.
Proof.
  intros l. unfold lines, of_lines. cbn [amplitudes frequencies]. rewrite !map_length, Nat.ltb_irrefl. f_equal.
  induction l as [|[a f] l IH]; cbn; congruence.
Qed.
Lemma of_lines_line : forall l k x, nth_error l k = Some x <-> line (of_lines l) k (fst x) (snd x).
Proof. intros. apply (lines_ok _ _ (of_lines_ok l)). Qed.

(** ** The heaviest line *)
Section Root.
Variable root : Q -> Q.

Lemma heaviest_fold : forall l m,
  m <= fold_left (fun m x => cmax (weight root x) m) l m /\
  (forall x, In x l -> weight root x <= fold_left (fun m x => cmax (weight root x) m) l m) /\
  (fold_left (fun m x => cmax (weight root x) m) l m = m \/
   exists x, In x l /\ fold_left (fun m x => cmax (weight root x) m) l m = weight root x).
Proof.
  induction l as [|y l IH]; intros m; cbn [fold_left].
  { split; [lra|]. split; [intros x []|now left]. }
  destruct (IH (cmax (weight root y) m)) as (A & B & C).
  assert (Y : weight root y <= cmax (weight root y) m /\ m <= cmax (weight root y) m /\
    (cmax (weight root y) m = m \/ cmax (weight root y) m = weight root y)).
  { unfold cmax. destruct (Qlt_bool (weight root y) m) eqn:E.
    - apply Qlt_bool_iff in E. repeat split; try lra. now left.
    - apply Qlt_bool_false in E. repeat split; try lra. now right. }
  destruct Y as (Y1 & Y2 & Y3). split; [lra|]. split.
  - intros x [<-|I]; [lra|now apply B].
  - destruct C as [C|(x & I & C)]; [|right; exists x; split; [now right|exact C]].
    rewrite C. destruct Y3 as [->| ->]; [now left|right; exists y; split; [now left|reflexivity]].
Qed.

(** line k weighs at least the fraction [thr] of every other line but the first *)
Definition heavy (thr : Q) (h : harmonics) (k : nat) : Prop :=
  exists a f, (1 <= k)%nat /\ line h k a f /\ 0 <= a * root f /\
    forall j a' f', (1 <= j)%nat -> line h j a' f' -> thr * (a' * root f') <= a * root f.
(** some line but the first weighs anything *)
Definition has_ac (h : harmonics) : Prop :=
  exists j a f, (1 <= j)%nat /\ line h j a f /\ 0 < a * root f.

Lemma tl_nth : forall A (l : list A) k, nth_error (tl l) k = nth_error l (S k).
Proof. intros A [|x l] k; [now destruct k|reflexivity]. Qed.

Lemma heaviest_facts : forall h l, lines h = Ok l ->
  0 <= heaviest root l /\
  (forall j a f, (1 <= j)%nat -> line h j a f -> a * root f <= heaviest root l) /\
  (heaviest root l = 0 \/ exists j a f, (1 <= j)%nat /\ line h j a f /\ heaviest root l = a * root f).
Proof.
  intros h l H. destruct (lines_ok h l H) as (_ & _ & L).
  destruct (heaviest_fold (tl l) 0) as (A & B & C). fold (heaviest root l) in A, B, C.
  split; [exact A|]. split.
  - intros [|j] a f J Hl; [lia|]. apply (L (S j) (a, f)) in Hl. rewrite <- tl_nth in Hl.
    exact (B _ (nth_error_In _ _ Hl)).
  - destruct C as [C|(x & I & C)]; [now left|]. right. apply In_nth_error in I as (j & Hj).
    rewrite tl_nth in Hj. apply L in Hj. exists (S j), (fst x), (snd x). split; [lia|]. auto.
Qed.
Lemma heaviest_ac : forall h l, lines h = Ok l -> (has_ac h <-> ~ heaviest root l == 0).
Proof.
  intros h l H. destruct (heaviest_facts h l H) as (A & B & C). split.
  - intros (j & a & f & J & Hl & P) Z0. specialize (B j a f J Hl). lra.
  - intros N. destruct C as [C|(j & a & f & J & Hl & C)]; [rewrite C in N; exfalso; apply N; reflexivity|].
    exists j, a, f. repeat split; auto; try apply Hl. rewrite <- C. lra.
Qed.

Lemma kept_in : forall limit l i k, In k (kept root limit l i) <->
  exists x, (i <= k)%nat /\ nth_error l (k - i) = Some x /\ limit <= weight root x.
Proof.
  induction l as [|x l IH]; intros i k; cbn [kept].
  { split; [intros []|intros (x & _ & E & _); now destruct (k - i)%nat]. }
  assert (R : (exists y, (S i <= k)%nat /\ nth_error l (k - S i) = Some y /\ limit <= weight root y) <->
    exists y, (i <= k)%nat /\ nth_error (x :: l) (k - i) = Some y /\ limit <= weight root y /\ k <> i).
  { split; intros (y & A & B & C).
    - exists y. split; [lia|]. replace (k - i)%nat with (S (k - S i)) by lia. cbn. repeat split; auto; lia.
    - exists y. split; [lia|]. replace (k - i)%nat with (S (k - S i)) in B by lia. cbn in B. tauto. }
  destruct (Qlt_bool (weight root x) limit) eqn:E.
  - apply Qlt_bool_iff in E. rewrite IH, R. split; intros (y & A & B & C).
    + exists y. tauto.
    + exists y. destruct (Nat.eq_dec k i) as [->|N]; [|tauto].
      rewrite Nat.sub_diag in B. injection B as <-. lra.
  - apply Qlt_bool_false in E. cbn [In]. rewrite IH, R. split.
    + intros [->|(y & A & B & C)]; [|exists y; tauto]. exists x. rewrite Nat.sub_diag. auto.
    + intros (y & A & B & C). destruct (Nat.eq_dec i k) as [->|N]; [now left|]. right. exists y. intuition.
Qed.
Lemma kept_sorted : forall limit l i, StronglySorted lt (kept root limit l i) /\
  Forall (fun k => (i <= k)%nat) (kept root limit l i).
Proof.
  induction l as [|x l IH]; intros i; cbn [kept]; [split; constructor|].
  destruct (IH (S i)) as [A B]. destruct (Qlt_bool _ _).
  - split; [exact A|]. eapply Forall_impl; [|exact B]. cbn. lia.
  - split; constructor; auto; eapply Forall_impl; try exact B; cbn; lia.
Qed.

Lemma limit_heavy : forall thr h l k, 0 <= thr -> lines h = Ok l ->
  (In k (kept root (heaviest root l * thr) (tl l) 1) <-> heavy thr h k).
Proof.
  intros thr h l k T H. destruct (lines_ok h l H) as (_ & _ & L).
  destruct (heaviest_facts h l H) as (A & B & C). rewrite kept_in. split.
  - intros (x & K & E & W). replace (k - 1)%nat with (Nat.pred k) in E by lia. rewrite tl_nth in E.
    replace (S (Nat.pred k)) with k in E by lia. apply L in E.
    exists (fst x), (snd x). split; [exact K|]. split; [exact E|]. unfold weight in W.
    assert (0 <= heaviest root l * thr) by now apply Qmult_le_0_compat. split; [lra|].
    intros j a' f' J Hl. specialize (B j a' f' J Hl).
    assert (a' * root f' * thr <= heaviest root l * thr) by now apply Qmult_le_compat_r. lra.
  - intros (a & f & K & Hl & P & Q'). exists (a, f). split; [exact K|].
    replace (k - 1)%nat with (Nat.pred k) by lia. rewrite tl_nth.
    replace (S (Nat.pred k)) with k by lia. split; [now apply L|]. unfold weight. cbn [fst snd].
    destruct C as [C|(j & a' & f' & J & Hl' & C)]; rewrite C; [lra|].
    specialize (Q' j a' f' J Hl'). lra.
Qed.

Lemma main_indexes_ok : forall thr h ks, 0 <= thr -> main_indexes root thr None h = Ok ks ->
  (exists l, lines h = Ok l) /\ StronglySorted lt ks /\ (forall k, In k ks <-> heavy thr h k).
Proof.
  intros thr h ks T H. unfold main_indexes, reference_weight in H. step H. cbn [bind] in H. injection H as <-.
  split; [eauto|]. split; [apply kept_sorted|]. intros k. now apply limit_heavy.
Qed.

Lemma lines_at_ok : forall l ks r, lines_at l ks = Ok r -> Forall2 (fun k x => nth_error l k = Some x) ks r.
Proof.
  induction ks as [|k ks IH]; intros r H; cbn in H; [injection H as <-; constructor|].
  step H. step H. injection H as <-. constructor; [|auto].
  unfold line_at in E. destruct (nth_error l k); [congruence|discriminate].
Qed.
Lemma lines_at_intro : forall l ks, (forall k, In k ks -> (k < List.length l)%nat) ->
  exists r, lines_at l ks = Ok r.
Proof.
  induction ks as [|k ks IH]; intros H; [cbn; eauto|].
  destruct IH as (r & E); [intros j I; apply H; now right|].
  destruct (nth_error l k) as [x|] eqn:N; [|apply nth_error_None in N; specialize (H k (or_introl eq_refl)); lia].
  exists (x :: r). cbn. unfold line_at. rewrite N. cbn. now rewrite E.
Qed.

Lemma heavy_length : forall thr h k, heavy thr h k -> (k < List.length (amplitudes h))%nat.
Proof. intros thr h k (a & f & _ & [L _] & _). apply nth_error_Some. congruence. Qed.

Lemma forall2_nth : forall A B (R : A -> B -> Prop) l r k b, Forall2 R l r -> nth_error r k = Some b ->
  exists a, nth_error l k = Some a /\ R a b.
Proof.
  intros A B R l r k b F. revert k. induction F; intros [|k] E; try discriminate; cbn in *.
  - injection E as <-. eauto.
  - now apply IHF.
Qed.
Lemma forall2_nth_l : forall A B (R : A -> B -> Prop) l r k a, Forall2 R l r -> nth_error l k = Some a ->
  exists b, nth_error r k = Some b /\ R a b.
Proof.
  intros A B R l r k b F. revert k. induction F; intros [|k] E; try discriminate; cbn in *.
  - injection E as <-. eauto.
  - now apply IHF.
Qed.

(** lists in strict order with the same elements are the same *)
Lemma sorted_unique : forall l r, StronglySorted lt l -> StronglySorted lt r ->
  (forall k, In k l <-> In k r) -> l = r.
Proof.
  induction l as [|a l IH]; intros [|b r] L R E.
  - reflexivity.
  - exfalso. apply (E b). now left.
  - exfalso. apply (E a). now left.
  - inversion L as [|? ? La Fa]; subst. inversion R as [|? ? Rb Fb]; subst.
    rewrite Forall_forall in Fa, Fb.
    assert (a = b).
    { destruct (proj1 (E a) (or_introl eq_refl)) as [->|Ia]; [reflexivity|].
      destruct (proj2 (E b) (or_introl eq_refl)) as [->|Ib]; [reflexivity|].
      specialize (Fa b Ib). specialize (Fb a Ia). lia. }
    subst b. f_equal. apply IH; auto. intros k. split; intros I.
    + destruct (proj1 (E k) (or_intror I)) as [<-|]; [|assumption]. specialize (Fa a I). lia.
    + destruct (proj2 (E k) (or_intror I)) as [<-|]; [|assumption]. specialize (Fb a I). lia.
Qed.

End Root.

(** ** The union over the windings *)
Lemma NoDup_snoc : forall A (l : list A) a, NoDup l -> ~ In a l -> NoDup (l ++ [a]).
Proof.
  intros A l a N I. induction l as [|x l IH]; cbn; [constructor; [auto|constructor]|].
  inversion N as [|? ? Nx Nl]; subst. constructor.
  - rewrite in_app_iff. cbn. intros [C|[->|[]]]; [contradiction|]. apply I. now left.
  - apply IH; auto. intros C. apply I. now right.
Qed.
Lemma add_kept_ok : forall l ks acc acc', add_kept l ks acc = Ok acc' ->
  NoDup (map fst acc) ->
  NoDup (map fst acc') /\
  (forall k, In k (map fst acc') <-> In k (map fst acc) \/ In k ks) /\
  (forall k f, In (k, f) acc' -> In (k, f) acc \/ exists a, nth_error l k = Some (a, f)).
Proof.
  induction ks as [|k ks IH]; intros acc acc' H N; cbn [add_kept] in H.
  { injection H as <-. split; [exact N|]. split; [cbn; tauto|auto]. }
  destruct (existsb _ acc) eqn:X.
  - destruct (IH _ _ H N) as (A & B & C). split; [exact A|]. split; [|exact C].
    intros j. rewrite B. cbn [In]. apply existsb_exists in X as (p & Ip & Ep). apply Nat.eqb_eq in Ep.
    split; [tauto|]. intros [I|[<-|I]]; auto. left. rewrite <- Ep. now apply in_map.
  - step H. destruct x as [a f]. unfold line_at in E. destruct (nth_error l k) as [y|] eqn:NE; [|discriminate].
    injection E as ->.
    assert (NK : ~ In k (map fst acc)).
    { intros I. apply in_map_iff in I as (p & Ep & Ip).
      assert (existsb (fun p => Nat.eqb (fst p) k) acc = true); [|congruence].
      apply existsb_exists. exists p. split; [exact Ip|]. now apply Nat.eqb_eq. }
    destruct (IH _ _ H) as (A & B & C).
    { rewrite map_app. cbn. now apply NoDup_snoc. }
    split; [exact A|]. split.
    + intros j. rewrite B, map_app, in_app_iff. cbn. tauto.
    + intros j g I. destruct (C j g I) as [I'|I']; [|auto]. apply in_app_iff in I' as [I'|[[= <- <-]|[]]]; eauto.
Qed.
Lemma add_kept_intro : forall l ks acc, (forall k, In k ks -> (k < List.length l)%nat) ->
  exists acc', add_kept l ks acc = Ok acc'.
Proof.
  induction ks as [|k ks IH]; intros acc H; [cbn; eauto|]. cbn [add_kept].
  destruct (existsb _ acc); [apply IH; intros; apply H; now right|].
  destruct (nth_error l k) as [x|] eqn:N; [|apply nth_error_None in N; specialize (H k (or_introl eq_refl)); lia].
  unfold line_at. rewrite N. cbn [bind]. apply IH. intros; apply H; now right.
Qed.

Lemma collect_ok : forall root thr hs acc acc', 0 <= thr -> collect root thr None hs acc = Ok acc' ->
  NoDup (map fst acc) ->
  NoDup (map fst acc') /\
  (forall k, In k (map fst acc') <-> In k (map fst acc) \/ exists h, In h hs /\ heavy root thr h k) /\
  (forall k f, In (k, f) acc' -> In (k, f) acc \/ exists h a, In h hs /\ line h k a f).
Proof.
  intros root thr hs. induction hs as [|h hs IH]; intros acc acc' T H N; cbn [collect] in H.
  { injection H as <-. split; [exact N|]. split; [|auto]. intros k. split; [auto|]. intros [I|(h & [] & _)]. exact I. }
  step H. step H. step H. destruct (main_indexes_ok root thr h x T E) as (_ & _ & M).
  destruct (lines_ok h x0 E0) as (_ & _ & L).
  destruct (add_kept_ok _ _ _ _ E1 N) as (A1 & B1 & C1). destruct (IH _ _ T H A1) as (A & B & C).
  split; [exact A|]. split.
  - intros k. rewrite B, B1, M. split.
    + intros [[I|I]|(h' & I & Hh)]; [now left|right; exists h; split; [now left|exact I]|].
      right. exists h'. split; [now right|exact Hh].
    + intros [I|(h' & [<-|I] & Hh)]; auto. right. eauto.
  - intros k f I. destruct (C k f I) as [I'|(h' & a & I' & Hl)].
    + destruct (C1 k f I') as [|(a & Hn)]; [now left|]. right. exists h, a. split; [now left|].
      exact (proj1 (L k (a, f)) Hn).
    + right. exists h', a. split; [now right|exact Hl].
Qed.
Lemma collect_intro : forall root thr hs acc, 0 <= thr -> (forall h, In h hs -> exists l, lines h = Ok l) ->
  exists acc', collect root thr None hs acc = Ok acc'.
Proof.
  intros root thr hs. induction hs as [|h hs IH]; intros acc T H; [cbn; eauto|]. cbn [collect].
  destruct (H h (or_introl eq_refl)) as (l & E). unfold main_indexes, reference_weight. rewrite E. cbn [bind].
  destruct (add_kept_intro l (kept root (heaviest root l * thr) (tl l) 1) acc) as (a & Ea).
  { intros k I. apply (limit_heavy root thr h l k T E) in I. apply heavy_length in I.
    destruct (lines_ok h l E) as (_ & Le & _). lia. }
  rewrite Ea. cbn [bind]. apply IH; auto. intros h' I. apply H. now right.
Qed.

Lemma insert_in : forall x l y, In y (insert x l) <-> y = x \/ In y l.
Proof.
  induction l as [|z l IH]; intros y; cbn [insert In]; [intuition|].
  destruct (fst x <? fst z)%nat; cbn [In]; [intuition|]. rewrite IH. intuition.
Qed.
Lemma sorted_in : forall l y, In y (sorted_pairs l) <-> In y l.
Proof. induction l as [|x l IH]; intros y; cbn; [tauto|]. rewrite insert_in, IH. intuition. Qed.
Lemma insert_sorted : forall x l, StronglySorted lt (map fst l) -> ~ In (fst x) (map fst l) ->
  StronglySorted lt (map fst (insert x l)).
Proof.
  induction l as [|z l IH]; intros S N; cbn [insert].
  - constructor; constructor.
  - cbn in S. inversion S as [|? ? Sl Fz]; subst. destruct (Nat.ltb_spec (fst x) (fst z)) as [L|L]; cbn.
    + constructor; [exact S|]. constructor; [exact L|]. eapply Forall_impl; [|exact Fz]. cbn. lia.
    + constructor.
      * apply IH; [exact Sl|]. intros I. apply N. now right.
      * apply Forall_forall. intros k I. apply in_map_iff in I as (y & <- & Iy). apply insert_in in Iy as [->|Iy].
        -- cbn in N. lia.
        -- rewrite Forall_forall in Fz. apply Fz. now apply in_map.
Qed.
Lemma sorted_sorted : forall l, NoDup (map fst l) -> StronglySorted lt (map fst (sorted_pairs l)).
Proof.
  induction l as [|x l IH]; intros N; cbn; [constructor|]. cbn in N. inversion N as [|? ? Nx Nl]; subst.
  apply insert_sorted; [now apply IH|]. intros I. apply Nx. apply in_map_iff in I as (y & Ey & Iy).
  apply in_map_iff. exists y. split; [exact Ey|]. now apply sorted_in.
Qed.

(** ** Signals of an operating point *)
Lemma all_harmonics_ok : forall ss hs, all_harmonics ss = Some hs ->
  Forall2 (fun s h => exists x, s = Some x /\ s_harmonics x = Some h) ss hs.
Proof.
  induction ss as [|[s|] ss IH]; intros hs H; cbn in H; try discriminate; [injection H as <-; constructor|].
  destruct (s_harmonics s) eqn:E; [|discriminate]. destruct (all_harmonics ss) eqn:E'; [|discriminate].
  injection H as <-. constructor; eauto.
Qed.
Lemma all_harmonics_none : forall ss, all_harmonics ss = None <->
  exists s, In s ss /\ forall x, s = Some x -> s_harmonics x = None.
Proof.
  induction ss as [|s ss IH]; cbn.
  - split; [discriminate|intros (s & [] & _)].
  - destruct s as [x|].
    + destruct (s_harmonics x) as [h|] eqn:E.
      * destruct (all_harmonics ss) as [r|].
        -- split; [discriminate|]. intros (s & [<-|I] & F).
           ++ rewrite (F x eq_refl) in E. discriminate.
           ++ assert (None = @None (list harmonics)) by reflexivity. exfalso.
              destruct IH as [_ IH]. discriminate IH. eauto.
        -- split; [|reflexivity]. intros _. destruct IH as [IH _]. destruct (IH eq_refl) as (s & I & F). exists s. auto.
      * split; [|reflexivity]. intros _. exists (Some x). split; [now left|]. intros y [= <-]. exact E.
    + split; [|reflexivity]. intros _. exists None. split; [now left|discriminate].
Qed.

(** what pruning does to the harmonics of one winding *)
Definition pruned_to (keep : list (nat * Q)) (h h' : harmonics) : Prop :=
  List.length (amplitudes h') = S (List.length keep) /\
  List.length (frequencies h') = S (List.length keep) /\
  (exists a f, line h 0 a f /\ line h' 0 a f) /\
  forall i k f, nth_error keep i = Some (k, f) ->
    (forall a g, line h k a g -> line h' (S i) a g) /\
    ((List.length (amplitudes h) <= k)%nat -> line h' (S i) 0 f).

Lemma pruned_lines_ok : forall keep h l r, lines h = Ok l -> pruned_lines keep l = Ok r ->
  pruned_to keep h (of_lines r).
Proof.
  intros keep h l r H P. destruct (lines_ok h l H) as (_ & Le & L).
  unfold pruned_lines in P. step P. unfold line_at in E. destruct (nth_error l 0) as [y|] eqn:N; [|discriminate].
  injection E as ->. injection P as <-. unfold pruned_to, of_lines. cbn [amplitudes frequencies].
  rewrite !map_length. cbn [List.length]. rewrite map_length. split; [reflexivity|]. split; [reflexivity|]. split.
  - exists (fst x), (snd x). split; [now apply L|]. split; reflexivity.
  - intros i k f Hk. split.
    + intros a g Hl. apply (L k (a, g)) in Hl. unfold line. cbn [amplitudes frequencies]. cbn [map nth_error].
      rewrite !map_map. erewrite !map_nth_error by exact Hk. cbn [fst snd]. rewrite Hl. auto.
    + intros G. assert (nth_error l k = None) as Hn by (apply nth_error_None; lia).
      unfold line. cbn [amplitudes frequencies]. cbn [map nth_error].
      rewrite !map_map. erewrite !map_nth_error by exact Hk. cbn [fst snd]. rewrite Hn. auto.
Qed.

Lemma prune_each_ok : forall keep ss r, prune_each keep ss = Ok r ->
  Forall2 (fun s t => exists x h h', s = Some x /\ s_harmonics x = Some h /\
    t = Some (mkSignal (Some h') (s_derived x) (s_rest x)) /\ pruned_to keep h h' /\
    (exists l, lines h = Ok l) /\ lines h' = Ok (combine (amplitudes h') (frequencies h'))) ss r.
Proof.
  intros keep ss. induction ss as [|[s|] ss IH]; intros r H; cbn in H; try discriminate; [injection H as <-; constructor|].
  destruct (s_harmonics s) as [h|] eqn:Eh; [|discriminate]. step H. step H. step H. injection H as <-.
  constructor; [|auto]. exists s, h, (of_lines x0). do 3 (split; [auto|]). split; [eapply pruned_lines_ok; eauto|].
  split; [eauto|]. rewrite of_lines_ok. f_equal. unfold of_lines. cbn [amplitudes frequencies].
  clear. induction x0 as [|[a f] l IH]; cbn; congruence.
Qed.
Lemma prune_each_intro : forall keep ss, (forall s, In s ss -> exists x h l, s = Some x /\ s_harmonics x = Some h /\
    lines h = Ok l /\ l <> []) -> exists r, prune_each keep ss = Ok r.
Proof.
  intros keep ss. induction ss as [|s ss IH]; intros H; [cbn; eauto|].
  destruct (H s (or_introl eq_refl)) as (x & h & l & -> & Eh & El & Nl).
  destruct IH as (r & Er); [intros s I; apply H; now right|]. cbn [prune_each]. rewrite Eh, El. cbn [bind].
  destruct l as [|y l]; [congruence|]. cbn. rewrite Er. cbn. eauto.
Qed.
