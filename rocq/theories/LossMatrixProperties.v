(** The resistance matrix of the windings (C95). *)
From Coq Require Import ZArith QArith List String Bool Lia Lra Lqa.
From Verif Require Import Base QAux LossModel LossProofs.
Import ListNotations.
Open Scope outcome_scope.
Open Scope string_scope.
Open Scope list_scope.
Open Scope Q_scope.

(** ** Vocabulary *)

(** the losses are those of a linear network: a quadratic form of the currents *)
Definition quadratic (R : nat -> nat -> Q) (losses : list Q -> outcome Q) : Prop :=
  forall is, exists p, losses is = Ok p /\
    p == Qsum (map (fun i => Qsum (map (fun j => R i j * nth i is 0 * nth j is 0)
           (seq 0 (List.length is)))) (seq 0 (List.length is))).
(** the entry reported for two windings *)
Definition entry (m : matrix) (a b : string) (q : Q) : Prop :=
  exists v, at_entry m a b = Some (Some v) /\ v == q.

(** ** Proofs *)
Lemma mask_length : forall n i x, List.length (mask n i x) = n.
Proof. intros. unfold mask. now rewrite map_length, seq_length. Qed.
Lemma mask2_length : forall n i j x y, List.length (mask2 n i j x y) = n.
Proof. intros. unfold mask2. now rewrite map_length, seq_length. Qed.
Lemma nth_map_seq : forall (f : nat -> Q) n k, (k < n)%nat -> nth k (map f (seq 0 n)) 0 = f k.
Proof.
  intros f n k H. rewrite (nth_indep _ 0 (f 0%nat)) by now rewrite map_length, seq_length.
  rewrite map_nth, seq_nth by exact H. reflexivity.
Qed.

Lemma double_sum_one : forall R n i (x : Q), (i < n)%nat ->
  Qsum (map (fun a => Qsum (map (fun b => R a b * nth a (mask n i x) 0 * nth b (mask n i x) 0)
    (seq 0 n))) (seq 0 n)) == R i i * x * x.
Proof.
  intros R n i x Hi. rewrite <- (Qsum_pick (fun _ => R i i * x * x) i n Hi).
  apply Qsum_map_ext. intros a Ia. apply in_seq0 in Ia. unfold mask at 1. rewrite nth_map_seq by exact Ia.
  destruct (Nat.eqb_spec a i) as [->|N].
  - rewrite <- (Qsum_pick (fun _ => R i i * x * x) i n Hi). apply Qsum_map_ext. intros b Ib.
    apply in_seq0 in Ib. unfold mask. rewrite nth_map_seq by exact Ib.
    destruct (Nat.eqb_spec b i) as [->|]; ring.
  - apply Qsum_map_zero. intros b _. ring.
Qed.
Lemma double_sum_two : forall (R : nat -> nat -> Q) n i j (x y : Q), (i < n)%nat -> (j < n)%nat -> i <> j ->
  Qsum (map (fun a => Qsum (map (fun b => R a b * nth a (mask2 n i j x y) 0 * nth b (mask2 n i j x y) 0)
    (seq 0 n))) (seq 0 n)) == R i i * x * x + R j j * y * y + (R i j + R j i) * x * y.
Proof.
  intros R n i j x y Hi Hj N.
  assert (inner : forall c : nat -> Q,
    Qsum (map (fun b => c b * nth b (mask2 n i j x y) 0) (seq 0 n)) == c i * x + c j * y).
  { intros c. rewrite <- (Qsum_pick (fun _ => c i * x) i n Hi), <- (Qsum_pick (fun _ => c j * y) j n Hj).
    rewrite <- Qsum_map_add. apply Qsum_map_ext. intros b Ib. apply in_seq0 in Ib.
    unfold mask2. rewrite nth_map_seq by exact Ib.
    destruct (Nat.eqb_spec b j) as [->|Nj].
    - rewrite (proj2 (Nat.eqb_neq j i)) by congruence. ring.
    - destruct (Nat.eqb_spec b i) as [->|Ni]; ring. }
  rewrite (Qsum_map_ext _ _ (fun a => (R a i * x + R a j * y) * nth a (mask2 n i j x y) 0) (seq 0 n)).
  - rewrite (inner (fun a => R a i * x + R a j * y)). ring.
  - intros a _. rewrite (inner (fun b => R a b * nth a (mask2 n i j x y) 0)). ring.
Qed.

Lemma diagonal_ok : forall R losses n names i m m', quadratic R losses ->
  (i + List.length names <= n)%nat -> NoDup names ->
  diagonal losses n names i m = Ok m' ->
  (forall k a, nth_error names k = Some a -> entry m' a a (R (i + k)%nat (i + k)%nat)) /\
  (forall a b, ~ In a names -> at_entry m' a b = at_entry m a b).
Proof.
  intros R losses n names. induction names as [|a names IH]; intros i m m' Q' L D H; simpl in H.
  { injection H as <-. split; [intros [|]; discriminate|auto]. }
  step H. inversion D as [|? ? Na D']; subst. simpl in L.
  destruct (IH (S i) _ _ Q' ltac:(lia) D' H) as [A B]. split.
  - intros [|k] b Hk; simpl in Hk.
    + injection Hk as <-. rewrite Nat.add_0_r.
      destruct (Q' (mask n i 1)) as (p & Ep & Vp). rewrite E in Ep. injection Ep as <-.
      exists (x / (1 * 1)). split.
      * rewrite B by exact Na. simpl. rewrite String.eqb_refl. reflexivity.
      * rewrite mask_length in Vp. rewrite Vp, double_sum_one by lia. field.
    + rewrite Nat.add_succ_r. exact (A k b Hk).
  - intros b b' Nb. rewrite B by (intros I; apply Nb; now right). simpl.
    destruct (String.eqb_spec a b) as [->|]; [exfalso; apply Nb; now left|reflexivity].
Qed.

(** entries that hold the true value *)
Definition right_entry (R : nat -> nat -> Q) (name : nat -> string) (m : matrix) (i j : nat) : Prop :=
  entry m (name i) (name j) ((R i j + R j i) / 2).

Lemma at_other : forall m a b v x y, (a, b) <> (x, y) -> at_entry ((a, b, v) :: m) x y = at_entry m x y.
Proof.
  intros m a b v x y N. simpl. destruct (String.eqb_spec a x) as [->|]; [|reflexivity].
  destruct (String.eqb_spec b y) as [->|]; [congruence|reflexivity].
Qed.

Lemma off_row_ok : forall R losses ratio n (name : nat -> string) i names j m m',
  quadratic R losses -> (i < j)%nat -> (j + List.length names = n)%nat ->
  (forall a b, (a < n)%nat -> (b < n)%nat -> name a = name b -> a = b) ->
  (forall k a, nth_error names k = Some a -> a = name (j + k)%nat) ->
  (forall k, (k < n)%nat -> right_entry R name m k k) ->
  (forall k, (k < n)%nat -> ~ ratio i k == 0) ->
  off_row losses ratio n (name i) i names j m = Ok m' ->
  (forall a b, (a < n)%nat -> (b < n)%nat -> right_entry R name m a b -> right_entry R name m' a b) /\
  forall k, (j <= k < n)%nat -> right_entry R name m' i k /\ right_entry R name m' k i /\
    at_entry m' (name i) (name k) = at_entry m' (name k) (name i).
Proof.
  intros R losses ratio n name i names. induction names as [|b names IH]; intros j m m' Q' Lij Ln Inj Nm Dg Rt H.
  { simpl in H. injection H as <-. split; [auto|]. intros k Hk. simpl in Ln. lia. }
  simpl in H. step H. step H. step H. rename x into p. rename x0 into rii. rename x1 into rjj.
  pose proof (Nm 0%nat b eq_refl) as Eb. rewrite Nat.add_0_r in Eb. subst b. simpl in Ln.
  destruct (Q' (mask2 n i j 1 (ratio i j))) as (p' & Ep & Vp). rewrite E in Ep. injection Ep as <-.
  rewrite mask2_length, double_sum_two in Vp by lia.
  destruct (Dg i ltac:(lia)) as (vi & Ei & Vi). destruct (Dg j ltac:(lia)) as (vj & Ej & Vj).
  unfold nominal in E0, E1. rewrite Ei in E0. rewrite Ej in E1. injection E0 as <-. injection E1 as <-.
  specialize (Rt j ltac:(lia)) as Rj.
  assert (MV : exists v, mutual p (Some vi) (Some vj) (ratio i j) = Some v /\ v == (R i j + R j i) / 2).
  { unfold mutual. destruct (Qeq_bool (ratio i j) 0) eqn:Z0; [apply Qeq_bool_iff in Z0; contradiction|].
    eexists. split; [reflexivity|]. rewrite Vp, Vi, Vj. field. exact Rj. }
  destruct MV as (v & Ev & Vv). rewrite Ev in H.
  assert (NE : name i <> name j) by (intros C; apply Inj in C; lia).
  set (m1 := (name j, name i, Some v) :: (name i, name j, Some v) :: m) in *.
  assert (K1 : forall a c, (a < n)%nat -> (c < n)%nat -> right_entry R name m a c -> right_entry R name m1 a c).
  { intros a c Ha Hc Re. unfold m1, right_entry, entry.
    destruct (Nat.eq_dec a j) as [->|Na]; [destruct (Nat.eq_dec c i) as [->|Nc]|].
    - exists v. split; [simpl; now rewrite !String.eqb_refl|]. rewrite Vv. field.
    - rewrite !at_other; [exact Re| |]; intros C; pose proof (f_equal fst C) as C1; pose proof (f_equal snd C) as C2; cbn in C1, C2; clear C.
      + apply Inj in C1; lia.
      + apply Inj in C2; lia.
    - destruct (Nat.eq_dec a i) as [->|Ni]; [destruct (Nat.eq_dec c j) as [->|Nc]|].
      + exists v. split; [|exact Vv]. rewrite at_other by (intros C; apply (f_equal fst) in C; cbn in C; congruence).
        simpl. now rewrite !String.eqb_refl.
      + rewrite !at_other; [exact Re| |]; intros C; pose proof (f_equal fst C) as C1; pose proof (f_equal snd C) as C2; cbn in C1, C2; clear C.
        * apply Inj in C2; lia.
        * apply Inj in C1; lia.
      + rewrite !at_other; [exact Re| |]; intros C; pose proof (f_equal fst C) as C1; pose proof (f_equal snd C) as C2; cbn in C1, C2; clear C; apply Inj in C1; lia. }
  assert (Dg1 : forall k, (k < n)%nat -> right_entry R name m1 k k) by (intros k Hk; apply K1; auto).
  assert (IJ : right_entry R name m1 i j /\ right_entry R name m1 j i /\
    at_entry m1 (name i) (name j) = at_entry m1 (name j) (name i)).
  { unfold m1, right_entry, entry.
    assert (A1 : at_entry ((name j, name i, Some v) :: (name i, name j, Some v) :: m) (name i) (name j) = Some (Some v)).
    { rewrite at_other by (intros C; apply (f_equal fst) in C; cbn in C; congruence). simpl. now rewrite !String.eqb_refl. }
    assert (A2 : at_entry ((name j, name i, Some v) :: (name i, name j, Some v) :: m) (name j) (name i) = Some (Some v)).
    { simpl. now rewrite !String.eqb_refl. }
    split; [exists v; auto|]. split; [exists v; split; [exact A2|rewrite Vv; field]|congruence]. }
  assert (Same : forall names' j' m2 m2', off_row losses ratio n (name i) i names' j' m2 = Ok m2' ->
    (forall k a, nth_error names' k = Some a -> a = name (j' + k)%nat) -> (j' + List.length names' = n)%nat ->
    (j < j')%nat ->
    at_entry m2' (name i) (name j) = at_entry m2 (name i) (name j) /\
    at_entry m2' (name j) (name i) = at_entry m2 (name j) (name i)).
  { clear -Inj Lij. induction names' as [|b names' IHn]; intros j' m2 m2' G N' L' J; simpl in G.
    - injection G as <-. auto.
    - step G. step G. step G. pose proof (N' 0%nat b eq_refl) as Eb. rewrite Nat.add_0_r in Eb. subst b. simpl in L'.
      destruct (IHn (S j') _ _ G) as [A B]; [|lia|lia|].
      + intros k a Hk. rewrite Nat.add_succ_comm. exact (N' (S k) a Hk).
      + rewrite A, B. split; rewrite !at_other; auto; intros C; pose proof (f_equal fst C) as C1; pose proof (f_equal snd C) as C2; cbn in C1, C2; clear C;
          try (apply Inj in C1; lia); apply Inj in C2; lia. }
  assert (Nm' : forall k a, nth_error names k = Some a -> a = name (S j + k)%nat).
  { intros k a Hk. rewrite Nat.add_succ_comm. exact (Nm (S k) a Hk). }
  destruct (IH (S j) m1 m' Q' ltac:(lia) ltac:(lia) Inj Nm' Dg1 Rt H) as [P1 P2].
  split.
  - intros a c Ha Hc Re. apply P1; auto.
  - intros k Hk. destruct (Nat.eq_dec k j) as [->|Nk]; [|apply P2; lia].
    destruct IJ as (I1 & I2 & I3). destruct (Same names (S j) m1 m' H Nm' ltac:(lia) ltac:(lia)) as [S1 S2].
    split; [apply P1; auto; lia|]. split; [apply P1; auto; lia|]. congruence.
Qed.

Lemma off_row_keeps : forall losses ratio n (name : nat -> string) i names j m m' a b,
  (forall a b, (a < n)%nat -> (b < n)%nat -> name a = name b -> a = b) ->
  (forall k x, nth_error names k = Some x -> x = name (j + k)%nat) -> (j + List.length names = n)%nat ->
  (i < n)%nat -> (a < n)%nat -> (b < n)%nat ->
  ~ (a = i /\ (j <= b)%nat) -> ~ (b = i /\ (j <= a)%nat) ->
  off_row losses ratio n (name i) i names j m = Ok m' ->
  at_entry m' (name a) (name b) = at_entry m (name a) (name b).
Proof.
  intros losses ratio n name i names.
  induction names as [|x names IH]; intros j m m' a b Inj Nm L Hi Ha Hb Na Nb H; simpl in H.
  { now injection H as <-. }
  step H. step H. step H. pose proof (Nm 0%nat x eq_refl) as Eb. rewrite Nat.add_0_r in Eb. subst x. simpl in L.
  assert (Nm' : forall k y, nth_error names k = Some y -> y = name (S j + k)%nat).
  { intros k y Hk. rewrite Nat.add_succ_comm. exact (Nm (S k) y Hk). }
  rewrite (IH (S j) _ _ a b Inj Nm' ltac:(lia) Hi Ha Hb ltac:(lia) ltac:(lia) H).
  rewrite !at_other; auto; intros C; pose proof (f_equal fst C) as C1; pose proof (f_equal snd C) as C2; cbn in C1, C2; clear C; apply Inj in C1; try lia; apply Inj in C2; try lia.
Qed.

Definition same_both_ways (name : nat -> string) (m : matrix) (a b : nat) : Prop :=
  at_entry m (name a) (name b) = at_entry m (name b) (name a).

Lemma off_rows_ok : forall R losses ratio n (name : nat -> string) names i m m',
  quadratic R losses -> (i + List.length names = n)%nat ->
  (forall a b, (a < n)%nat -> (b < n)%nat -> name a = name b -> a = b) ->
  (forall k a, nth_error names k = Some a -> a = name (i + k)%nat) ->
  (forall k, (k < n)%nat -> right_entry R name m k k) ->
  (forall a b, (a < b < n)%nat -> ~ ratio a b == 0) ->
  (forall a b, (a < b < n)%nat -> (a < i)%nat ->
     right_entry R name m a b /\ right_entry R name m b a /\ same_both_ways name m a b) ->
  off_rows losses ratio n names i m = Ok m' ->
  (forall k, (k < n)%nat -> right_entry R name m' k k) /\
  forall a b, (a < b < n)%nat ->
     right_entry R name m' a b /\ right_entry R name m' b a /\ same_both_ways name m' a b.
Proof.
  intros R losses ratio n name names.
  induction names as [|x names IH]; intros i m m' Q' L Inj Nm Dg Rt Done H; simpl in H.
  { injection H as <-. split; [exact Dg|]. intros a b Hab. apply Done; [exact Hab|]. simpl in L. lia. }
  step H. rename x0 into m1. pose proof (Nm 0%nat x eq_refl) as Eb. rewrite Nat.add_0_r in Eb. subst x. simpl in L.
  assert (Nm' : forall k y, nth_error names k = Some y -> y = name (S i + k)%nat).
  { intros k y Hk. rewrite Nat.add_succ_comm. exact (Nm (S k) y Hk). }
  (* a ratio outside the row is not used *)
  set (ratio' := fun a b => if (a <? b)%nat then ratio a b else 1).
  assert (RE : off_row losses ratio' n (name i) i names (S i) m = Ok m1).
  { assert (G : forall names j m, (i < j)%nat ->
      off_row losses ratio' n (name i) i names j m = off_row losses ratio n (name i) i names j m).
    { clear. induction names as [|b names IHn]; intros j m J; [reflexivity|]. cbn [off_row].
      assert (ratio' i j = ratio i j) as ->.
      { unfold ratio'. now replace (i <? j)%nat with true by (symmetry; apply Nat.ltb_lt; lia). }
      destruct (losses _); cbn [bind]; auto. destruct (nominal m (name i) (name i)); cbn [bind]; auto.
      destruct (nominal m b b); cbn [bind]; auto. }
    rewrite G by lia. exact E. }
  destruct (off_row_ok R losses ratio' n name i names (S i) m m1 Q' ltac:(lia) ltac:(lia) Inj Nm' Dg) as [P1 P2].
  { intros k Hk. unfold ratio'. destruct (i <? k)%nat eqn:Ek; [|intros Z0; discriminate Z0].
    apply Nat.ltb_lt in Ek. apply Rt. lia. }
  { exact RE. }
  apply (IH (S i) m1 m' Q' ltac:(lia) Inj Nm'); auto.
  intros a b Hab Ha. destruct (Nat.eq_dec a i) as [->|Na].
  - apply P2. lia.
  - destruct (Done a b Hab ltac:(lia)) as (D1 & D2 & D3).
    split; [apply P1; auto; lia|]. split; [apply P1; auto; lia|].
    unfold same_both_ways in *.
    rewrite (off_row_keeps losses ratio n name i names (S i) m m1 a b Inj Nm') by (auto; lia).
    rewrite (off_row_keeps losses ratio n name i names (S i) m m1 b a Inj Nm') by (auto; lia).
    exact D3.
Qed.

Lemma resistance_matrix_ok : forall R losses ratio names m,
  quadratic R losses -> NoDup names ->
  (forall a b, (a < b < List.length names)%nat -> ~ ratio a b == 0) ->
  resistance_matrix losses ratio names = Ok m ->
  let name k := nth k names "" in
  (forall k, (k < List.length names)%nat -> right_entry R name m k k) /\
  forall a b, (a < b < List.length names)%nat ->
     right_entry R name m a b /\ right_entry R name m b a /\ same_both_ways name m a b.
Proof.
  intros R losses ratio names m Q' D Rt H name. unfold resistance_matrix in H. step H.
  destruct (diagonal_ok R losses (List.length names) names 0 [] x Q' (Nat.le_refl _) D E) as [Dg _].
  assert (NE : forall k a, nth_error names k = Some a -> a = name k).
  { intros k a Hk. unfold name. symmetry. now apply nth_error_nth. }
  apply (off_rows_ok R losses ratio (List.length names) name names 0 x m Q'); auto; try lia.
  - intros a b Ha Hb Eab. unfold name in Eab. apply (NoDup_nth names ""); auto.
  - intros k Hk. unfold right_entry. destruct (nth_error names k) as [a|] eqn:Ek; [|apply nth_error_None in Ek; lia].
    destruct (Dg k a Ek) as (v & Ev & Vv). rewrite (NE k a Ek) in Ev. exists v. split; [exact Ev|]. rewrite Vv. cbn [Nat.add]. field.
Qed.

(** ** C95 *)

(** the matrix reads the same both ways *)
Theorem C95_symmetric : forall R losses ratio names m a b,
  quadratic R losses -> NoDup names ->
  (forall a b, (a < b < List.length names)%nat -> ~ ratio a b == 0) ->
  resistance_matrix losses ratio names = Ok m -> In a names -> In b names ->
  exists v, at_entry m a b = Some (Some v) /\ at_entry m b a = Some (Some v).
Proof.
  intros R losses ratio names m a b Q' D Rt H Ia Ib.
  destruct (resistance_matrix_ok R losses ratio names m Q' D Rt H) as [Dg Off].
  apply (In_nth _ _ "") in Ia as (i & Hi & <-). apply (In_nth _ _ "") in Ib as (j & Hj & <-).
  destruct (Nat.lt_trichotomy i j) as [L|[->|L]].
  - destruct (Off i j ltac:(lia)) as ((v & Ev & _) & _ & S'). exists v. unfold same_both_ways in S'. split; congruence.
  - destruct (Dg j Hj) as (v & Ev & _). eauto.
  - destruct (Off j i ltac:(lia)) as ((v & Ev & _) & _ & S'). exists v. unfold same_both_ways in S'. split; congruence.
Qed.

(** the matrix is that of the network, whatever the ratio of currents used to
    find it *)
Theorem C95_recovers : forall R losses ratio names m i j,
  quadratic R losses -> (forall a b, R a b == R b a) -> NoDup names ->
  (forall a b, (a < b < List.length names)%nat -> ~ ratio a b == 0) ->
  resistance_matrix losses ratio names = Ok m ->
  (i < List.length names)%nat -> (j < List.length names)%nat ->
  entry m (nth i names "") (nth j names "") (R i j).
Proof.
  intros R losses ratio names m i j Q' S' D Rt H Hi Hj.
  destruct (resistance_matrix_ok R losses ratio names m Q' D Rt H) as [Dg Off].
  assert (G : right_entry R (fun k => nth k names "") m i j).
  { destruct (Nat.lt_trichotomy i j) as [L|[->|L]].
    - now apply (Off i j).
    - now apply Dg.
    - now apply (Off j i). }
  destruct G as (v & Ev & Vv). exists v. split; [exact Ev|]. rewrite Vv, (S' j i). field.
Qed.

(** so that it gives back the losses of any currents *)
Theorem C95_predicts : forall R losses ratio names m is p,
  quadratic R losses -> NoDup names ->
  (forall a b, (a < b < List.length names)%nat -> ~ ratio a b == 0) ->
  resistance_matrix losses ratio names = Ok m -> List.length is = List.length names ->
  losses is = Ok p ->
  exists v : nat -> nat -> Q,
    (forall i j, (i < List.length names)%nat -> (j < List.length names)%nat ->
       at_entry m (nth i names "") (nth j names "") = Some (Some (v i j))) /\
    p == Qsum (map (fun i => Qsum (map (fun j => v i j * nth i is 0 * nth j is 0)
           (seq 0 (List.length names)))) (seq 0 (List.length names))).
Proof.
  intros R losses ratio names m is p Q' D Rt H L Hp.
  destruct (resistance_matrix_ok R losses ratio names m Q' D Rt H) as [Dg Off].
  exists (fun i j => match at_entry m (nth i names "") (nth j names "") with Some (Some v) => v | _ => 0 end).
  assert (G : forall i j, (i < List.length names)%nat -> (j < List.length names)%nat ->
    right_entry R (fun k => nth k names "") m i j).
  { intros i j Hi Hj. destruct (Nat.lt_trichotomy i j) as [Lt|[->|Lt]].
    - now apply (Off i j).
    - now apply Dg.
    - now apply (Off j i). }
  split.
  - intros i j Hi Hj. destruct (G i j Hi Hj) as (v & Ev & _). now rewrite Ev.
  - destruct (Q' is) as (p' & Ep & Vp). rewrite Hp in Ep. injection Ep as <-. rewrite Vp, L.
    set (n := List.length names) in *.
    set (S' := Qsum (map (fun i => Qsum (map (fun j => R i j * nth i is 0 * nth j is 0) (seq 0 n))) (seq 0 n))).
    assert (T : S' == Qsum (map (fun i => Qsum (map (fun j => R j i * nth i is 0 * nth j is 0) (seq 0 n))) (seq 0 n))).
    { unfold S'. assert (SW : forall (f : nat -> nat -> Q) la lb,
        Qsum (map (fun a => Qsum (map (f a) lb)) la) == Qsum (map (fun b => Qsum (map (fun a => f a b) la)) lb)).
      { intros f la. induction la as [|a la IH]; intros lb; cbn [map Qsum].
        - symmetry. apply Qsum_map_zero. reflexivity.
        - rewrite IH, <- Qsum_map_add. reflexivity. }
      rewrite SW. apply Qsum_map_ext. intros b _. apply Qsum_map_ext. intros a _. ring. }
    assert (HS : S' == (1 # 2) * S' + (1 # 2) * S') by ring.
    rewrite HS. rewrite T at 2. unfold S'. rewrite <- !Qsum_map_mul, <- Qsum_map_add.
    apply Qsum_map_ext. intros i Ii. apply in_seq0 in Ii.
    rewrite <- !Qsum_map_mul, <- Qsum_map_add. apply Qsum_map_ext. intros j Ij. apply in_seq0 in Ij.
    destruct (G i j Ii Ij) as (v & Ev & Vv). rewrite Ev, Vv. field.
Qed.

(** ** Witness and limits *)
Definition form (R : nat -> nat -> Q) (is : list Q) : outcome Q :=
  Ok (Qsum (map (fun i => Qsum (map (fun j => R i j * nth i is 0 * nth j is 0)
        (seq 0 (List.length is)))) (seq 0 (List.length is)))).
Definition R0 (i j : nat) : Q :=
  match i, j with
  | O, O => 5 # 10 | 1%nat, 1%nat => 3 # 10 | 2%nat, 2%nat => 1
  | O, 1%nat | 1%nat, O => 1 # 10 | 1%nat, 2%nat | 2%nat, 1%nat => 2 # 10 | _, _ => 0
  end.
Example C95_witness : quadratic R0 (form R0) /\ NoDup ["a"; "b"; "c"] /\
  exists m, resistance_matrix (form R0) (fun i j => 3 # 2) ["a"; "b"; "c"] = Ok m /\
    option_map (option_map Qred) (at_entry m "b" "a") = Some (Some (1 # 10)) /\
    option_map (option_map Qred) (at_entry m "b" "c") = Some (Some (1 # 5)) /\
    option_map (option_map Qred) (at_entry m "c" "c") = Some (Some 1).
Proof.
  split; [|split].
  - intros is. eexists. split; [reflexivity|]. reflexivity.
  - repeat constructor; cbn; intuition discriminate.
  - eexists. split; [vm_compute; reflexivity|]. repeat split; vm_compute; reflexivity.
Qed.

(** windings that share a name share their entries: the matrix of two windings
    has one number in it, and not the resistance of the first *)
Theorem C95_shared_name_refuted : exists R losses ratio names m,
  quadratic R losses /\ (forall a b, R a b == R b a) /\
  (forall a b, ~ ratio a b == 0) /\
  resistance_matrix losses ratio names = Ok m /\
  ~ entry m (nth 0 names "") (nth 0 names "") (R 0%nat 0%nat).
Proof.
  exists R0, (form R0), (fun _ _ => 1), ["w"; "w"]. eexists.
  split; [intros is; eexists; split; reflexivity|]. split.
  { intros [|[|[|a]]] [|[|[|b]]]; reflexivity. }
  split; [intros a b Z0; discriminate Z0|]. split; [vm_compute; reflexivity|].
  intros (v & Ev & Vv). vm_compute in Ev. injection Ev as <-. discriminate Vv.
Qed.

Print Assumptions C95_symmetric.
Print Assumptions C95_recovers.
Print Assumptions C95_predicts.
