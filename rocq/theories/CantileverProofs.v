(** Lemmas on the Gauss-Jordan inversion of CantileverModel.v. *)
From Coq Require Import ZArith QArith Qabs List String Bool Lia Lra Lqa.
From Verif Require Import Base QAux NetworkModel NetworkProofs CantileverModel.
Import ListNotations.
Open Scope Q_scope.

(** ** Sums *)

Lemma sum_comm : forall n m f, sum n (fun i => sum m (f i)) == sum m (fun j => sum n (fun i => f i j)).
Proof.
  induction n as [|n IH]; intros m f.
  - cbn [sum]. symmetry. apply sum_zero. intros. reflexivity.
  - cbn [sum]. rewrite IH. rewrite <- (sum_plus m (fun j => sum n (fun i => f i j)) (f n)).
    apply sum_ext. intros. reflexivity.
Qed.

Lemma sum_scale_r : forall n a f, sum n (fun k => f k * a) == sum n f * a.
Proof.
  intros. rewrite (sum_ext n (fun k => f k * a) (fun k => a * f k)) by (intros; ring).
  rewrite sum_scale. ring.
Qed.

Lemma sum_minus : forall n f g, sum n (fun k => f k - g k) == sum n f - sum n g.
Proof.
  intros. rewrite (sum_ext n (fun k => f k - g k) (fun k => f k + -(1) * g k)) by (intros; ring).
  rewrite (sum_plus n f (fun k => -(1) * g k)), sum_scale. ring.
Qed.

Lemma sum_identity_l : forall n i f, (i < n)%nat -> sum n (fun j => identity i j * f j) == f i.
Proof.
  intros n i f I.
  rewrite (sum_ext n (fun j => identity i j * f j) (fun j => if Nat.eqb j i then f j else 0)).
  - rewrite sum_single. replace (Nat.ltb i n) with true by (symmetry; apply Nat.ltb_lt; exact I). reflexivity.
  - intros k K. unfold identity. rewrite (Nat.eqb_sym i k). destruct (Nat.eqb k i); ring.
Qed.

Lemma sum_identity_r : forall n i f, (i < n)%nat -> sum n (fun j => f j * identity j i) == f i.
Proof.
  intros n i f I.
  rewrite (sum_ext n (fun j => f j * identity j i) (fun j => if Nat.eqb j i then f j else 0)).
  - rewrite sum_single. replace (Nat.ltb i n) with true by (symmetry; apply Nat.ltb_lt; exact I). reflexivity.
  - intros k K. unfold identity. destruct (Nat.eqb k i); ring.
Qed.

Definition prod (n : nat) (A B : matrix) : matrix := fun i k => sum n (fun j => A i j * B j k).

Lemma prod_assoc : forall n A B C i k, prod n (prod n A B) C i k == prod n A (prod n B C) i k.
Proof.
  intros. unfold prod.
  rewrite (sum_ext n _ (fun j => sum n (fun l => A i l * B l j * C j k))).
  2:{ intros j J. rewrite <- sum_scale_r. reflexivity. }
  rewrite sum_comm. apply sum_ext. intros l L. rewrite <- sum_scale. apply sum_ext. intros. ring.
Qed.

Lemma prod_ext : forall n A A' B B' i k,
  (forall j, (j < n)%nat -> A i j == A' i j) -> (forall j, (j < n)%nat -> B j k == B' j k) ->
  prod n A B i k == prod n A' B' i k.
Proof. intros. unfold prod. apply sum_ext. intros j J. rewrite H, H0 by exact J. reflexivity. Qed.

Lemma sum_transposition : forall n p r f, (p < n)%nat -> (r < n)%nat ->
  sum n (swap p r f) == sum n f.
Proof.
  intros n p r f P R. destruct (Nat.eq_dec p r) as [->|NE].
  - apply sum_ext. intros k K. unfold swap. destruct (Nat.eqb_spec k r) as [->|]; reflexivity.
  - rewrite (sum_ext n (swap p r f)
      (fun k => (f k + (if Nat.eqb k p then f r - f p else 0)) + (if Nat.eqb k r then f p - f r else 0))).
    + rewrite (sum_update n (fun k => f k + (if Nat.eqb k p then f r - f p else 0)) r (f p - f r) R).
      rewrite (sum_update n f p (f r - f p) P). ring.
    + intros k K. unfold swap. destruct (Nat.eqb_spec k p) as [->|].
      * replace (Nat.eqb p r) with false by (symmetry; apply Nat.eqb_neq; exact NE). ring.
      * destruct (Nat.eqb_spec k r) as [->|]; ring.
Qed.

(** ** The row operations *)

(** What each of the three operations on the rows does to a product from the
    right and how it is undone from the left. *)
Definition row_operation (n : nat) (op : matrix -> matrix) : Prop :=
  (forall A B i k, (forall i' , (i' < n)%nat -> A i' k == B i' k) -> (i < n)%nat -> op A i k == op B i k) /\
  (forall X M i k, (i < n)%nat -> op (prod n X M) i k == prod n (op X) M i k) /\
  (forall Y, exists Y', forall m i k, (i < n)%nat -> prod n Y m i k == prod n Y' (op m) i k).

Lemma swap_operation : forall n p r, (p < n)%nat -> (r < n)%nat -> row_operation n (swap p r).
Proof.
  intros n p r P R. split; [|split].
  - intros A B i k E I. unfold swap. destruct (Nat.eqb i p); [apply E; exact R|].
    destruct (Nat.eqb i r); apply E; assumption.
  - intros X M i k I. unfold prod, swap. destruct (Nat.eqb i p); [reflexivity|].
    destruct (Nat.eqb i r); reflexivity.
  - intro Y. exists (fun i j => swap p r (Y i) j). intros m i k I. unfold prod.
    rewrite <- (sum_transposition n p r (fun j => Y i j * m j k) P R). apply sum_ext. intros j J. unfold swap.
    destruct (Nat.eqb j p); [reflexivity|]. destruct (Nat.eqb j r); reflexivity.
Qed.

Lemma scale_operation : forall n c v, ~ v == 0 -> row_operation n (scale_row c v).
Proof.
  intros n c v V. split; [|split].
  - intros A B i k E I. unfold scale_row. destruct (Nat.eqb i c); [rewrite (E i I); reflexivity | apply E; exact I].
  - intros X M i k I. unfold prod, scale_row. destruct (Nat.eqb i c); [|reflexivity].
    unfold Qdiv. rewrite <- sum_scale_r. apply sum_ext. intros. ring.
  - intro Y. exists (fun i j => if Nat.eqb j c then Y i j * v else Y i j). intros m i k I. unfold prod.
    apply sum_ext. intros j J. unfold scale_row. destruct (Nat.eqb j c); [field; exact V | reflexivity].
Qed.

Lemma clear_operation : forall n c f, (c < n)%nat -> row_operation n (clear_column c f).
Proof.
  intros n c f C. split; [|split].
  - intros A B i k E I. unfold clear_column. destruct (Nat.eqb i c); [apply E; exact I|].
    rewrite (E i I), (E c C). reflexivity.
  - intros X M i k I. unfold prod, clear_column. destruct (Nat.eqb i c); [reflexivity|].
    rewrite <- sum_scale, <- sum_minus. apply sum_ext. intros. ring.
  - intro Y. exists (fun i j => Y i j + (if Nat.eqb j c then sum n (fun l => if Nat.eqb l c then 0 else Y i l * f l) else 0)).
    intros m i k I. unfold prod.
    assert (E : sum n (fun j => (Y i j + (if Nat.eqb j c then sum n (fun l => if Nat.eqb l c then 0 else Y i l * f l) else 0))
        * clear_column c f m j k)
      == sum n (fun j => Y i j * clear_column c f m j k
           + (if Nat.eqb j c then sum n (fun l => if Nat.eqb l c then 0 else Y i l * f l) * m c k else 0))).
    { apply sum_ext. intros j J. unfold clear_column. destruct (Nat.eqb_spec j c) as [->|]; ring. }
    rewrite E, sum_update by exact C. rewrite <- sum_scale_r, <- sum_plus. apply sum_ext. intros j J.
    unfold clear_column. destruct (Nat.eqb_spec j c) as [->|]; ring.
Qed.

(** ** The invariant *)

Record invariant (n c : nat) (M a x : matrix) : Prop := {
  inv_rows : forall i k, (i < n)%nat -> (k < n)%nat -> a i k == prod n x M i k;
  inv_back : exists y, forall i k, (i < n)%nat -> (k < n)%nat ->
    M i k == prod n y a i k /\ identity i k == prod n y x i k;
  inv_unit : forall i k, (i < n)%nat -> (k < c)%nat -> a i k == identity i k }.

Lemma invariant_operation : forall n c c' M a x op,
  row_operation n op -> invariant n c M a x -> 
  (forall i k, (i < n)%nat -> (k < c')%nat -> op a i k == identity i k) ->
  invariant n c' M (op a) (op x).
Proof.
  intros n c c' M a x op (E & R & B) [IR IB IU] U. constructor; [| |exact U].
  - intros i k I K. rewrite <- R by exact I. apply E; [|exact I]. intros i' I'. apply IR; assumption.
  - destruct IB as (y & Y). destruct (B y) as (y' & Y'). exists y'. intros i k I K.
    destruct (Y i k I K) as (Y1 & Y2). rewrite <- !Y' by exact I. split; assumption.
Qed.

Lemma pivot_spec : forall n c a, (c < n)%nat ->
  (c <= fst (pivot_of n c a) < n)%nat /\ snd (pivot_of n c a) = Qabs (a (fst (pivot_of n c a)) c) /\
  forall row, (c <= row < n)%nat -> Qabs (a row c) <= snd (pivot_of n c a).
Proof.
  intros n c a C. unfold pivot_of.
  set (step := fun (best : nat * Q) row => if Qlt_bool (snd best) (Qabs (a row c)) then (row, Qabs (a row c)) else best).
  assert (G : forall l best, (c <= fst best < n)%nat -> snd best = Qabs (a (fst best) c) ->
    (forall row, In row l -> (c <= row < n)%nat) ->
    let r := fold_left step l best in
    (c <= fst r < n)%nat /\ snd r = Qabs (a (fst r) c) /\ snd best <= snd r /\
    forall row, In row l -> Qabs (a row c) <= snd r).
  { induction l as [|h l IH]; intros best B1 B2 LI; cbn [fold_left].
    - repeat split; try lia; try assumption; try lra. intros row [].
    - assert (ST : (c <= fst (step best h) < n)%nat /\ snd (step best h) = Qabs (a (fst (step best h)) c) /\
        snd best <= snd (step best h) /\ Qabs (a h c) <= snd (step best h)).
      { unfold step. destruct (Qlt_bool (snd best) (Qabs (a h c))) eqn:Q.
        - apply Qlt_bool_iff in Q. cbn [fst snd]. repeat split; try reflexivity; try lra; apply LI; left; reflexivity.
        - apply Qlt_bool_false in Q. repeat split; try lia; try assumption; try lra. }
      destruct ST as (S1 & S2 & S3 & S4).
      destruct (IH (step best h) S1 S2) as (I1 & I2 & I3 & I4); [intros; apply LI; right; assumption|].
      split; [exact I1|]. split; [exact I2|]. split; [lra|].
      intros row [<-|I]; [lra | apply I4; exact I]. }
  destruct (G (seq (S c) (n - S c)) (c, Qabs (a c c))) as (G1 & G2 & G3 & G4).
  - cbn [fst]. lia.
  - reflexivity.
  - intros row I. apply in_seq in I. lia.
  - split; [exact G1|]. split; [exact G2|]. intros row RR. destruct (Nat.eq_dec row c) as [->|NE]; [exact G3|].
    apply G4. apply in_seq. lia.
Qed.

(** One column. *)
Lemma invariant_step : forall n c M a x, (c < n)%nat -> invariant n c M a x ->
  ~ snd (pivot_of n c a) == 0 ->
  let a1 := swap c (fst (pivot_of n c a)) a in
  let x1 := swap c (fst (pivot_of n c a)) x in
  let a2 := scale_row c (a1 c c) a1 in
  let x2 := scale_row c (a1 c c) x1 in
  invariant n (S c) M (clear_column c (fun row => a2 row c) a2) (clear_column c (fun row => a2 row c) x2).
Proof.
  intros n c M a x C IV NZ a1 x1 a2 x2.
  destruct (pivot_spec n c a C) as (P1 & P2 & P3). set (r := fst (pivot_of n c a)) in *.
  assert (PV : ~ a1 c c == 0).
  { intro Z. apply NZ. rewrite P2. unfold a1, swap in Z. rewrite Nat.eqb_refl in Z. rewrite Z. reflexivity. }
  assert (I1 : invariant n c M a1 x1).
  { apply (invariant_operation n c c M a x (swap c r)); [apply swap_operation; lia | exact IV |].
    intros i k I K. unfold swap. destruct IV as [_ _ IU]. destruct (Nat.eqb_spec i c) as [->|].
    - rewrite (IU r k) by lia. unfold identity. replace (Nat.eqb r k) with false by (symmetry; apply Nat.eqb_neq; lia).
      replace (Nat.eqb c k) with false by (symmetry; apply Nat.eqb_neq; lia). reflexivity.
    - destruct (Nat.eqb_spec i r) as [->|].
      + rewrite (IU c k) by lia. unfold identity. replace (Nat.eqb r k) with false by (symmetry; apply Nat.eqb_neq; lia).
        replace (Nat.eqb c k) with false by (symmetry; apply Nat.eqb_neq; lia). reflexivity.
      + apply IU; assumption. }
  assert (I2 : invariant n c M a2 x2).
  { apply (invariant_operation n c c M a1 x1 (scale_row c (a1 c c))); [apply scale_operation; exact PV | exact I1 |].
    intros i k I K. unfold scale_row. destruct I1 as [_ _ IU].
    destruct (Nat.eqb_spec i c) as [->|]; [|apply IU; assumption]. rewrite (IU c k) by assumption.
    unfold identity. replace (Nat.eqb c k) with false by (symmetry; apply Nat.eqb_neq; lia). field. exact PV. }
  apply (invariant_operation n c (S c) M a2 x2 (clear_column c (fun row => a2 row c)));
    [apply clear_operation; exact C | exact I2 |].
  intros i k I K. unfold clear_column. destruct I2 as [_ _ IU].
  destruct (Nat.eq_dec k c) as [->|NE].
  - assert (A2 : a2 c c == 1) by (unfold a2, scale_row; rewrite Nat.eqb_refl; field; exact PV).
    destruct (Nat.eqb_spec i c) as [->|N]; [rewrite A2; unfold identity; rewrite Nat.eqb_refl; reflexivity|].
    rewrite A2. unfold identity. replace (Nat.eqb i c) with false by (symmetry; apply Nat.eqb_neq; exact N). ring.
  - assert (K' : (k < c)%nat) by lia.
    destruct (Nat.eqb_spec i c) as [->|N]; [apply IU; assumption|].
    rewrite (IU i k), (IU c k) by assumption. unfold identity at 2.
    replace (Nat.eqb c k) with false by (symmetry; apply Nat.eqb_neq; lia). ring.
Qed.

(** A column with no pivot gives a vector that the matrix sends to zero. *)
Lemma invariant_kernel : forall n c M a x, (c < n)%nat -> invariant n c M a x ->
  snd (pivot_of n c a) == 0 ->
  exists v, ~ v c == 0 /\ forall i, (i < n)%nat -> sum n (fun k => M i k * v k) == 0.
Proof.
  intros n c M a x C [IR IB IU] Z. destruct (pivot_spec n c a C) as (P1 & P2 & P3).
  assert (AZ : forall row, (c <= row < n)%nat -> a row c == 0).
  { intros row R. specialize (P3 row R). rewrite Z in P3. pose proof (Qabs_nonneg (a row c)).
    assert (Z' : Qabs (a row c) <= 0) by lra. apply Qabs_Qle_condition in Z'. lra. }
  set (v := fun k => if Nat.ltb k c then - a k c else if Nat.eqb k c then 1 else 0).
  exists v. split.
  - unfold v. rewrite Nat.ltb_irrefl, Nat.eqb_refl. lra.
  - assert (AV : forall i, (i < n)%nat -> sum n (fun k => a i k * v k) == 0).
    { intros i I.
      rewrite (sum_ext n (fun k => a i k * v k)
        (fun k => (if Nat.eqb k i then (if Nat.ltb i c then - a i c else 0) else 0) + (if Nat.eqb k c then a i c else 0))).
      2:{ intros k K. unfold v. destruct (Nat.ltb_spec k c) as [KC|KC].
          - rewrite (IU i k I KC). unfold identity. rewrite (Nat.eqb_sym i k).
            replace (Nat.eqb k c) with false by (symmetry; apply Nat.eqb_neq; lia).
            destruct (Nat.eqb_spec k i) as [->|]; [|ring].
            replace (Nat.ltb i c) with true by (symmetry; apply Nat.ltb_lt; lia). ring.
          - destruct (Nat.eqb_spec k c) as [->|NE].
            + destruct (Nat.eqb_spec c i) as [->|]; [|ring]. rewrite Nat.ltb_irrefl. ring.
            + destruct (Nat.eqb_spec k i) as [->|]; [|ring].
              replace (Nat.ltb i c) with false by (symmetry; apply Nat.ltb_ge; lia). ring. }
      rewrite sum_update by exact C.
      rewrite (sum_single n i (fun _ => if Nat.ltb i c then - a i c else 0)).
      replace (Nat.ltb i n) with true by (symmetry; apply Nat.ltb_lt; exact I).
      destruct (Nat.ltb_spec i c); [ring|]. rewrite AZ by lia. ring. }
    destruct IB as (y & Y). intros i I.
    rewrite (sum_ext n _ (fun k => sum n (fun j => y i j * (a j k * v k)))).
    2:{ intros k K. destruct (Y i k I K) as (Y1 & _). rewrite Y1. unfold prod. rewrite <- sum_scale_r.
        apply sum_ext. intros. ring. }
    rewrite sum_comm. apply sum_zero. intros j J. rewrite sum_scale, AV by exact J. ring.
Qed.

Lemma jordan_spec : forall count c n M a x, (c + count = n)%nat -> invariant n c M a x ->
  (exists a' x', jordan count c n a x = Ok (a', x') /\ invariant n n M a' x') \/
  (exists w, jordan count c n a x = Throw w /\
     exists v k, (k < n)%nat /\ ~ v k == 0 /\ forall i, (i < n)%nat -> sum n (fun k => M i k * v k) == 0).
Proof.
  induction count as [|count IH]; intros c n M a x L IV; cbn [jordan].
  - assert (c = n) by lia. subst c. left. exists a, x. split; [reflexivity | exact IV].
  - destruct (Qeq_bool (snd (pivot_of n c a)) 0) eqn:Q.
    + apply Qeq_bool_iff in Q. right. eexists. split; [reflexivity|].
      destruct (invariant_kernel n c M a x) as (v & V1 & V2); try assumption; [lia|].
      exists v, c. split; [lia|]. split; assumption.
    + assert (NZ : ~ snd (pivot_of n c a) == 0) by (intro E; apply Qeq_bool_iff in E; congruence).
      apply IH; [lia|]. apply invariant_step; [lia | exact IV | exact NZ].
Qed.

Lemma invariant_start : forall n M, invariant n 0 M M identity.
Proof.
  intros n M. constructor.
  - intros i k I K. unfold prod. rewrite sum_identity_l by exact I. reflexivity.
  - exists identity. intros i k I K. unfold prod. rewrite !sum_identity_l by exact I. split; reflexivity.
  - intros i k I K. lia.
Qed.

Lemma invert_spec : forall n M,
  (exists x, invert_matrix n M = Ok x /\
     (forall i k, (i < n)%nat -> (k < n)%nat -> prod n x M i k == identity i k /\ prod n M x i k == identity i k)) \/
  (exists w, invert_matrix n M = Throw w /\
     exists v k, (k < n)%nat /\ ~ v k == 0 /\ forall i, (i < n)%nat -> sum n (fun k => M i k * v k) == 0).
Proof.
  intros n M. unfold invert_matrix.
  destruct (jordan_spec n 0 n M M identity eq_refl (invariant_start n M)) as [(a & x & E & [IR IB IU])|(w & E & V)].
  - left. exists x. rewrite E. split; [reflexivity|].
    assert (L : forall i k, (i < n)%nat -> (k < n)%nat -> prod n x M i k == identity i k).
    { intros i k I K. rewrite <- IR by assumption. apply IU; assumption. }
    intros i k I K. split; [apply L; assumption|].
    destruct IB as (y & Y).
    assert (YM : forall j, (j < n)%nat -> M i j == y i j).
    { intros j J. destruct (Y i j I J) as (Y1 & _). rewrite Y1. unfold prod.
      rewrite <- (sum_identity_r n j (fun j => y i j)) by exact J. apply sum_ext. intros l LL.
      rewrite (IU l j) by assumption. reflexivity. }
    destruct (Y i k I K) as (_ & Y2). rewrite Y2. apply prod_ext; [exact YM | intros; reflexivity].
  - right. exists w. rewrite E. split; [reflexivity | exact V].
Qed.
