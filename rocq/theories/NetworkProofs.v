(** Lemmas about the reluctance network. *)
From Coq Require Import ZArith QArith Qabs List String Bool Lia Lqa Arith Permutation.
From Verif Require Import Base QAux NetworkModel.
Import ListNotations.
Open Scope Q_scope.

(** ** Finite sums *)

Fixpoint sum (n : nat) (f : nat -> Q) : Q :=
  match n with O => 0 | S k => sum k f + f k end.

Lemma sum_ext : forall n f g, (forall k, (k < n)%nat -> f k == g k) -> sum n f == sum n g.
Proof.
  induction n as [|n IH]; intros f g H; [reflexivity|]. cbn [sum].
  rewrite (IH f g) by (intros; apply H; lia). rewrite (H n) by lia. reflexivity.
Qed.

Lemma sum_plus : forall n f g, sum n (fun k => f k + g k) == sum n f + sum n g.
Proof. induction n as [|n IH]; intros f g; cbn [sum]; [lra|]. rewrite IH. lra. Qed.

Lemma sum_scale : forall n a f, sum n (fun k => a * f k) == a * sum n f.
Proof. induction n as [|n IH]; intros a f; cbn [sum]; [lra|]. rewrite IH. lra. Qed.

Lemma sum_zero : forall n f, (forall k, (k < n)%nat -> f k == 0) -> sum n f == 0.
Proof.
  induction n as [|n IH]; intros f H; [reflexivity|]. cbn [sum].
  rewrite IH by (intros; apply H; lia). rewrite H by lia. reflexivity.
Qed.

Lemma sum_nonneg : forall n f, (forall k, (k < n)%nat -> 0 <= f k) -> 0 <= sum n f.
Proof.
  induction n as [|n IH]; intros f H; cbn [sum]; [lra|].
  pose proof (IH f (fun k L => H k (Nat.lt_lt_succ_r _ _ L))). pose proof (H n ltac:(lia)). lra.
Qed.

Lemma sum_nonneg_zero : forall n f, (forall k, (k < n)%nat -> 0 <= f k) -> sum n f <= 0 ->
  forall k, (k < n)%nat -> f k == 0.
Proof.
  induction n as [|n IH]; intros f H S k L; [lia|]. cbn [sum] in S.
  assert (A : forall k, (k < n)%nat -> 0 <= f k) by (intros; apply H; lia).
  pose proof (sum_nonneg n f A). pose proof (H n ltac:(lia)).
  destruct (Nat.eq_dec k n) as [->|N]; [lra|]. apply IH; [exact A | lra | lia].
Qed.

Lemma sum_single : forall n k v, sum n (fun c => if Nat.eqb c k then v c else 0)
  == if Nat.ltb k n then v k else 0.
Proof.
  induction n as [|n IH]; intros k v; [reflexivity|]. cbn [sum]. rewrite IH.
  destruct (Nat.eqb_spec n k) as [->|N].
  - replace (Nat.ltb k k) with false by (symmetry; apply Nat.ltb_ge; lia).
    replace (Nat.ltb k (S k)) with true by (symmetry; apply Nat.ltb_lt; lia). lra.
  - destruct (Nat.ltb_spec k n); destruct (Nat.ltb_spec k (S n)); try lia; lra.
Qed.

Lemma sum_update : forall n f k d, (k < n)%nat ->
  sum n (fun c => f c + (if Nat.eqb c k then d else 0)) == sum n f + d.
Proof.
  intros n f k d L. rewrite (sum_plus n f (fun c => if Nat.eqb c k then d else 0)).
  rewrite (sum_single n k (fun _ => d)). replace (Nat.ltb k n) with true by (symmetry; apply Nat.ltb_lt; lia).
  reflexivity.
Qed.

(** ** Linear systems *)

Definition product (n : nat) (A : matrix) (x : vector) (r : nat) : Q := sum n (fun c => A r c * x c).
Definition solves (n : nat) (A : matrix) (b x : vector) : Prop :=
  forall r, (r < n)%nat -> product n A x r == b r.
(** Zero below the diagonal in the first [p] columns. *)
Definition lower_zero (n p : nat) (A : matrix) : Prop :=
  forall r c, (c < p)%nat -> (c < r)%nat -> (r < n)%nat -> A r c == 0.
Definition diagonal (p : nat) (A : matrix) : Prop := forall r, (r < p)%nat -> ~ A r r == 0.

Lemma best_row_range : forall n p A, (p < n)%nat -> (p <= best_row n p A < n)%nat.
Proof.
  intros n p A L. unfold best_row.
  assert (G : forall l b, (p <= b < n)%nat -> (forall r, In r l -> (p <= r < n)%nat) ->
    (p <= fold_left (fun best row => if Qlt_bool (Qabs (A best p)) (Qabs (A row p)) then row else best) l b < n)%nat).
  { induction l as [|r l IH]; intros b B H; [exact B|]. cbn [fold_left]. apply IH.
    - destruct (Qlt_bool _ _); [apply H; left; reflexivity | exact B].
    - intros x I. apply H. right. exact I. }
  apply G; [lia|]. intros r I. apply in_seq in I. lia.
Qed.

Lemma best_row_largest : forall n p A r, (p <= r < n)%nat ->
  Qabs (A r p) <= Qabs (A (best_row n p A) p).
Proof.
  intros n p A r L. unfold best_row.
  assert (G : forall l b, Qabs (A b p) <=
      Qabs (A (fold_left (fun best row => if Qlt_bool (Qabs (A best p)) (Qabs (A row p)) then row else best) l b) p)
    /\ forall r, In r l -> Qabs (A r p) <=
      Qabs (A (fold_left (fun best row => if Qlt_bool (Qabs (A best p)) (Qabs (A row p)) then row else best) l b) p)).
  { induction l as [|x l IH]; intros b; cbn [fold_left].
    - split; [apply Qle_refl | intros ? []].
    - destruct (Qlt_bool (Qabs (A b p)) (Qabs (A x p))) eqn:E; unfold Qlt_bool in E.
      + apply negb_true_iff in E. assert (LT : Qabs (A b p) <= Qabs (A x p)).
        { apply Qnot_lt_le. intro K. apply Qlt_le_weak in K. apply Qle_bool_iff in K. congruence. }
        destruct (IH x) as (I1 & I2). split; [eapply Qle_trans; eassumption|].
        intros y [<-|I]; [exact I1 | apply I2; exact I].
      + apply negb_false_iff in E. apply Qle_bool_iff in E.
        destruct (IH b) as (I1 & I2). split; [exact I1|].
        intros y [<-|I]; [eapply Qle_trans; eassumption | apply I2; exact I]. }
  destruct (G (seq (S p) (n - S p)) p) as (G1 & G2).
  destruct (Nat.eq_dec r p) as [->|N]; [exact G1|]. apply G2. apply in_seq. lia.
Qed.

Lemma swap_solves : forall n A b x i j, (i < n)%nat -> (j < n)%nat ->
  (solves n (swap i j A) (swap i j b) x <-> solves n A b x).
Proof.
  intros n A b x i j I J. unfold solves, product, swap. split; intros H r R.
  - destruct (Nat.eq_dec r i) as [->|NI].
    + specialize (H j J). destruct (Nat.eqb_spec j i) as [->|]; [exact H|].
      rewrite Nat.eqb_refl in H. exact H.
    + destruct (Nat.eq_dec r j) as [->|NJ].
      * specialize (H i I). rewrite Nat.eqb_refl in H. exact H.
      * specialize (H r R). destruct (Nat.eqb_spec r i); [lia|]. destruct (Nat.eqb_spec r j); [lia|]. exact H.
  - destruct (Nat.eqb_spec r i) as [->|]; [apply H; exact J|].
    destruct (Nat.eqb_spec r j) as [->|]; [apply H; exact I | apply H; exact R].
Qed.

Lemma eliminate_product : forall n p A x r, (p < n)%nat -> lower_zero n p A -> (r < n)%nat ->
  product n (eliminate_matrix p A) x r ==
  if Nat.ltb p r then product n A x r - A r p / A p p * product n A x p else product n A x r.
Proof.
  intros n p A x r P LZ R. unfold product, eliminate_matrix.
  destruct (Nat.ltb_spec p r) as [L|L]; cbn [andb]; [|reflexivity].
  set (f := A r p / A p p).
  assert (E : sum n (fun c => A r c * x c) - f * sum n (fun c => A p c * x c)
    == sum n (fun c => A r c * x c + (- f) * (A p c * x c))).
  { rewrite (sum_plus n (fun c => A r c * x c) (fun c => (- f) * (A p c * x c))).
    rewrite (sum_scale n (- f) (fun c => A p c * x c)). lra. }
  rewrite E. apply sum_ext. intros c C. destruct (Nat.leb_spec p c) as [PC|PC]; [lra|].
  rewrite (LZ p c PC PC P). lra.
Qed.

Lemma eliminate_solves : forall n p A b x, (p < n)%nat -> lower_zero n p A ->
  (solves n (eliminate_matrix p A) (eliminate_vector p A b) x <-> solves n A b x).
Proof.
  intros n p A b x P LZ. unfold solves. split; intros H r R.
  - pose proof (H p P) as HP. rewrite (eliminate_product n p A x p P LZ P) in HP.
    unfold eliminate_vector in HP. rewrite Nat.ltb_irrefl in HP.
    pose proof (H r R) as HR. rewrite (eliminate_product n p A x r P LZ R) in HR. unfold eliminate_vector in HR.
    destruct (Nat.ltb p r); [|exact HR]. rewrite HP in HR.
    set (t := A r p / A p p * b p) in *. lra.
  - rewrite (eliminate_product n p A x r P LZ R). unfold eliminate_vector.
    destruct (Nat.ltb p r); [|apply H; exact R]. rewrite (H r R), (H p P). reflexivity.
Qed.

Lemma swap_lower_zero : forall n p A j, (p < n)%nat -> (p <= j < n)%nat -> lower_zero n p A ->
  lower_zero n p (swap p j A).
Proof.
  intros n p A j P J LZ r c C CR R. unfold swap.
  destruct (Nat.eqb_spec r p) as [->|]; [apply LZ; lia|].
  destruct (Nat.eqb_spec r j) as [->|]; apply LZ; lia.
Qed.

Lemma eliminate_lower_zero : forall n p A, (p < n)%nat -> ~ A p p == 0 -> lower_zero n p A ->
  lower_zero n (S p) (eliminate_matrix p A).
Proof.
  intros n p A P NZ LZ r c C CR R. unfold eliminate_matrix.
  destruct (Nat.ltb_spec p r) as [PR|PR]; cbn [andb]; [|apply LZ; lia].
  destruct (Nat.leb_spec p c) as [PC|PC]; [|apply LZ; lia].
  assert (c = p) by lia. subst c. field. exact NZ.
Qed.

(** Rows below [p] solved from the diagonal, the unknowns from [p] on given. *)
Lemma triangular_solution : forall n A b p y, (p <= n)%nat -> lower_zero n p A -> diagonal p A ->
  exists x, (forall c, (p <= c)%nat -> x c == y c) /\ forall r, (r < p)%nat -> product n A x r == b r.
Proof.
  intros n A b. induction p as [|p IH]; intros y P LZ DG.
  - exists y. split; [intros; reflexivity | lia].
  - set (d := (b p - product n A y p) / A p p).
    set (y' := fun c => y c + (if Nat.eqb c p then d else 0)).
    destruct (IH y') as (x & X1 & X2); [lia | intros r c C; apply LZ; lia | intros r R; apply DG; lia |].
    exists x. split.
    + intros c C. rewrite X1 by lia. unfold y'. destruct (Nat.eqb_spec c p); [lia|]. lra.
    + intros r R. destruct (Nat.eq_dec r p) as [->|N]; [|apply X2; lia].
      assert (E : product n A x p == product n A y' p).
      { apply sum_ext. intros c C. destruct (Nat.lt_ge_cases c p) as [CP|CP].
        - rewrite (LZ p c) by lia. lra.
        - rewrite (X1 c CP). reflexivity. }
      rewrite E. unfold product, y'.
      assert (F : sum n (fun c => A p c * (y c + (if Nat.eqb c p then d else 0)))
        == sum n (fun c => A p c * y c + (if Nat.eqb c p then A p p * d else 0))).
      { apply sum_ext. intros c C. destruct (Nat.eqb_spec c p) as [->|]; lra. }
      rewrite F. rewrite (sum_update n (fun c => A p c * y c) p (A p p * d)) by lia.
      change (sum n (fun c => A p c * y c)) with (product n A y p).
      unfold d. field. apply DG. lia.
Qed.

Definition singular (n : nat) (A : matrix) : Prop :=
  exists x, solves n A (fun _ => 0) x /\ exists r, (r < n)%nat /\ ~ x r == 0.

Lemma solves_zero_swap : forall n A x i j, (i < n)%nat -> (j < n)%nat ->
  solves n (swap i j A) (fun _ => 0) x -> solves n A (fun _ => 0) x.
Proof.
  intros n A x i j I J H. apply (swap_solves n A (fun _ => 0) x i j I J).
  intros r R. rewrite (H r R). unfold swap. destruct (Nat.eqb r i), (Nat.eqb r j); reflexivity.
Qed.

Lemma solves_zero_eliminate : forall n p A x, (p < n)%nat -> lower_zero n p A ->
  solves n (eliminate_matrix p A) (fun _ => 0) x -> solves n A (fun _ => 0) x.
Proof.
  intros n p A x P LZ H. apply (eliminate_solves n p A (fun _ => 0) x P LZ).
  intros r R. rewrite (H r R). unfold eliminate_vector. destruct (Nat.ltb p r); lra.
Qed.

Lemma eliminate_spec : forall n count p A b, (p + count = n)%nat -> lower_zero n p A -> diagonal p A ->
  match eliminate count p n A b with
  | Ok (A', b') => lower_zero n n A' /\ diagonal n A' /\ forall x, solves n A' b' x <-> solves n A b x
  | Throw _ => singular n A
  | _ => False
  end.
Proof.
  intros n. induction count as [|count IH]; intros p A b PN LZ DG.
  - cbn [eliminate]. assert (p = n) by lia. subst p. split; [exact LZ|]. split; [exact DG|]. reflexivity.
  - cbn [eliminate]. assert (P : (p < n)%nat) by lia.
    pose proof (best_row_range n p A P) as BR. set (j := best_row n p A) in *.
    set (A1 := swap p j A). set (b1 := swap p j b).
    assert (LZ1 : lower_zero n p A1) by (apply swap_lower_zero; assumption).
    assert (DG1 : diagonal p A1).
    { intros r R. unfold A1, swap. destruct (Nat.eqb_spec r p); [lia|]. destruct (Nat.eqb_spec r j); [lia|].
      apply DG. exact R. }
    destruct (Qeq_bool (A1 p p) 0) eqn:Z.
    + (* the whole pivot column is zero *)
      apply Qeq_bool_iff in Z.
      assert (COL : forall r, (p <= r < n)%nat -> A1 r p == 0).
      { assert (ZA : A j p == 0) by (unfold A1, swap in Z; rewrite Nat.eqb_refl in Z; exact Z).
        assert (ALL : forall r, (p <= r < n)%nat -> A r p == 0).
        { intros r R. pose proof (best_row_largest n p A r R) as M. fold j in M. rewrite ZA in M.
          pose proof (Qabs_nonneg (A r p)). apply Qabs_case in M || idtac.
          assert (Qabs (A r p) == 0) by (change (Qabs 0) with 0 in M; lra).
          revert H0. apply Qabs_case; intros; lra. }
        intros r R. unfold A1, swap. destruct (Nat.eqb_spec r p); [apply ALL; lia|].
        destruct (Nat.eqb_spec r j); apply ALL; lia. }
      destruct (triangular_solution n A1 (fun _ => 0) p (fun c => if Nat.eqb c p then 1 else 0))
        as (x & X1 & X2); [lia | exact LZ1 | exact DG1 |].
      exists x. split.
      * apply (solves_zero_swap n A x p j); [exact P | lia |]. fold A1.
        intros r R. destruct (Nat.lt_ge_cases r p) as [L|L]; [apply X2; exact L|].
        apply sum_zero. intros c C. destruct (Nat.lt_trichotomy c p) as [CP|[->|CP]].
        -- rewrite (LZ1 r c) by lia. lra.
        -- rewrite (COL r) by lia. lra.
        -- rewrite (X1 c) by lia. destruct (Nat.eqb_spec c p); [lia|]. lra.
      * exists p. split; [exact P|]. rewrite X1 by lia. rewrite Nat.eqb_refl. lra.
    + assert (NZ : ~ A1 p p == 0) by (intro E; apply Qeq_bool_iff in E; congruence).
      specialize (IH (S p) (eliminate_matrix p A1) (eliminate_vector p A1 b1) ltac:(lia)
        (eliminate_lower_zero n p A1 P NZ LZ1)).
      assert (DG2 : diagonal (S p) (eliminate_matrix p A1)).
      { intros r R. unfold eliminate_matrix. destruct (Nat.ltb_spec p r); [lia|]. cbn [andb].
        destruct (Nat.eq_dec r p) as [->|]; [exact NZ | apply DG1; lia]. }
      specialize (IH DG2).
      destruct (eliminate count (S p) n (eliminate_matrix p A1) (eliminate_vector p A1 b1)) as [(A', b')| | |]; try exact IH.
      * destruct IH as (I1 & I2 & I3). split; [exact I1|]. split; [exact I2|]. intro x.
        rewrite I3, (eliminate_solves n p A1 b1 x P LZ1). apply swap_solves; lia.
      * destruct IH as (x & X1 & X2). exists x. split; [|exact X2].
        apply (solves_zero_swap n A x p j); [exact P | lia |].
        apply (solves_zero_eliminate n p A1 x P LZ1). exact X1.
Qed.

Lemma fold_minus : forall g n r b0, (r < n)%nat ->
  fold_left (fun acc c => acc - g c) (seq (S r) (n - S r)) b0
  == b0 - sum n (fun c => if Nat.ltb r c then g c else 0).
Proof.
  intros g n r b0 R.
  assert (G : forall k b, fold_left (fun acc c => acc - g c) (seq (S r) k) b
    == b - sum (S r + k) (fun c => if Nat.ltb r c then g c else 0)).
  { induction k as [|k IH]; intro b.
    - cbn [seq fold_left]. rewrite sum_zero; [lra|]. intros c C. destruct (Nat.ltb_spec r c); [lia|reflexivity].
    - rewrite seq_S, fold_left_app. cbn [fold_left]. rewrite IH.
      replace (S r + S k)%nat with (S (S r + k)) by lia. cbn [sum].
      destruct (Nat.ltb_spec r (S r + k)); [lra|lia]. }
  rewrite G. replace (S r + (n - S r))%nat with n by lia. reflexivity.
Qed.

Lemma back_spec : forall n A b count x, (count <= n)%nat -> lower_zero n n A -> diagonal n A ->
  (forall r, (count <= r < n)%nat -> product n A x r == b r) ->
  forall r, (r < n)%nat -> product n A (back_substitute count n A b x) r == b r.
Proof.
  intros n A b. induction count as [|row IH]; intros x C LZ DG H; [intros r R; apply H; lia|].
  cbn [back_substitute]. apply IH; [lia | exact LZ | exact DG |]. intros r R.
  set (acc := fold_left _ _ _).
  assert (ACC : acc == b row - sum n (fun c => if Nat.ltb row c then A row c * x c else 0)).
  { apply (fold_minus (fun c => A row c * x c)). lia. }
  destruct (Nat.eq_dec r row) as [->|N].
  - unfold product.
    assert (E : sum n (fun c => A row c * update x row (acc / A row row) c)
      == sum n (fun c => (if Nat.ltb row c then A row c * x c else 0) + (if Nat.eqb c row then acc else 0))).
    { apply sum_ext. intros c CC. unfold update. destruct (Nat.eqb_spec c row) as [->|NE].
      - rewrite Nat.ltb_irrefl. field. apply DG. lia.
      - destruct (Nat.ltb_spec row c); [lra|]. rewrite (LZ row c) by lia. lra. }
    rewrite E, sum_update by lia. rewrite ACC. lra.
  - rewrite <- (H r) by lia. apply sum_ext. intros c CC. unfold update.
    destruct (Nat.eqb_spec c row) as [->|NE]; [|reflexivity]. rewrite (LZ r row) by lia. lra.
Qed.

Theorem solve_correct : forall n A b x, solve n A b = Ok x -> solves n A b x.
Proof.
  intros n A b x H. unfold solve in H.
  pose proof (eliminate_spec n n 0 A b eq_refl) as S.
  destruct (eliminate n 0 n A b) as [(A', b')| | |]; try discriminate. cbn [bind fst snd] in H.
  destruct S as (LZ & DG & EQ); [intros r c C; lia | intros r R; lia |].
  injection H as <-. apply EQ. intros r R. apply back_spec; auto; try lia.
Qed.

Theorem solve_total : forall n A b, ~ singular n A -> exists x, solve n A b = Ok x.
Proof.
  intros n A b NS. unfold solve.
  pose proof (eliminate_spec n n 0 A b eq_refl) as S.
  destruct (eliminate n 0 n A b) as [(A', b')|w|w|].
  - eexists. reflexivity.
  - exfalso. apply NS. apply S; [intros r c C; lia | intros r R; lia].
  - destruct S; [intros r c C; lia | intros r R; lia].
  - destruct S; [intros r c C; lia | intros r R; lia].
Qed.

(** ** Circuits *)

(** A chain of [S m] legs: flux is conserved and the magnetomotive force law
    holds in the window between each leg and the next; the yoke of the window
    carries the flux of all the legs before it. *)
Definition circuit (m : nat) (leg yoke force flux : vector) : Prop :=
  sum (S m) flux == 0 /\
  forall k, (k < m)%nat ->
    leg k * flux k + yoke k * sum (S k) flux - leg (S k) * flux (S k) == force k - force (S k).

Lemma abel : forall m P f, sum (S m) (fun k => P k * f k)
  == sum m (fun k => (P k - P (S k)) * sum (S k) f) + P m * sum (S m) f.
Proof.
  induction m as [|m IH]; intros P f; [cbn [sum]; lra|].
  change (sum (S (S m)) (fun k => P k * f k)) with (sum (S m) (fun k => P k * f k) + P (S m) * f (S m)).
  rewrite IH. change (sum (S m) (fun k => (P k - P (S k)) * sum (S k) f))
    with (sum m (fun k => (P k - P (S k)) * sum (S k) f) + (P m - P (S m)) * sum (S m) f).
  change (sum (S (S m)) f) with (sum (S m) f + f (S m)).
  set (a := sum m _). set (s := sum (S m) f). lra.
Qed.

(** Tellegen: the magnetomotive forces of one circuit against the fluxes of
    another. *)
Lemma tellegen : forall m leg yoke force flux flux',
  circuit m leg yoke force flux -> sum (S m) flux' == 0 ->
  sum (S m) (fun k => force k * flux' k)
  == sum (S m) (fun k => leg k * (flux k * flux' k))
   + sum m (fun k => yoke k * (sum (S k) flux * sum (S k) flux')).
Proof.
  intros m leg yoke force flux flux' (C1 & C2) D1.
  pose proof (abel m (fun k => force k - leg k * flux k) flux') as AB. cbv beta in AB.
  rewrite D1 in AB.
  assert (E1 : sum (S m) (fun k => (force k - leg k * flux k) * flux' k)
    == sum (S m) (fun k => force k * flux' k) - sum (S m) (fun k => leg k * (flux k * flux' k))).
  { assert (T : sum (S m) (fun k => (force k - leg k * flux k) * flux' k)
      == sum (S m) (fun k => force k * flux' k + (-1) * (leg k * (flux k * flux' k)))).
    { apply sum_ext. intros. ring. }
    rewrite T. rewrite (sum_plus (S m) (fun k => force k * flux' k) (fun k => (-1) * (leg k * (flux k * flux' k)))).
    rewrite (sum_scale (S m) (-1) (fun k => leg k * (flux k * flux' k))). lra. }
  rewrite E1 in AB.
  assert (E2 : sum m (fun k => (force k - leg k * flux k - (force (S k) - leg (S k) * flux (S k))) * sum (S k) flux')
    == sum m (fun k => yoke k * (sum (S k) flux * sum (S k) flux'))).
  { apply sum_ext. intros k K. specialize (C2 k K).
    set (s := sum (S k) flux) in *. set (s' := sum (S k) flux') in *.
    assert (H : force k - leg k * flux k - (force (S k) - leg (S k) * flux (S k)) == yoke k * s) by lra.
    rewrite H. ring. }
  rewrite E2 in AB. set (u := sum (S m) (fun k => force k * flux' k)) in *.
  set (v := sum (S m) (fun k => leg k * (flux k * flux' k))) in *.
  set (w := sum m _) in *. lra.
Qed.

Lemma circuit_energy : forall m leg yoke force flux,
  (forall k, (k <= m)%nat -> 0 <= leg k) -> (forall k, (k < m)%nat -> 0 <= yoke k) ->
  circuit m leg yoke force flux -> 0 <= sum (S m) (fun k => force k * flux k).
Proof.
  intros m leg yoke force flux L Y C. rewrite (tellegen _ _ _ _ _ _ C (proj1 C)).
  assert (0 <= sum (S m) (fun k => leg k * (flux k * flux k))).
  { apply sum_nonneg. intros k K. apply Qmult_le_0_compat; [apply L; lia | nra]. }
  assert (0 <= sum m (fun k => yoke k * (sum (S k) flux * sum (S k) flux))).
  { apply sum_nonneg. intros k K. apply Qmult_le_0_compat; [apply Y; lia | set (s := sum (S k) flux); nra]. }
  lra.
Qed.

Lemma circuit_zero : forall m leg yoke force flux,
  (forall k, (k <= m)%nat -> 0 < leg k) -> (forall k, (k < m)%nat -> 0 <= yoke k) ->
  circuit m leg yoke force flux -> sum (S m) (fun k => force k * flux k) <= 0 ->
  forall k, (k <= m)%nat -> flux k == 0.
Proof.
  intros m leg yoke force flux L Y C E k K. rewrite (tellegen _ _ _ _ _ _ C (proj1 C)) in E.
  assert (Y0 : 0 <= sum m (fun k => yoke k * (sum (S k) flux * sum (S k) flux))).
  { apply sum_nonneg. intros j J. apply Qmult_le_0_compat; [apply Y; lia | set (s := sum (S j) flux); nra]. }
  assert (Z : leg k * (flux k * flux k) == 0).
  { apply (sum_nonneg_zero (S m) (fun k => leg k * (flux k * flux k))); [|lra|lia].
    intros j J. apply Qmult_le_0_compat; [apply Qlt_le_weak; apply L; lia | nra]. }
  specialize (L k K). assert (Q : flux k * flux k == 0).
  { destruct (Qeq_dec (flux k * flux k) 0) as [|NE]; [assumption|]. exfalso. nra. }
  destruct (Qeq_dec (flux k) 0) as [|NE]; [assumption|]. exfalso. nra.
Qed.

Lemma circuit_minus : forall m leg yoke f1 x1 f2 x2 a,
  circuit m leg yoke f1 x1 -> circuit m leg yoke f2 x2 ->
  circuit m leg yoke (fun k => f1 k + a * f2 k) (fun k => x1 k + a * x2 k).
Proof.
  intros m leg yoke f1 x1 f2 x2 a (A1 & A2) (B1 & B2).
  assert (S : forall n, sum n (fun k => x1 k + a * x2 k) == sum n x1 + a * sum n x2).
  { intro n. rewrite (sum_plus n x1 (fun k => a * x2 k)), (sum_scale n a x2). reflexivity. }
  split.
  - rewrite S, A1, B1. lra.
  - intros k K. rewrite S. specialize (A2 k K). specialize (B2 k K).
    set (s1 := sum (Datatypes.S k) x1) in *. set (s2 := sum (Datatypes.S k) x2) in *.
    assert (E : a * (leg k * x2 k + yoke k * s2 - leg (Datatypes.S k) * x2 (Datatypes.S k))
      == a * (f2 k - f2 (Datatypes.S k))) by (rewrite B2; reflexivity). lra.
Qed.

Lemma circuit_unique : forall m leg yoke force x y,
  (forall k, (k <= m)%nat -> 0 < leg k) -> (forall k, (k < m)%nat -> 0 <= yoke k) ->
  circuit m leg yoke force x -> circuit m leg yoke force y ->
  forall k, (k <= m)%nat -> x k == y k.
Proof.
  intros m leg yoke force x y L Y CX CY k K.
  pose proof (circuit_minus m leg yoke force x force y (-1) CX CY) as CD.
  assert (Z : x k + (-1) * y k == 0).
  { apply (circuit_zero m leg yoke _ _ L Y CD); [|exact K].
    rewrite sum_zero; [lra|]. intros j J. ring. }
  lra.
Qed.

(** ** The mesh system is the circuit *)

Lemma leg_flux_sum : forall m phi n, (n <= S m)%nat ->
  sum n (leg_flux m phi) == match n with O => 0 | S k => if Nat.ltb k m then phi k else 0 end.
Proof.
  intros m phi. induction n as [|n IH]; intro L; [reflexivity|]. cbn [sum]. rewrite IH by lia.
  unfold leg_flux. destruct n as [|k]; [lra|].
  destruct (Nat.ltb_spec k m); [lra|lia].
Qed.

Lemma mesh_product : forall m leg yoke phi k, (k < m)%nat ->
  product m (mesh_matrix m leg yoke) phi k ==
  leg k * leg_flux m phi k + yoke k * phi k - leg (S k) * leg_flux m phi (S k).
Proof.
  intros m leg yoke phi k K. unfold product.
  assert (E : sum m (fun c => mesh_matrix m leg yoke k c * phi c)
    == sum m (fun c =>
        ((if Nat.eqb c k then (leg k + leg (S k) + yoke k) * phi c else 0)
         + (if Nat.eqb c (pred k) then (if Nat.eqb k 0 then 0 else - leg k * phi c) else 0))
        + (if Nat.eqb c (S k) then - leg (S k) * phi c else 0))).
  { apply sum_ext. intros c C. unfold mesh_matrix.
    destruct (Nat.eqb_spec c k) as [->|N1].
    - destruct (Nat.eqb_spec k (pred k)) as [Z|Z].
      + assert (k = 0)%nat by lia. subst k. cbn [Nat.eqb]. lra.
      + destruct (Nat.eqb_spec k (S k)); [lia|]. lra.
    - destruct (Nat.eqb_spec (S c) k) as [Z|N2].
      + subst k. cbn [pred]. rewrite Nat.eqb_refl. destruct (Nat.eqb_spec c (S (S c))); [lia|].
        cbn [Nat.eqb]. lra.
      + destruct (Nat.eqb_spec c (pred k)) as [Z|N3].
        * assert (k = 0)%nat by lia. subst. lia.
        * destruct (Nat.eqb_spec c (S k)) as [->|N4]; cbn [andb]; [|lra].
          destruct (Nat.ltb_spec (S k) m); [lra|lia]. }
  rewrite E.
  rewrite (sum_plus m (fun c => (if Nat.eqb c k then (leg k + leg (S k) + yoke k) * phi c else 0)
         + (if Nat.eqb c (pred k) then (if Nat.eqb k 0 then 0 else - leg k * phi c) else 0))
        (fun c => if Nat.eqb c (S k) then - leg (S k) * phi c else 0)).
  rewrite (sum_plus m (fun c => if Nat.eqb c k then (leg k + leg (S k) + yoke k) * phi c else 0)
        (fun c => if Nat.eqb c (pred k) then (if Nat.eqb k 0 then 0 else - leg k * phi c) else 0)).
  rewrite (sum_single m k (fun c => (leg k + leg (S k) + yoke k) * phi c)).
  rewrite (sum_single m (pred k) (fun c => if Nat.eqb k 0 then 0 else - leg k * phi c)).
  rewrite (sum_single m (S k) (fun c => - leg (S k) * phi c)).
  replace (Nat.ltb k m) with true by (symmetry; apply Nat.ltb_lt; lia).
  replace (Nat.ltb (pred k) m) with true by (symmetry; apply Nat.ltb_lt; lia).
  unfold leg_flux. replace (Nat.ltb k m) with true by (symmetry; apply Nat.ltb_lt; lia).
  destruct k as [|k]; cbn [Nat.eqb pred]; destruct (Nat.ltb _ m); lra.
Qed.

Lemma mesh_circuit : forall m leg yoke force phi,
  solves m (mesh_matrix m leg yoke) (mesh_rhs force) phi ->
  circuit m leg yoke force (leg_flux m phi).
Proof.
  intros m leg yoke force phi H. split.
  - rewrite leg_flux_sum by lia. rewrite Nat.ltb_irrefl. reflexivity.
  - intros k K. rewrite (leg_flux_sum m phi (S k)) by lia.
    replace (Nat.ltb k m) with true by (symmetry; apply Nat.ltb_lt; lia).
    rewrite <- (mesh_product m leg yoke phi k K). apply H. exact K.
Qed.

Lemma mesh_regular : forall m leg yoke,
  (forall k, (k <= m)%nat -> 0 < leg k) -> (forall k, (k < m)%nat -> 0 <= yoke k) ->
  ~ singular m (mesh_matrix m leg yoke).
Proof.
  intros m leg yoke L Y (x & X & r & R & NZ). apply NZ.
  assert (C : circuit m leg yoke (fun _ => 0) (leg_flux m x)).
  { apply mesh_circuit. intros k K. rewrite (X k K). unfold mesh_rhs. lra. }
  assert (Z : forall k, (k <= m)%nat -> leg_flux m x k == 0).
  { apply (circuit_zero m leg yoke _ _ L Y C). rewrite sum_zero; [lra|]. intros; lra. }
  assert (E : sum (S r) (leg_flux m x) == x r).
  { rewrite leg_flux_sum by lia. replace (Nat.ltb r m) with true by (symmetry; apply Nat.ltb_lt; exact R). reflexivity. }
  rewrite <- E. apply sum_zero. intros k K. apply Z. lia.
Qed.

(** ** Lists *)

Lemma set_nth_length : forall l k v, List.length (set_nth l k v) = List.length l.
Proof. induction l as [|h t IH]; intros [|k] v; cbn; auto. Qed.

Lemma set_nth_same : forall l k v, (k < List.length l)%nat -> at_ (set_nth l k v) k = v.
Proof.
  unfold at_. induction l as [|h t IH]; intros [|k] v L; cbn in *; try lia; [reflexivity|].
  apply IH. lia.
Qed.

Lemma set_nth_other : forall l k j v, j <> k -> at_ (set_nth l k v) j = at_ l j.
Proof.
  unfold at_. induction l as [|h t IH]; intros [|k] [|j] v N; cbn; try reflexivity; try lia.
  apply IH. lia.
Qed.

Lemma at_repeat : forall n k, at_ (repeat 0 n) k = 0.
Proof. unfold at_. induction n as [|n IH]; intros [|k]; cbn; auto. Qed.

Lemma scatter : forall order g ps l,
  (forall p, In p ps -> (nth p order O < List.length l)%nat) ->
  (forall p q, In p ps -> In q ps -> nth p order O = nth q order O -> p = q) -> NoDup ps ->
  List.length (fold_left (fun l pos => set_nth l (nth pos order O) (g pos)) ps l) = List.length l /\
  (forall p, In p ps ->
    at_ (fold_left (fun l pos => set_nth l (nth pos order O) (g pos)) ps l) (nth p order O) = g p) /\
  (forall k, (forall p, In p ps -> nth p order O <> k) ->
    at_ (fold_left (fun l pos => set_nth l (nth pos order O) (g pos)) ps l) k = at_ l k).
Proof.
  intros order g. induction ps as [|p ps IH]; intros l R INJ ND; cbn [fold_left].
  - split; [reflexivity|]. split; [intros p [] | reflexivity].
  - inversion ND as [|? ? NI ND']; subst.
    destruct (IH (set_nth l (nth p order O) (g p))) as (I1 & I2 & I3).
    + intros q Q. rewrite set_nth_length. apply R. right. exact Q.
    + intros a b A B. apply INJ; right; assumption.
    + exact ND'.
    + split; [rewrite I1; apply set_nth_length|]. split.
      * intros q [<-|Q]; [|apply I2; exact Q]. rewrite I3.
        -- apply set_nth_same. apply R. left. reflexivity.
        -- intros q Q E. apply NI. assert (q = p) by (apply INJ; [right; exact Q | left; reflexivity | exact E]).
           subst. exact Q.
      * intros k K. rewrite I3 by (intros q Q; apply K; right; exact Q).
        apply set_nth_other. intro E. apply (K p); [left; reflexivity | symmetry; exact E].
Qed.

(** ** The networks with positive reluctances *)

Record valid (N : network) : Prop := mk_valid {
  v_columns : n_columns N <> [];
  v_legs : forall r, In r (n_columns N) -> 0 < r;
  v_yokes : List.length (n_yokes N) = (List.length (n_columns N) - 1)%nat /\
            forall y, In y (n_yokes N) -> 0 <= y;
  v_order : Permutation (n_order N) (seq 0 (List.length (n_columns N))) }.

Lemma at_In : forall l k, (k < List.length l)%nat -> In (at_ l k) l.
Proof. intros l k L. apply nth_In. exact L. Qed.

Lemma order_range : forall N p, valid N -> (p < List.length (n_columns N))%nat ->
  (nth p (n_order N) O < List.length (n_columns N))%nat.
Proof.
  intros N p V L. pose proof (v_order N V) as P.
  assert (I : In (nth p (n_order N) O) (n_order N)).
  { apply nth_In. rewrite (Permutation_length P), seq_length. exact L. }
  apply (Permutation_in _ P) in I. apply in_seq in I. lia.
Qed.

Lemma order_injective : forall N p q, valid N ->
  (p < List.length (n_columns N))%nat -> (q < List.length (n_columns N))%nat ->
  nth p (n_order N) O = nth q (n_order N) O -> p = q.
Proof.
  intros N p q V P Q E. pose proof (v_order N V) as PM.
  assert (ND : NoDup (n_order N)).
  { apply (Permutation_NoDup (Permutation_sym PM)). apply seq_NoDup. }
  pose proof (Permutation_length PM) as LN. rewrite seq_length in LN.
  apply (proj1 (NoDup_nth (n_order N) O) ND); [lia | lia | exact E].
Qed.

Lemma order_position : forall N k, valid N -> (k < List.length (n_columns N))%nat ->
  exists p, (p < List.length (n_columns N))%nat /\ nth p (n_order N) O = k.
Proof.
  intros N k V K. pose proof (v_order N V) as PM.
  pose proof (Permutation_length PM) as LN. rewrite seq_length in LN.
  assert (I : In k (n_order N)).
  { apply (Permutation_in _ (Permutation_sym PM)). apply in_seq. lia. }
  destruct (In_nth _ _ O I) as (p & P & E). exists p. split; [lia | exact E].
Qed.

(** Quantities by position along the core. *)
Definition along (N : network) (l : list Q) : vector := fun pos => at_ l (nth pos (n_order N) O).

Lemma sum_map_seq : forall n f, sum n f == fold_right Qplus 0 (map f (seq 0 n)).
Proof.
  induction n as [|n IH]; intro f; [reflexivity|].
  rewrite seq_S, map_app, fold_right_app. cbn [map fold_right sum]. rewrite IH.
  generalize (map f (seq 0 n)). intro l. induction l as [|a l IHl]; cbn [fold_right]; [cbn [Nat.add]; lra|].
  rewrite <- IHl. lra.
Qed.

Lemma fold_permutation : forall l l', Permutation l l' -> fold_right Qplus 0 l == fold_right Qplus 0 l'.
Proof. induction 1; cbn [fold_right]; try lra; reflexivity. Qed.

(** Adding along the core or by column index is the same. *)
Lemma sum_along : forall N f, valid N ->
  sum (List.length (n_columns N)) (fun pos => f (nth pos (n_order N) O))
  == sum (List.length (n_columns N)) f.
Proof.
  intros N f V. rewrite !sum_map_seq. apply fold_permutation.
  pose proof (v_order N V) as PM.
  assert (E : map (fun pos => f (nth pos (n_order N) O)) (seq 0 (List.length (n_columns N)))
    = map f (n_order N)).
  { pose proof (Permutation_length PM) as LN. rewrite seq_length in LN. rewrite <- LN.
    rewrite <- (map_map (fun pos => nth pos (n_order N) O) f). f_equal.
    clear. induction (n_order N) as [|a l IH]; [reflexivity|].
    cbn [List.length seq map nth]. f_equal. rewrite <- seq_shift, map_map. exact IH. }
  rewrite E. apply Permutation_map. exact PM.
Qed.

Definition ncol (N : network) : nat := List.length (n_columns N).

(** The solver on two columns or more. *)
Lemma column_fluxes_spec : forall N mmf, valid N -> (2 <= ncol N)%nat ->
  exists flux, column_fluxes N mmf = Ok flux /\ List.length flux = ncol N /\
    circuit (ncol N - 1) (along N (n_columns N)) (at_ (n_yokes N)) (along N mmf) (along N flux).
Proof.
  intros N mmf V L2. unfold ncol in *. unfold column_fluxes.
  destruct (List.length (n_columns N)) as [|[|m0]] eqn:LN; [lia | lia |].
  set (m := S m0) in *. cbn [Nat.sub]. rewrite Nat.sub_0_r.
  change (fun pos : nat => at_ (n_columns N) (nth pos (n_order N) O)) with (along N (n_columns N)).
  change (fun pos : nat => at_ mmf (nth pos (n_order N) O)) with (along N mmf).
  assert (LG : forall k, (k <= m)%nat -> 0 < along N (n_columns N) k).
  { intros k K. apply (v_legs N V). apply at_In. apply (order_range N k V). rewrite LN. lia. }
  assert (YK : forall k, (k < m)%nat -> 0 <= at_ (n_yokes N) k).
  { intros k K. destruct (v_yokes N V) as (YL & YP). apply YP. apply at_In. rewrite YL, LN. lia. }
  destruct (solve_total m (mesh_matrix m (along N (n_columns N)) (at_ (n_yokes N)))
              (mesh_rhs (along N mmf)) (mesh_regular _ _ _ LG YK)) as (phi & E).
  rewrite E. cbn [bind]. eexists. split; [reflexivity|].
  pose proof (mesh_circuit _ _ _ _ _ (solve_correct _ _ _ _ E)) as (C1 & C2).
  destruct (scatter (n_order N) (leg_flux m phi) (seq 0 (S m)) (repeat 0 (S m))) as (S1 & S2 & _).
  - intros p P. apply in_seq in P. rewrite repeat_length, <- LN. apply (order_range N p V). lia.
  - intros p q P Q. apply in_seq in P. apply in_seq in Q. apply (order_injective N p q V); lia.
  - apply seq_NoDup.
  - split; [rewrite S1; apply repeat_length|].
    set (out := fold_left _ _ _) in *.
    assert (AL : forall p, (p <= m)%nat -> along N out p == leg_flux m phi p).
    { intros p P. unfold along. rewrite S2 by (apply in_seq; lia). reflexivity. }
    split.
    + rewrite (sum_ext (S m) (along N out) (leg_flux m phi)) by (intros; apply AL; lia). exact C1.
    + intros k K. rewrite (sum_ext (S k) (along N out) (leg_flux m phi)) by (intros; apply AL; lia).
      rewrite (AL k), (AL (S k)) by lia. apply C2. exact K.
Qed.

(** ** The laws of the network, one column or more *)

Definition laws (N : network) (mmf flux : list Q) : Prop :=
  List.length flux = ncol N /\
  (ncol N = 1%nat -> at_ (n_columns N) 0 * at_ flux 0 == at_ mmf 0) /\
  ((2 <= ncol N)%nat ->
    circuit (ncol N - 1) (along N (n_columns N)) (at_ (n_yokes N)) (along N mmf) (along N flux)).

Lemma valid_ncol : forall N, valid N -> (1 <= ncol N)%nat.
Proof. intros N V. unfold ncol. pose proof (v_columns N V). destruct (n_columns N); [congruence|cbn; lia]. Qed.

Lemma fluxes_laws : forall N mmf, valid N -> exists flux, column_fluxes N mmf = Ok flux /\ laws N mmf flux.
Proof.
  intros N mmf V. pose proof (valid_ncol N V) as L.
  destruct (Nat.eq_dec (ncol N) 1) as [E1|N1].
  - unfold column_fluxes. unfold ncol in *. rewrite E1. eexists. split; [reflexivity|].
    split; [unfold ncol; rewrite E1; reflexivity|]. split; [|unfold ncol; lia]. intros _.
    change (at_ [at_ mmf 0 / at_ (n_columns N) 0] 0) with (at_ mmf 0 / at_ (n_columns N) 0).
    assert (P : 0 < at_ (n_columns N) 0) by (apply (v_legs N V); apply at_In; lia).
    field. lra.
  - destruct (column_fluxes_spec N mmf V ltac:(lia)) as (flux & E & LN & C).
    exists flux. split; [exact E|]. split; [exact LN|]. split; [lia|]. intros _. exact C.
Qed.

Lemma fluxes_obey : forall N mmf flux, valid N -> column_fluxes N mmf = Ok flux -> laws N mmf flux.
Proof.
  intros N mmf flux V E. destruct (fluxes_laws N mmf V) as (f & E' & L). congruence.
Qed.

Definition paired (N : network) (a b : list Q) : Q := sum (ncol N) (fun c => at_ a c * at_ b c).

Lemma paired_along : forall N a b, valid N ->
  paired N a b == sum (ncol N) (fun p => along N a p * along N b p).
Proof.
  intros N a b V. unfold paired, along, ncol. symmetry.
  exact (sum_along N (fun c => at_ a c * at_ b c) V).
Qed.

Lemma order_single : forall N, valid N -> ncol N = 1%nat -> nth 0 (n_order N) O = O.
Proof.
  intros N V E. pose proof (order_range N 0 V). unfold ncol in E. lia.
Qed.

Lemma legs_positive : forall N k, valid N -> (k < ncol N)%nat -> 0 < along N (n_columns N) k.
Proof.
  intros N k V K. apply (v_legs N V). apply at_In. apply (order_range N k V). exact K.
Qed.

Lemma yokes_nonneg : forall N k, valid N -> (k < ncol N - 1)%nat -> 0 <= at_ (n_yokes N) k.
Proof.
  intros N k V K. destruct (v_yokes N V) as (YL & YP). apply YP. apply at_In. rewrite YL. exact K.
Qed.

(** The stored energy of two states. *)
Definition cross (N : network) (x y : list Q) : Q :=
  sum (ncol N) (fun k => along N (n_columns N) k * (along N x k * along N y k))
  + sum (ncol N - 1) (fun k => at_ (n_yokes N) k * (sum (S k) (along N x) * sum (S k) (along N y))).

Lemma paired_cross : forall N mmf flux mmf' flux', valid N ->
  laws N mmf flux -> laws N mmf' flux' -> paired N mmf flux' == cross N flux flux'.
Proof.
  intros N mmf flux mmf' flux' V (_ & A1 & A2) (_ & B1 & B2).
  rewrite (paired_along N mmf flux' V). unfold cross. pose proof (valid_ncol N V) as L.
  destruct (Nat.eq_dec (ncol N) 1) as [E1|N1].
  - rewrite E1. cbn [sum Nat.sub]. unfold along. rewrite (order_single N V E1). rewrite <- (A1 E1). ring.
  - specialize (A2 ltac:(lia)). specialize (B2 ltac:(lia)).
    replace (ncol N) with (S (ncol N - 1)) at 1 2 by lia.
    exact (tellegen _ _ _ _ _ _ A2 (proj1 B2)).
Qed.

Lemma cross_sym : forall N x y, cross N x y == cross N y x.
Proof.
  intros N x y. unfold cross. apply Qplus_comp; apply sum_ext; intros; ring.
Qed.

Lemma cross_nonneg : forall N x, valid N -> 0 <= cross N x x.
Proof.
  intros N x V. unfold cross.
  assert (0 <= sum (ncol N) (fun k => along N (n_columns N) k * (along N x k * along N x k))).
  { apply sum_nonneg. intros k K. pose proof (legs_positive N k V K).
    apply Qmult_le_0_compat; [lra | nra]. }
  assert (0 <= sum (ncol N - 1) (fun k => at_ (n_yokes N) k * (sum (S k) (along N x) * sum (S k) (along N x)))).
  { apply sum_nonneg. intros k K. apply Qmult_le_0_compat; [exact (yokes_nonneg N k V K)|].
    set (s := sum (S k) (along N x)). nra. }
  lra.
Qed.

Lemma cross_zero : forall N x c, valid N -> cross N x x <= 0 -> (c < ncol N)%nat -> at_ x c == 0.
Proof.
  intros N x c V E C. unfold cross in E.
  assert (Y0 : 0 <= sum (ncol N - 1) (fun k => at_ (n_yokes N) k * (sum (S k) (along N x) * sum (S k) (along N x)))).
  { apply sum_nonneg. intros k K. apply Qmult_le_0_compat; [exact (yokes_nonneg N k V K)|].
    set (s := sum (S k) (along N x)). nra. }
  destruct (order_position N c V C) as (p & P & EP).
  assert (Z : along N (n_columns N) p * (along N x p * along N x p) == 0).
  { apply (sum_nonneg_zero (ncol N) (fun k => along N (n_columns N) k * (along N x k * along N x k))); [|lra|exact P].
    intros k K. pose proof (legs_positive N k V K). apply Qmult_le_0_compat; [lra | nra]. }
  pose proof (legs_positive N p V P) as LP. unfold along in Z at 2 3. rewrite EP in Z.
  assert (Q : at_ x c * at_ x c == 0).
  { destruct (Qeq_dec (at_ x c * at_ x c) 0) as [|NE]; [assumption|]. exfalso. nra. }
  destruct (Qeq_dec (at_ x c) 0) as [|NE]; [assumption|]. exfalso. nra.
Qed.

(** Combination of two states. *)
Definition combine_lists (n : nat) (x : list Q) (a : Q) (y : list Q) : list Q :=
  map (fun k => at_ x k + a * at_ y k) (seq 0 n).

Lemma at_map_seq : forall f n k, (k < n)%nat -> at_ (map f (seq 0 n)) k = f k.
Proof.
  intros f n k K. unfold at_. rewrite (nth_indep _ 0 (f O)) by (rewrite map_length, seq_length; exact K).
  rewrite map_nth. rewrite seq_nth by exact K. reflexivity.
Qed.

Lemma along_combine : forall N x a y p, valid N -> (p < ncol N)%nat ->
  along N (combine_lists (ncol N) x a y) p == along N x p + a * along N y p.
Proof.
  intros N x a y p V P. unfold along, combine_lists.
  rewrite at_map_seq by (apply (order_range N p V); exact P). reflexivity.
Qed.

Lemma circuit_ext : forall m leg leg' yoke yoke' f f' x x',
  (forall k, (k <= m)%nat -> leg k == leg' k) -> (forall k, (k < m)%nat -> yoke k == yoke' k) ->
  (forall k, (k <= m)%nat -> f k == f' k) -> (forall k, (k <= m)%nat -> x k == x' k) ->
  circuit m leg yoke f x -> circuit m leg' yoke' f' x'.
Proof.
  intros m leg leg' yoke yoke' f f' x x' L Y F X (C1 & C2). split.
  - rewrite <- (sum_ext (S m) x x') by (intros; apply X; lia). exact C1.
  - intros k K. rewrite <- (sum_ext (S k) x x') by (intros; apply X; lia).
    rewrite <- (L k), <- (L (S k)), <- (Y k), <- (F k), <- (F (S k)), <- (X k), <- (X (S k)) by lia.
    apply C2. exact K.
Qed.

Lemma laws_combine : forall N f1 x1 f2 x2 a, valid N -> laws N f1 x1 -> laws N f2 x2 ->
  laws N (combine_lists (ncol N) f1 a f2) (combine_lists (ncol N) x1 a x2).
Proof.
  intros N f1 x1 f2 x2 a V (A0 & A1 & A2) (B0 & B1 & B2). split; [|split].
  - unfold combine_lists. rewrite map_length, seq_length. reflexivity.
  - intro E. unfold combine_lists. rewrite !at_map_seq by lia. rewrite <- (A1 E), <- (B1 E). ring.
  - intro L. eapply circuit_ext; [| | | |exact (circuit_minus _ _ _ _ _ _ _ a (A2 L) (B2 L))];
      intros k K; try reflexivity; symmetry; apply along_combine; auto; lia.
Qed.

Lemma laws_ext : forall N f f' x, valid N -> (forall c, (c < ncol N)%nat -> at_ f c == at_ f' c) ->
  laws N f x -> laws N f' x.
Proof.
  intros N f f' x V F (A0 & A1 & A2). split; [exact A0|]. split.
  - intro E. rewrite (A1 E). apply F. lia.
  - intro L. eapply circuit_ext; [| | | |exact (A2 L)]; intros k K; try reflexivity.
    unfold along. apply F. apply (order_range N k V). unfold ncol in *. lia.
Qed.

Lemma laws_unique : forall N f x y c, valid N -> laws N f x -> laws N f y -> (c < ncol N)%nat ->
  at_ x c == at_ y c.
Proof.
  intros N f x y c V X Y C.
  pose proof (laws_combine N f x f y (-1) V X Y) as D.
  pose proof (paired_cross N _ _ _ _ V D D) as E.
  assert (Z : paired N (combine_lists (ncol N) f (-1) f) (combine_lists (ncol N) x (-1) y) == 0).
  { unfold paired. apply sum_zero. intros k K. unfold combine_lists at 1. rewrite at_map_seq by exact K. ring. }
  pose proof (cross_zero N (combine_lists (ncol N) x (-1) y) c V ltac:(lra) C) as W.
  unfold combine_lists in W. rewrite at_map_seq in W by exact C. lra.
Qed.

(** Rayleigh: more reluctance, less energy for the same forces. *)
Record harder (N N' : network) : Prop := mk_harder {
  h_order : n_order N' = n_order N;
  h_count : ncol N' = ncol N;
  h_legs : forall c, (c < ncol N)%nat -> at_ (n_columns N) c <= at_ (n_columns N') c;
  h_yokes : forall k, (k < ncol N - 1)%nat -> at_ (n_yokes N) k <= at_ (n_yokes N') k }.

Lemma sum_le : forall n f g, (forall k, (k < n)%nat -> f k <= g k) -> sum n f <= sum n g.
Proof.
  induction n as [|n IH]; intros f g H; cbn [sum]; [lra|].
  pose proof (IH f g (fun k L => H k (Nat.lt_lt_succ_r _ _ L))). pose proof (H n ltac:(lia)). lra.
Qed.

Lemma along_order : forall N N' l p, n_order N' = n_order N -> along N' l p = along N l p.
Proof. intros N N' l p E. unfold along. rewrite E. reflexivity. Qed.

Lemma cross_harder : forall N N' x, valid N -> harder N N' -> cross N x x <= cross N' x x.
Proof.
  intros N N' x V [HO HC HL HY]. unfold cross. rewrite HC.
  assert (sum (ncol N) (fun k => along N (n_columns N) k * (along N x k * along N x k))
    <= sum (ncol N) (fun k => along N' (n_columns N') k * (along N' x k * along N' x k))).
  { apply sum_le. intros k K. rewrite !(along_order N N') by exact HO.
    apply Qmult_le_compat_r; [|nra]. unfold along. apply HL. apply (order_range N k V). exact K. }
  assert (sum (ncol N - 1) (fun k => at_ (n_yokes N) k * (sum (S k) (along N x) * sum (S k) (along N x)))
    <= sum (ncol N - 1) (fun k => at_ (n_yokes N') k * (sum (S k) (along N' x) * sum (S k) (along N' x)))).
  { apply sum_le. intros k K.
    assert (E : sum (S k) (along N' x) == sum (S k) (along N x)).
    { apply sum_ext. intros. rewrite (along_order N N' _ _ HO). reflexivity. }
    rewrite E. apply Qmult_le_compat_r; [exact (HY k K)|]. set (s := sum (S k) (along N x)). nra. }
  lra.
Qed.

(** Forces of one network, a conserved flux of another one on the same columns. *)
Lemma paired_cross_conserved : forall N N' mmf flux mmf' flux', valid N -> harder N N' -> valid N' ->
  laws N mmf flux -> laws N' mmf' flux' -> paired N mmf flux' == cross N flux flux'.
Proof.
  intros N N' mmf flux mmf' flux' V [HO HC HL HY] V' (_ & A1 & A2) (_ & B1 & B2).
  rewrite (paired_along N mmf flux' V). unfold cross. pose proof (valid_ncol N V) as L.
  destruct (Nat.eq_dec (ncol N) 1) as [E1|N1].
  - rewrite E1. cbn [sum Nat.sub]. unfold along. rewrite (order_single N V E1). rewrite <- (A1 E1). ring.
  - specialize (A2 ltac:(lia)). specialize (B2 ltac:(lia)).
    replace (ncol N) with (S (ncol N - 1)) at 1 2 by lia.
    apply (tellegen _ _ _ _ _ _ A2). rewrite HC in B2.
    rewrite <- (proj1 B2). apply sum_ext. intros k K. rewrite (along_order N N' _ _ HO). reflexivity.
Qed.

Lemma cross_expand : forall N x y, valid N ->
  cross N (combine_lists (ncol N) x (-1) y) (combine_lists (ncol N) x (-1) y)
  == cross N x x - 2 * cross N x y + cross N y y.
Proof.
  intros N x y V. unfold cross.
  set (R := along N (n_columns N)). set (Y := at_ (n_yokes N)).
  assert (A : forall k, (k < ncol N)%nat -> along N (combine_lists (ncol N) x (-1) y) k
    == along N x k + (-1) * along N y k) by (intros; apply along_combine; assumption).
  assert (S : forall k, (k < ncol N - 1)%nat -> sum (S k) (along N (combine_lists (ncol N) x (-1) y))
    == sum (Datatypes.S k) (along N x) + (-1) * sum (Datatypes.S k) (along N y)).
  { intros k K. rewrite <- (sum_scale (Datatypes.S k) (-1) (along N y)).
    rewrite <- (sum_plus (Datatypes.S k) (along N x) (fun c => (-1) * along N y c)).
    apply sum_ext. intros c C. apply A. lia. }
  assert (E1 : sum (ncol N) (fun k => R k * (along N (combine_lists (ncol N) x (-1) y) k
                                   * along N (combine_lists (ncol N) x (-1) y) k))
    == sum (ncol N) (fun k => (R k * (along N x k * along N x k) + R k * (along N y k * along N y k))
                              + (-2) * (R k * (along N x k * along N y k)))).
  { apply sum_ext. intros k K. rewrite (A k K). ring. }
  assert (E2 : sum (ncol N - 1) (fun k => Y k * (sum (Datatypes.S k) (along N (combine_lists (ncol N) x (-1) y))
                                   * sum (Datatypes.S k) (along N (combine_lists (ncol N) x (-1) y))))
    == sum (ncol N - 1) (fun k =>
         (Y k * (sum (Datatypes.S k) (along N x) * sum (Datatypes.S k) (along N x))
          + Y k * (sum (Datatypes.S k) (along N y) * sum (Datatypes.S k) (along N y)))
         + (-2) * (Y k * (sum (Datatypes.S k) (along N x) * sum (Datatypes.S k) (along N y))))).
  { apply sum_ext. intros k K. rewrite (S k K).
    set (u := sum (Datatypes.S k) (along N x)). set (v := sum (Datatypes.S k) (along N y)). ring. }
  rewrite E1, E2.
  rewrite (sum_plus (ncol N) (fun k => R k * (along N x k * along N x k) + R k * (along N y k * along N y k))
            (fun k => (-2) * (R k * (along N x k * along N y k)))).
  rewrite (sum_plus (ncol N) (fun k => R k * (along N x k * along N x k)) (fun k => R k * (along N y k * along N y k))).
  rewrite (sum_scale (ncol N) (-2) (fun k => R k * (along N x k * along N y k))).
  rewrite (sum_plus (ncol N - 1) (fun k => Y k * (sum (Datatypes.S k) (along N x) * sum (Datatypes.S k) (along N x))
          + Y k * (sum (Datatypes.S k) (along N y) * sum (Datatypes.S k) (along N y)))
            (fun k => (-2) * (Y k * (sum (Datatypes.S k) (along N x) * sum (Datatypes.S k) (along N y))))).
  rewrite (sum_plus (ncol N - 1) (fun k => Y k * (sum (Datatypes.S k) (along N x) * sum (Datatypes.S k) (along N x)))
          (fun k => Y k * (sum (Datatypes.S k) (along N y) * sum (Datatypes.S k) (along N y)))).
  rewrite (sum_scale (ncol N - 1) (-2) (fun k => Y k * (sum (Datatypes.S k) (along N x) * sum (Datatypes.S k) (along N y)))).
  ring.
Qed.

Lemma rayleigh : forall N N' mmf flux flux', valid N -> valid N' -> harder N N' ->
  laws N mmf flux -> laws N' mmf flux' -> paired N mmf flux' <= paired N mmf flux.
Proof.
  intros N N' mmf flux flux' V V' H L L'.
  pose proof (paired_cross_conserved N N' mmf flux mmf flux' V H V' L L') as E1.
  pose proof (paired_cross N mmf flux mmf flux V L L) as E2.
  pose proof (paired_cross N' mmf flux' mmf flux' V' L' L') as E3.
  assert (E4 : paired N' mmf flux' == paired N mmf flux') by (unfold paired; rewrite (h_count _ _ H); reflexivity).
  pose proof (cross_harder N N' flux' V H) as C1.
  pose proof (cross_nonneg N (combine_lists (ncol N) flux (-1) flux') V) as C2.
  rewrite cross_expand in C2 by exact V. lra.
Qed.

(** ** Unit forces *)

Lemma at_unit : forall n k v j, (k < n)%nat -> at_ (unit_force n k v) j = if Nat.eqb j k then v else 0.
Proof.
  intros n k v j K. unfold unit_force. destruct (Nat.eqb_spec j k) as [->|N].
  - apply set_nth_same. rewrite repeat_length. exact K.
  - rewrite set_nth_other by exact N. apply at_repeat.
Qed.

Lemma paired_unit : forall N k v x, (k < ncol N)%nat ->
  paired N (unit_force (ncol N) k v) x == v * at_ x k.
Proof.
  intros N k v x K. unfold paired.
  rewrite (sum_ext (ncol N) _ (fun c => if Nat.eqb c k then v * at_ x c else 0)).
  - rewrite (sum_single (ncol N) k (fun c => v * at_ x c)).
    replace (Nat.ltb k (ncol N)) with true by (symmetry; apply Nat.ltb_lt; exact K). reflexivity.
  - intros c C. rewrite at_unit by exact K. destruct (Nat.eqb c k); lra.
Qed.

Lemma laws_scale : forall N f x a, valid N -> laws N f x ->
  laws N (map (fun k => a * at_ f k) (seq 0 (ncol N))) (map (fun k => a * at_ x k) (seq 0 (ncol N))).
Proof.
  intros N f x a V L.
  assert (Z : laws N (repeat 0 (ncol N)) (repeat 0 (ncol N))).
  { split; [apply repeat_length|]. split.
    - intros _. rewrite !at_repeat. lra.
    - intros _. unfold along. split; [apply sum_zero; intros; rewrite at_repeat; reflexivity|].
      intros k K. rewrite !at_repeat. rewrite sum_zero by (intros; rewrite at_repeat; reflexivity). lra. }
  pose proof (laws_combine N _ _ _ _ a V Z L) as C.
  destruct C as (C0 & C1 & C2). split; [rewrite map_length, seq_length; reflexivity|]. split.
  - intro E. specialize (C1 E). unfold combine_lists in C1. rewrite !at_map_seq in * by lia.
    rewrite !at_repeat in C1. rewrite Qplus_0_l in C1. rewrite Qplus_0_l in C1. exact C1.
  - intro G. eapply circuit_ext; [| | | |exact (C2 G)]; intros k K; try reflexivity;
      unfold along, combine_lists; rewrite !at_map_seq by (apply (order_range N k V); unfold ncol in *; lia);
      rewrite at_repeat; lra.
Qed.

(** The unit response of a column is positive. *)
Lemma response_positive : forall N k x, valid N -> (k < ncol N)%nat ->
  laws N (unit_force (ncol N) k 1) x -> 0 < at_ x k.
Proof.
  intros N k x V K L.
  pose proof (paired_cross N _ _ _ _ V L L) as E. rewrite (paired_unit N k 1 x K) in E.
  pose proof (cross_nonneg N x V) as NN.
  apply Qnot_le_lt. intro NP.
  assert (Z : forall c, (c < ncol N)%nat -> at_ x c == 0) by (intros c C; apply (cross_zero N x c V); [lra | exact C]).
  destruct L as (L0 & L1 & L2).
  destruct (Nat.eq_dec (ncol N) 1) as [E1|N1].
  - specialize (L1 E1). assert (k = O) by lia. subst k. rewrite (Z O) in L1 by lia.
    rewrite at_unit in L1 by lia. cbn [Nat.eqb] in L1. lra.
  - destruct (L2 ltac:(lia)) as (_ & W).
    assert (AZ : forall p, (p < ncol N)%nat -> along N x p == 0).
    { intros p P. unfold along. apply Z. apply (order_range N p V). exact P. }
    assert (W' : forall p, (p < ncol N - 1)%nat -> along N (unit_force (ncol N) k 1) p == along N (unit_force (ncol N) k 1) (S p)).
    { intros p P. specialize (W p P). rewrite (AZ p), (AZ (S p)) in W by lia.
      rewrite sum_zero in W by (intros c C; apply AZ; lia). lra. }
    assert (CONST : forall p, (p < ncol N)%nat -> along N (unit_force (ncol N) k 1) p == along N (unit_force (ncol N) k 1) O).
    { induction p as [|p IH]; intro P; [reflexivity|]. rewrite <- W' by lia. apply IH. lia. }
    destruct (order_position N k V K) as (p & P & EP).
    assert (exists q, (q < ncol N)%nat /\ q <> p) as (q & Q & NQ).
    { destruct (Nat.eq_dec p O) as [->|]; [exists 1%nat; lia | exists O; lia]. }
    pose proof (CONST p P) as CP. rewrite <- (CONST q Q) in CP. unfold along in CP. rewrite EP in CP.
    rewrite !at_unit in CP by exact K. rewrite Nat.eqb_refl in CP.
    destruct (Nat.eqb_spec (nth q (n_order N) O) k) as [EQ|NE]; [|lra].
    apply NQ. apply (order_injective N q p V Q P). congruence.
Qed.

(** ** Series and scaling *)

Lemma circuit_series : forall m leg leg' yoke force flux p g t, (p <= m)%nat ->
  (forall k, (k <= m)%nat -> leg' k == leg k + (if Nat.eqb k p then g else 0)) ->
  (forall k, (k <= m)%nat -> force k == if Nat.eqb k p then 1 else 0) ->
  t * (1 + g * flux p) == 1 ->
  circuit m leg yoke force flux -> circuit m leg' yoke force (fun k => t * flux k).
Proof.
  intros m leg leg' yoke force flux p g t P LG FC T (C1 & C2). split.
  - rewrite sum_scale, C1. lra.
  - intros k K. rewrite sum_scale. specialize (C2 k K). set (s := sum (S k) flux) in *.
    rewrite (LG k), (LG (S k)) by lia. rewrite (FC k), (FC (S k)) in * by lia.
    destruct (Nat.eqb_spec k p) as [->|N1]; destruct (Nat.eqb_spec (S p) p) as [?|?]; try lia.
    + assert (H : leg p * flux p + yoke p * s - leg (S p) * flux (S p) == 1) by lra.
      assert (E : (leg p + g) * (t * flux p) + yoke p * (t * s) - (leg (S p) + 0) * (t * flux (S p))
        == t * (leg p * flux p + yoke p * s - leg (S p) * flux (S p)) + t * (g * flux p)) by ring.
      rewrite E, H. lra.
    + destruct (Nat.eqb_spec (S k) p) as [EQ|N2].
      * assert (H : leg k * flux k + yoke k * s - leg (S k) * flux (S k) == -1) by lra.
        assert (E : (leg k + 0) * (t * flux k) + yoke k * (t * s) - (leg (S k) + g) * (t * flux (S k))
          == t * (leg k * flux k + yoke k * s - leg (S k) * flux (S k)) - t * (g * flux (S k))) by ring.
        rewrite E, H. rewrite EQ. lra.
      * assert (H : leg k * flux k + yoke k * s - leg (S k) * flux (S k) == 0) by lra.
        assert (E : (leg k + 0) * (t * flux k) + yoke k * (t * s) - (leg (S k) + 0) * (t * flux (S k))
          == t * (leg k * flux k + yoke k * s - leg (S k) * flux (S k))) by ring.
        rewrite E, H. lra.
Qed.

Lemma circuit_scaled : forall m leg yoke force flux s, ~ s == 0 ->
  circuit m leg yoke force flux ->
  circuit m (fun k => s * leg k) (fun k => s * yoke k) force (fun k => / s * flux k).
Proof.
  intros m leg yoke force flux s NZ (C1 & C2). split.
  - rewrite sum_scale, C1. lra.
  - intros k K. rewrite sum_scale. rewrite <- (C2 k K). set (a := sum (S k) flux). field. exact NZ.
Qed.

Lemma laws_scaled : forall N N' s f x, valid N -> ~ s == 0 ->
  n_order N' = n_order N -> ncol N' = ncol N ->
  (forall c, (c < ncol N)%nat -> at_ (n_columns N') c == s * at_ (n_columns N) c) ->
  (forall k, (k < ncol N - 1)%nat -> at_ (n_yokes N') k == s * at_ (n_yokes N) k) ->
  laws N f x -> laws N' f (map (fun c => / s * at_ x c) (seq 0 (ncol N))).
Proof.
  intros N N' s f x V NZ HO HC HL HY (A0 & A1 & A2). unfold laws. rewrite HC. split; [|split].
  - rewrite map_length, seq_length. reflexivity.
  - intro E. rewrite at_map_seq by lia. rewrite HL by lia. rewrite <- (A1 E). field. exact NZ.
  - intro L. eapply circuit_ext; [| | | |exact (circuit_scaled _ _ _ _ _ s NZ (A2 L))]; intros k K.
    + rewrite (along_order N N' _ _ HO). unfold along. symmetry. apply HL. apply (order_range N k V). unfold ncol in *. lia.
    + symmetry. apply HY. exact K.
    + rewrite (along_order N N' _ _ HO). reflexivity.
    + rewrite (along_order N N' _ _ HO). unfold along.
      rewrite at_map_seq by (apply (order_range N k V); unfold ncol in *; lia). reflexivity.
Qed.

Lemma laws_series : forall N N' p0 g t x, valid N -> (p0 < ncol N)%nat ->
  n_order N' = n_order N -> ncol N' = ncol N ->
  (forall c, (c < ncol N)%nat -> at_ (n_columns N') c == at_ (n_columns N) c + (if Nat.eqb c p0 then g else 0)) ->
  (forall k, (k < ncol N - 1)%nat -> at_ (n_yokes N') k == at_ (n_yokes N) k) ->
  t * (1 + g * at_ x p0) == 1 ->
  laws N (unit_force (ncol N) p0 1) x ->
  laws N' (unit_force (ncol N) p0 1) (map (fun c => t * at_ x c) (seq 0 (ncol N))).
Proof.
  intros N N' p0 g t x V P HO HC HL HY T (A0 & A1 & A2). unfold laws. rewrite HC. split; [|split].
  - rewrite map_length, seq_length. reflexivity.
  - intro E. assert (p0 = O) by lia. subst p0. specialize (A1 E).
    rewrite at_unit in * by lia. rewrite at_map_seq by lia. rewrite HL by lia. cbn [Nat.eqb] in *.
    assert (EQ : (at_ (n_columns N) 0 + g) * (t * at_ x 0) == t * (at_ (n_columns N) 0 * at_ x 0 + g * at_ x 0)) by ring.
    rewrite EQ, A1. exact T.
  - intro L. destruct (order_position N p0 V P) as (p & PP & EP).
    eapply circuit_ext; [| | | |eapply (circuit_series (ncol N - 1) (along N (n_columns N))
      (fun k => along N (n_columns N) k + (if Nat.eqb k p then g else 0))
      (at_ (n_yokes N)) _ _ p g t); [unfold ncol; lia | intros; reflexivity | | | exact (A2 L)]].
    + intros k K. rewrite (along_order N N' _ _ HO). unfold along.
      rewrite HL by (apply (order_range N k V); unfold ncol in *; lia).
      destruct (Nat.eqb_spec k p) as [->|NE]; [rewrite EP, Nat.eqb_refl; reflexivity|].
      destruct (Nat.eqb_spec (nth k (n_order N) O) p0) as [EQ|]; [|reflexivity].
      exfalso. apply NE. apply (order_injective N k p V); unfold ncol in *; [lia | lia | congruence].
    + intros k K. symmetry. apply HY. exact K.
    + intros k K. rewrite (along_order N N' _ _ HO). reflexivity.
    + intros k K. rewrite (along_order N N' _ _ HO). unfold along.
      rewrite at_map_seq by (apply (order_range N k V); unfold ncol in *; lia). reflexivity.
    + intros k K. unfold along. rewrite at_unit by exact P.
      destruct (Nat.eqb_spec k p) as [->|NE]; [rewrite EP, Nat.eqb_refl; reflexivity|].
      destruct (Nat.eqb_spec (nth k (n_order N) O) p0) as [EQ|]; [|reflexivity].
      exfalso. apply NE. apply (order_injective N k p V); unfold ncol in *; [lia | lia | congruence].
    + unfold along. rewrite EP. exact T.
Qed.

(** ** The constructor *)

Lemma insert_by_permutation : forall key v l, Permutation (insert_by key v l) (v :: l).
Proof.
  intros key v. induction l as [|h t IH]; cbn [insert_by]; [reflexivity|].
  destruct (Qlt_bool (key v) (key h)); [reflexivity|].
  rewrite IH. apply perm_swap.
Qed.

Lemma sort_by_permutation : forall key l, Permutation (sort_by key l) l.
Proof.
  intros key l. unfold sort_by.
  assert (G : forall l acc, Permutation (fold_left (fun acc v => insert_by key v acc) l acc) (acc ++ l)).
  { induction l0 as [|v t IH]; intro acc; cbn [fold_left]; [rewrite app_nil_r; reflexivity|].
    rewrite IH. rewrite (insert_by_permutation key v acc). cbn [app]. apply Permutation_middle. }
  rewrite G. reflexivity.
Qed.

Lemma first_central_range : forall l k, l <> [] -> (first_central k l < k + List.length l)%nat.
Proof.
  induction l as [|c l IH]; intros k NE; [congruence|]. cbn [first_central List.length].
  destruct (c_central c); [lia|]. destruct l as [|d l]; [cbn; lia|].
  pose proof (IH (S k) ltac:(discriminate)). cbn [List.length] in *. lia.
Qed.

Lemma main_column_range : forall K m, main_column K = Ok m -> (m < List.length (k_columns K))%nat.
Proof.
  intros K m H. unfold main_column in H. destruct (k_columns K) as [|c l] eqn:E; [discriminate|].
  injection H as <-. pose proof (first_central_range (c :: l) 0 ltac:(discriminate)). cbn [Nat.add] in *. assumption.
Qed.

Lemma closest_from_spec : forall l k x z best, 
  match closest_from k l x z best with
  | Some (j, d) =>
      (best = Some (j, d) \/ ((k <= j < k + List.length l)%nat /\
         d = Qabs (c_x (nth (j - k) l no_column) - x) + Qabs (c_z (nth (j - k) l no_column) - z))) /\
      (forall i, (i < List.length l)%nat ->
         d <= Qabs (c_x (nth i l no_column) - x) + Qabs (c_z (nth i l no_column) - z)) /\
      (forall j0 d0, best = Some (j0, d0) -> d <= d0)
  | None => l = [] /\ best = None
  end.
Proof.
  induction l as [|c l IH]; intros k x z best; cbn [closest_from].
  - destruct best as [(j & d)|]; [|auto]. split; [left; reflexivity|]. split; [cbn; lia|].
    intros j0 d0 E. injection E as <- <-. apply Qle_refl.
  - set (D := Qabs (c_x c - x) + Qabs (c_z c - z)).
    set (b' := match best with None => Some (k, D) | Some (_, d) => if Qlt_bool D d then Some (k, D) else best end).
    specialize (IH (S k) x z b'). destruct (closest_from (S k) l x z b') as [(j & d)|].
    + destruct IH as (I1 & I2 & I3).
      assert (B : (b' = Some (k, D) /\ forall j0 d0, best = Some (j0, d0) -> D <= d0)
               \/ (b' = best /\ exists j0 d0, best = Some (j0, d0) /\ d0 <= D)).
      { unfold b'. destruct best as [(j0 & d0)|].
        - destruct (Qlt_bool D d0) eqn:E; unfold Qlt_bool in E.
          + left. split; [reflexivity|]. intros j1 d1 EQ. injection EQ as <- <-.
            apply negb_true_iff in E. apply Qnot_lt_le. intro C. apply Qlt_le_weak in C. apply Qle_bool_iff in C. congruence.
          + right. split; [reflexivity|]. exists j0, d0. split; [reflexivity|].
            apply negb_false_iff in E. apply Qle_bool_iff. exact E.
        - left. split; [reflexivity | discriminate]. }
      assert (DD : d <= D).
      { destruct B as [(B1 & _)|(B1 & j0 & d0 & B2 & B3)].
        - apply (I3 k D B1).
        - rewrite B1 in I3. pose proof (I3 j0 d0 B2). eapply Qle_trans; eassumption. }
      split; [|split].
      * destruct I1 as [I1|(I1 & I1')].
        -- destruct B as [(B1 & B2)|(B1 & _)]; [|left; congruence].
           right. rewrite B1 in I1. injection I1 as <- <-. split; [cbn [List.length]; lia|].
           rewrite Nat.sub_diag. reflexivity.
        -- right. split; [cbn [List.length]; lia|].
           replace (j - k)%nat with (S (j - S k)) by lia. exact I1'.
      * intros [|i] LI; [exact DD|]. cbn [nth]. apply I2. cbn [List.length] in LI. lia.
      * intros j0 d0 EQ. destruct B as [(_ & B2)|(B1 & j1 & d1 & B2 & B3)].
        -- eapply Qle_trans; [exact DD | exact (B2 j0 d0 EQ)].
        -- rewrite B1 in I3. exact (I3 j0 d0 EQ).
    + destruct IH as (_ & I2). unfold b' in I2. destruct best as [(? & ?)|]; [|discriminate].
      destruct (Qlt_bool D q); discriminate.
Qed.

Lemma closest_column_range : forall K x z, k_columns K <> [] ->
  (closest_column K x z < List.length (k_columns K))%nat.
Proof.
  intros K x z NE. unfold closest_column. pose proof (closest_from_spec (k_columns K) 0 x z None) as S.
  destruct (closest_from 0 (k_columns K) x z None) as [(j & d)|]; [|destruct S; congruence].
  destruct S as ([S|(S & _)] & _); [discriminate|lia].
Qed.

(** The reluctance the gaps add to a column. *)
Fixpoint gap_total (K : core) (c : nat) (gaps : list (Q * Q)) (reluctances : list Q) : Q :=
  match gaps, reluctances with
  | (x, z) :: gaps', r :: rs =>
      (if Nat.eqb (closest_column K x z) c then r else 0) + gap_total K c gaps' rs
  | _, _ => 0
  end.

Lemma add_gaps_length : forall K gaps legs rs, List.length (add_gaps K legs gaps rs) = List.length legs.
Proof.
  intros K. induction gaps as [|(x, z) gaps IH]; intros legs [|r rs]; cbn [add_gaps]; try reflexivity.
  rewrite IH. apply set_nth_length.
Qed.

Lemma add_gaps_at : forall K gaps legs rs c, List.length legs = List.length (k_columns K) ->
  (c < List.length legs)%nat ->
  at_ (add_gaps K legs gaps rs) c == at_ legs c + gap_total K c gaps rs.
Proof.
  intros K. induction gaps as [|(x, z) gaps IH]; intros legs [|r rs] c L C; cbn [add_gaps gap_total]; try lra.
  rewrite IH by (rewrite set_nth_length; assumption).
  destruct (Nat.eqb_spec (closest_column K x z) c) as [E|N].
  - rewrite E. rewrite set_nth_same by exact C. lra.
  - rewrite set_nth_other by congruence. lra.
Qed.

Lemma gap_total_nonneg : forall K c gaps rs, Forall (fun r => 0 <= r) rs -> 0 <= gap_total K c gaps rs.
Proof.
  intros K c. induction gaps as [|(x, z) gaps IH]; intros [|r rs] F; cbn [gap_total]; try lra.
  inversion F; subst. pose proof (IH rs H2). destruct (Nat.eqb _ _); lra.
Qed.

Lemma gap_total_mono : forall K c gaps rs rs', Forall2 Qle rs rs' ->
  gap_total K c gaps rs <= gap_total K c gaps rs'.
Proof.
  intros K c. induction gaps as [|(x, z) gaps IH]; intros rs rs' F; [destruct F; cbn [gap_total]; lra|].
  destruct F as [|r r' rs rs' R F]; cbn [gap_total]; [lra|].
  pose proof (IH rs rs' F). destruct (Nat.eqb _ _); lra.
Qed.

Definition order_of (K : core) : list nat :=
  sort_by (fun k => c_x (column_at (k_columns K) k)) (seq 0 (List.length (k_columns K))).
Definition raw_legs (K : core) : list Q := map (fun c => c_height c / c_area c) (k_columns K).
Definition raw_yokes (K : core) (main : nat) (wh : Q) : list Q :=
  map (fun k => 2 * Qabs (c_x (column_at (k_columns K) (nth (S k) (order_of K) O))
                          - c_x (column_at (k_columns K) (nth k (order_of K) O)))
                / ((k_height K - wh) / 2 * c_depth (column_at (k_columns K) main)))
      (seq 0 (List.length (k_columns K) - 1)).
Definition raw (K : core) (main : nat) (wh : Q) : network :=
  mk_network (raw_legs K) (raw_yokes K main wh) (order_of K) main.

Lemma calibrated_inv : forall K main u legs yokes, calibrated K main u = Ok (legs, yokes) ->
  exists wh f, positive_areas (k_columns K) = true /\ k_window_height K = Some wh /\
    0 < (k_height K - wh) / 2 * c_depth (column_at (k_columns K) main) /\
    column_fluxes (raw K main wh) (unit_force (List.length (k_columns K)) main 1) = Ok f /\
    legs = map (fun r => u / (1 / at_ f main) * r) (raw_legs K) /\
    yokes = map (fun y => y * (u / (1 / at_ f main))) (raw_yokes K main wh).
Proof.
  intros K main u legs yokes H. unfold calibrated in H.
  destruct (positive_areas (k_columns K)) eqn:PA; cbn [negb] in H; [|discriminate].
  destruct (k_windows K); [discriminate|]. destruct (k_window_height K) as [wh|] eqn:WH; [|discriminate].
  destruct (Qle_bool _ 0) eqn:YA in H; [discriminate|].
  fold (order_of K) in H. fold (raw_legs K) in H. fold (raw_yokes K main wh) in H. fold (raw K main wh) in H.
  destruct (column_fluxes (raw K main wh) (unit_force (List.length (k_columns K)) main 1)) as [f| | |] eqn:CF;
    try discriminate.
  cbn [bind] in H. injection H as <- <-. exists wh, f. split; [reflexivity|]. split; [reflexivity|].
  split; [|split; [exact CF | split; reflexivity]].
  apply Qnot_le_lt. intro C. apply Qle_bool_iff in C. congruence.
Qed.

Lemma raw_valid : forall K main wh, k_columns K <> [] ->
  Forall (fun c => 0 < c_height c) (k_columns K) -> positive_areas (k_columns K) = true ->
  0 < (k_height K - wh) / 2 * c_depth (column_at (k_columns K) main) -> valid (raw K main wh).
Proof.
  intros K main wh NE HP PA YP. constructor; cbn [raw n_columns n_yokes n_order].
  - unfold raw_legs. destruct (k_columns K); [congruence|discriminate].
  - intros r I. unfold raw_legs in I. apply in_map_iff in I. destruct I as (c & <- & IC).
    unfold positive_areas in PA. rewrite forallb_forall in PA. specialize (PA c IC).
    rewrite Forall_forall in HP. specialize (HP c IC).
    assert (0 < c_area c).
    { apply Qnot_le_lt. intro C. apply Qle_bool_iff in C. rewrite C in PA. discriminate. }
    apply Qlt_shift_div_l; lra.
  - unfold raw_yokes, raw_legs. rewrite !map_length, seq_length. split; [reflexivity|].
    intros y I. apply in_map_iff in I. destruct I as (k & <- & _).
    set (a := _ - _) at 1. pose proof (Qabs_nonneg a). set (b := (k_height K - wh) / 2 * _) in *. clearbody b.
    apply Qle_shift_div_l; lra.
  - unfold raw_legs. rewrite map_length. apply sort_by_permutation.
Qed.

Lemma at_map : forall (f : Q -> Q) l k, (k < List.length l)%nat -> at_ (map f l) k = f (at_ l k).
Proof.
  intros f l k L. unfold at_. rewrite (nth_indep _ 0 (f 0)) by (rewrite map_length; exact L). apply map_nth.
Qed.

(** What the constructor builds, and the network before the gaps are added. *)
Lemma construct_inv : forall K u gaps N, construct K (Some u) gaps = Ok N ->
  Forall (fun c => 0 < c_height c) (k_columns K) ->
  0 < u /\ exists main legs yokes x,
    main_column K = Ok main /\
    let N0 := mk_network legs yokes (order_of K) main in
    valid N0 /\ ncol N0 = List.length (k_columns K) /\
    laws N0 (unit_force (ncol N0) main 1) x /\ at_ x main == 1 / u /\
    List.length (k_gaps K) = List.length gaps /\
    N = mk_network (add_gaps K legs (k_gaps K) gaps) yokes (order_of K) main.
Proof.
  intros K u gaps N H HP. unfold construct in H.
  destruct (Qle_bool u 0) eqn:UP; [discriminate|].
  assert (U : 0 < u). { apply Qnot_le_lt. intro C. apply Qle_bool_iff in C. congruence. }
  split; [exact U|].
  destruct (main_column K) as [main| | |] eqn:MC; try discriminate. cbn [bind] in H.
  pose proof (main_column_range K main MC) as MR.
  assert (NE : k_columns K <> []) by (intro E; rewrite E in MR; cbn in MR; lia).
  destruct (Nat.eqb_spec (List.length (k_columns K)) 1) as [L1|L1].
  - cbn [bind fst snd] in H.
    destruct (Nat.eqb_spec (List.length (k_gaps K)) (List.length gaps)) as [LG|LG]; cbn [negb] in H; [|discriminate].
    injection H as <-. exists main, [u], [], [1 / u]. split; [reflexivity|]. cbv zeta.
    assert (MZ : main = O) by lia. subst main.
    split; [|split; [|split; [|split; [|split; [exact LG|reflexivity]]]]].
    + constructor; cbn [n_columns n_yokes n_order].
      * discriminate.
      * intros r [<-|[]]. exact U.
      * split; [reflexivity | intros y []].
      * unfold order_of. rewrite L1. apply sort_by_permutation.
    + unfold ncol. cbn [n_columns List.length]. congruence.
    + split; [reflexivity|]. split.
      * intros _. unfold ncol. cbn [n_columns List.length]. rewrite at_unit by lia. cbn [Nat.eqb].
        change (u * (1 / u) == 1). field. lra.
      * unfold ncol. cbn [n_columns List.length]. lia.
    + reflexivity.
  - destruct (calibrated K main u) as [(legs, yokes)| | |] eqn:CB; try discriminate.
    cbn [bind fst snd] in H.
    destruct (Nat.eqb_spec (List.length (k_gaps K)) (List.length gaps)) as [LG|LG]; cbn [negb] in H; [|discriminate].
    injection H as <-. apply calibrated_inv in CB.
    destruct CB as (wh & f & PA & WH & YP & CF & -> & ->).
    pose proof (raw_valid K main wh NE HP PA YP) as V.
    assert (NC : ncol (raw K main wh) = List.length (k_columns K)).
    { unfold ncol, raw, raw_legs. cbn [n_columns]. apply map_length. }
    rewrite <- NC in CF.
    pose proof (fluxes_obey _ _ _ V CF) as LW.
    pose proof (response_positive (raw K main wh) main f V ltac:(lia) LW) as FP.
    set (s := u / (1 / at_ f main)) in *.
    assert (SV : s == u * at_ f main) by (unfold s; field; lra).
    assert (SP : 0 < s) by (rewrite SV; nra).
    exists main, (map (fun r => s * r) (raw_legs K)), (map (fun y => y * s) (raw_yokes K main wh)),
      (map (fun c => / s * at_ f c) (seq 0 (ncol (raw K main wh)))).
    split; [reflexivity|]. cbv zeta.
    set (N0 := mk_network (map (fun r => s * r) (raw_legs K)) (map (fun y => y * s) (raw_yokes K main wh)) (order_of K) main).
    assert (NC0 : ncol N0 = List.length (k_columns K)).
    { unfold ncol, N0, raw_legs. cbn [n_columns]. rewrite !map_length. reflexivity. }
    split; [|split; [exact NC0|split; [|split; [|split; [exact LG|reflexivity]]]]].
    + constructor; cbn [N0 n_columns n_yokes n_order].
      * unfold raw_legs. destruct (k_columns K); [congruence|discriminate].
      * intros r I. apply in_map_iff in I. destruct I as (r0 & <- & IR).
        pose proof (v_legs _ V r0 IR). nra.
      * destruct (v_yokes _ V) as (YL & YN). cbn [raw n_columns n_yokes] in YL, YN.
        rewrite !map_length. split; [exact YL|]. intros y I. apply in_map_iff in I. destruct I as (y0 & <- & IY).
        pose proof (YN y0 IY). nra.
      * rewrite map_length. exact (v_order _ V).
    + rewrite NC0, <- NC. apply (laws_scaled (raw K main wh) N0 s); auto; try lra; try congruence.
      * intros c C. unfold N0. cbn [n_columns]. rewrite at_map; [reflexivity|].
        exact C.
      * intros k KK. unfold N0. cbn [n_yokes]. rewrite at_map; [cbn [raw n_yokes]; lra|].
        destruct (v_yokes _ V) as (YL & _). cbn [raw n_columns n_yokes] in YL. rewrite YL. exact KK.
    + rewrite at_map_seq by (rewrite NC; exact MR). rewrite SV. field. split; lra.
Qed.

Lemma construct_valid : forall K u gaps N, construct K (Some u) gaps = Ok N ->
  Forall (fun c => 0 < c_height c) (k_columns K) -> Forall (fun r => 0 <= r) gaps ->
  valid N /\ ncol N = List.length (k_columns K) /\ (n_main N < ncol N)%nat /\ main_column K = Ok (n_main N).
Proof.
  intros K u gaps N H HP GP.
  destruct (construct_inv K u gaps N H HP) as (U & main & legs & yokes & x & MC & V & NC & LW & XM & LG & ->).
  unfold ncol in *. cbn [n_columns n_main] in *.
  pose proof (main_column_range K main MC) as MR.
  split; [|split; [rewrite add_gaps_length; exact NC|split; [rewrite add_gaps_length, NC; exact MR|exact MC]]].
  constructor; cbn [n_columns n_yokes n_order].
  - intro E. apply (f_equal (@List.length Q)) in E. rewrite add_gaps_length in E. cbn in E. lia.
  - intros r I. destruct (In_nth _ _ 0 I) as (k & KL & <-). rewrite add_gaps_length in KL.
    change (nth k (add_gaps K legs (k_gaps K) gaps) 0) with (at_ (add_gaps K legs (k_gaps K) gaps) k).
    rewrite add_gaps_at by assumption.
    pose proof (gap_total_nonneg K k (k_gaps K) gaps GP).
    pose proof (v_legs _ V (at_ legs k) (at_In legs k KL)). lra.
  - rewrite add_gaps_length. exact (v_yokes _ V).
  - rewrite add_gaps_length. exact (v_order _ V).
Qed.
