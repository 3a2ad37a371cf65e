(** Lemmas about the linear solver of the thermal network and about networks of
    positive conductances. *)
From Coq Require Import ZArith QArith Qabs List String Bool Lia Lra Lqa.
From Verif Require Import Base QAux StrMap NetworkModel NetworkProofs ThermalModel.
Import ListNotations.
Open Scope Q_scope.

(** ** The solver *)

Lemma nth_map_seq : forall (X : Type) (f : nat -> X) n k d, (k < n)%nat -> nth k (map f (seq 0 n)) d = f k.
Proof.
  intros X f n k d L. rewrite (nth_indep _ d (f 0%nat)) by (rewrite map_length, seq_length; exact L).
  rewrite map_nth, seq_nth by exact L. reflexivity.
Qed.

Lemma stored_at : forall n A r c, (r < n)%nat -> (c < n)%nat -> stored n A r c == A r c.
Proof.
  intros n A r c R C. unfold stored. rewrite nth_map_seq by exact R. rewrite nth_map_seq by exact C.
  apply Qred_correct.
Qed.

Lemma stored_vector_at : forall n b r, (r < n)%nat -> stored_vector n b r == b r.
Proof. intros n b r R. unfold stored_vector. rewrite nth_map_seq by exact R. apply Qred_correct. Qed.

Lemma product_ext : forall n A B x y r, (forall c, (c < n)%nat -> A r c == B r c) ->
  (forall c, (c < n)%nat -> x c == y c) -> product n A x r == product n B y r.
Proof. intros n A B x y r H K. unfold product. apply sum_ext. intros c C. rewrite H, K by exact C. reflexivity. Qed.

Lemma solves_ext : forall n A B b d x, (forall r c, (r < n)%nat -> (c < n)%nat -> A r c == B r c) ->
  (forall r, (r < n)%nat -> b r == d r) -> (solves n A b x <-> solves n B d x).
Proof.
  intros n A B b d x H K. unfold solves. split; intros S r R; specialize (S r R).
  - rewrite <- (K r R), <- S. apply product_ext; [intros; symmetry; apply H; auto | reflexivity].
  - rewrite (K r R), <- S. apply product_ext; [intros; apply H; auto | reflexivity].
Qed.

Lemma reduce_spec : forall n count p A b A' b', (p + count = n)%nat -> lower_zero n p A -> diagonal p A ->
  reduce count p n A b = Some (A', b') ->
  lower_zero n n A' /\ diagonal n A' /\ forall x, solves n A' b' x <-> solves n A b x.
Proof.
  intros n. induction count as [|count IH]; intros p A b A' b' E LZ DG H; cbn [reduce] in H.
  - injection H as <- <-. assert (p = n) by lia. subst p. split; [exact LZ|]. split; [exact DG|]. reflexivity.
  - set (best := best_row n p A) in *. set (A1 := swap p best A) in *. set (b1 := swap p best b) in *.
    assert (P : (p < n)%nat) by lia.
    pose proof (best_row_range n p A P) as BR. fold best in BR.
    destruct (Qlt_bool (Qabs (A1 p p)) pivot_threshold) eqn:T; [discriminate|].
    assert (NZ : ~ A1 p p == 0).
    { intro Z. qb. rewrite Z in T. change (Qabs 0) with 0 in T. unfold pivot_threshold in T. lra. }
    assert (LZ1 : lower_zero n p A1) by (apply swap_lower_zero; auto).
    pose proof (eliminate_lower_zero n p A1 P NZ LZ1) as LZ2.
    apply IH in H; [|lia| |].
    + destruct H as (L' & D' & S'). split; [exact L'|]. split; [exact D'|]. intro x.
      rewrite S'. rewrite (solves_ext n _ (eliminate_matrix p A1) _ (eliminate_vector p A1 b1) x).
      * rewrite eliminate_solves by assumption. apply swap_solves; lia.
      * intros. apply stored_at; assumption.
      * intros. apply stored_vector_at; assumption.
    + intros r c C CR R. rewrite stored_at by lia. apply LZ2; assumption.
    + intros r R. rewrite stored_at by lia. unfold eliminate_matrix.
      destruct (Nat.ltb_spec p r); [lia|]. cbn [andb].
      destruct (Nat.eq_dec r p) as [->|N]; [exact NZ|]. unfold A1, swap.
      destruct (Nat.eqb_spec r p); [lia|]. destruct (Nat.eqb_spec r best); [lia|]. apply DG. lia.
Qed.

(** A triangular system has at most one solution. *)
Lemma triangular_unique : forall n A x y, lower_zero n n A -> diagonal n A ->
  (forall r, (r < n)%nat -> product n A x r == product n A y r) ->
  forall r, (r < n)%nat -> x r == y r.
Proof.
  intros n A x y LZ DG H.
  assert (G : forall k r, (n - k <= r)%nat -> (r < n)%nat -> x r == y r).
  { induction k as [|k IH]; intros r L R; [lia|].
    destruct (Nat.le_gt_cases (n - k) r) as [Q|Q]; [apply IH; lia|].
    specialize (H r R). unfold product in H.
    assert (E : forall z, sum n (fun c => A r c * z c)
      == sum n (fun c => if Nat.ltb r c then A r c * z c else 0) + A r r * z r).
    { intro z. rewrite <- (sum_update n _ r (A r r * z r) R). apply sum_ext. intros c C.
      destruct (Nat.ltb_spec r c); destruct (Nat.eqb_spec c r) as [->|]; try lia; try lra.
      rewrite (LZ r c) by lia. lra. }
    rewrite (E x), (E y) in H.
    rewrite (sum_ext n (fun c => if Nat.ltb r c then A r c * x c else 0)
                       (fun c => if Nat.ltb r c then A r c * y c else 0)) in H.
    - apply (Qmult_inj_l _ _ (A r r)); [apply DG; exact R|]. lra.
    - intros c C. destruct (Nat.ltb_spec r c); [|reflexivity]. rewrite (IH c) by lia. reflexivity. }
  intros r R. apply (G n r); lia.
Qed.

Lemma matrix_solve_length : forall n A b x, matrix_solve n A b = Some x -> List.length x = n.
Proof.
  intros n A b x H. unfold matrix_solve in H. destruct n as [|m] eqn:EN; [discriminate|]. rewrite <- EN in *. clear EN.
  destruct (reduce n 0 n (stored n A) (stored_vector n b)) as [[A' b']|]; [|discriminate].
  injection H as <-. rewrite map_length, seq_length. reflexivity.
Qed.

Theorem matrix_solve_spec : forall n A b x, matrix_solve n A b = Some x ->
  solves n A b (at_ x) /\ forall y, solves n A b y -> forall r, (r < n)%nat -> y r == at_ x r.
Proof.
  intros n A b x H. unfold matrix_solve in H. destruct n as [|m] eqn:EN; [discriminate|]. rewrite <- EN in *. clear EN.
  destruct (reduce n 0 n (stored n A) (stored_vector n b)) as [[A' b']|] eqn:E; [|discriminate].
  apply reduce_spec in E; [| lia | intros r c C; lia | intros r R; lia].
  destruct E as (LZ & DG & SO).
  assert (EQ : forall y, solves n A' b' y <-> solves n A b y).
  { intro y. rewrite SO. apply solves_ext; intros; [apply stored_at | apply stored_vector_at]; assumption. }
  set (z := back_substitute n n A' b' (fun _ => 0)) in *.
  assert (Z : solves n A' b' z).
  { intros r R. apply back_spec; auto; intros; lia. }
  assert (X : forall r, (r < n)%nat -> at_ x r == z r).
  { intros r R. injection H as <-. unfold at_. rewrite (nth_map_seq _ (fun r => Qred (z r)) n r 0 R). apply Qred_correct. }
  split.
  - apply EQ. intros r R. rewrite <- (Z r R). apply product_ext; [reflexivity | exact X].
  - intros y Y r R. rewrite (X r R). apply EQ in Y.
    apply (triangular_unique n A' y z LZ DG); [|exact R]. intros k K. rewrite (Y k K), (Z k K). reflexivity.
Qed.

(** ** Heat in a network *)

(** The heat an element carries from its first node to its second. *)
Definition heat (e : element) (t : vector) : Q := conductance e * (t (e_from e) - t (e_to e)).
(** The heat that leaves node [r] through an element. *)
Definition leaving (t : vector) (r : nat) (e : element) : Q :=
  (if Nat.eqb r (e_from e) then heat e t else 0) - (if Nat.eqb r (e_to e) then heat e t else 0).
Definition heat_leaving (es : list element) (t : vector) (r : nat) : Q := Qsum (map (leaving t r) es).

Lemma conductance_pos : forall e, 0 < conductance e.
Proof.
  intro e. unfold conductance. pose proof (cmax_ge_r (e_resistance e) (1 # 1000000000)) as H.
  unfold Qdiv. rewrite Qmult_1_l. apply Qinv_lt_0_compat. lra.
Qed.

Lemma bump_product : forall n A i j v x r, (j < n)%nat ->
  product n (bump A i j v) x r == product n A x r + (if Nat.eqb r i then v * x j else 0).
Proof.
  intros n A i j v x r J. unfold product, bump. destruct (Nat.eqb_spec r i) as [->|N]; cbn [andb].
  - rewrite <- (sum_update n _ j (v * x j) J). apply sum_ext. intros c C.
    destruct (Nat.eqb_spec c j) as [->|]; lra.
  - rewrite Qplus_0_r. reflexivity.
Qed.

Lemma assembled_product : forall n es x r, forallb (in_range n) es = true ->
  product n (assembled es) x r == heat_leaving es x r.
Proof.
  intros n es x r. unfold assembled, heat_leaving.
  assert (G : forall es A, forallb (in_range n) es = true ->
    product n (fold_left stamp es A) x r == product n A x r + Qsum (map (leaving x r) es)).
  { clear es. induction es as [|e es IH]; intros A F; cbn [fold_left map Qsum]; [lra|].
    cbn [forallb] in F. apply andb_true_iff in F. destruct F as (R & F).
    rewrite IH by exact F. unfold in_range in R. apply andb_true_iff in R. destruct R as (R1 & R2).
    apply Nat.ltb_lt in R1, R2.
    unfold stamp. rewrite !bump_product by assumption. unfold leaving, heat.
    generalize (conductance e). intro g.
    destruct (Nat.eqb_spec r (e_from e)), (Nat.eqb_spec r (e_to e)); ring. }
  intro F. rewrite G by exact F. unfold product. rewrite (sum_zero n) by (intros; ring). ring.
Qed.

(** ** Networks with imposed temperatures *)

(** Boundary nodes keep the imposed temperature, the others pass on their power. *)
Definition balance (n : nat) (es : list element) (fixed : nat -> bool) (value power t : vector) : Prop :=
  forall r, (r < n)%nat -> if fixed r then t r == value r else heat_leaving es t r == power r.
(** The only balance with nothing imposed and no power is zero. *)
Definition rigid (n : nat) (es : list element) (fixed : nat -> bool) : Prop :=
  forall z, balance n es fixed (fun _ => 0) (fun _ => 0) z -> forall r, (r < n)%nat -> z r == 0.

Lemma leaving_linear : forall a x b y r e,
  leaving (fun k => a * x k + b * y k) r e == a * leaving x r e + b * leaving y r e.
Proof. intros. unfold leaving, heat. destruct (Nat.eqb r (e_from e)), (Nat.eqb r (e_to e)); ring. Qed.

Lemma heat_linear : forall es a x b y r,
  heat_leaving es (fun k => a * x k + b * y k) r == a * heat_leaving es x r + b * heat_leaving es y r.
Proof.
  intros es a x b y r. unfold heat_leaving. induction es as [|e es IH]; cbn [map Qsum]; [lra|].
  rewrite IH, leaving_linear. ring.
Qed.

Lemma heat_ext : forall n es x y r, forallb (in_range n) es = true ->
  (forall k, (k < n)%nat -> x k == y k) -> heat_leaving es x r == heat_leaving es y r.
Proof.
  intros n es x y r F H. rewrite <- !(assembled_product n) by exact F.
  apply product_ext; [reflexivity | exact H].
Qed.

Lemma heat_constant : forall es v r, heat_leaving es (fun _ => v) r == 0.
Proof.
  intros es v r. unfold heat_leaving. induction es as [|e es IH]; cbn [map Qsum]; [reflexivity|].
  rewrite IH. unfold leaving, heat. destruct (Nat.eqb r (e_from e)), (Nat.eqb r (e_to e)); ring.
Qed.

Lemma balance_linear : forall n es fixed a v p x b w q y,
  balance n es fixed v p x -> balance n es fixed w q y ->
  balance n es fixed (fun r => a * v r + b * w r) (fun r => a * p r + b * q r) (fun r => a * x r + b * y r).
Proof.
  intros n es fixed a v p x b w q y X Y r R. specialize (X r R). specialize (Y r R).
  destruct (fixed r); [rewrite X, Y | rewrite heat_linear, X, Y]; reflexivity.
Qed.

Lemma balance_ext : forall n es fixed v p x w q, balance n es fixed v p x ->
  (forall r, (r < n)%nat -> v r == w r) -> (forall r, (r < n)%nat -> p r == q r) -> balance n es fixed w q x.
Proof.
  intros n es fixed v p x w q X V P r R. specialize (X r R).
  destruct (fixed r); [rewrite X; apply V | rewrite X; apply P]; exact R.
Qed.

Lemma balance_unique : forall n es fixed v p x y, rigid n es fixed ->
  balance n es fixed v p x -> balance n es fixed v p y -> forall r, (r < n)%nat -> x r == y r.
Proof.
  intros n es fixed v p x y RG X Y r R.
  assert (Z : 1 * x r + -(1) * y r == 0).
  { apply (RG (fun r => 1 * x r + -(1) * y r)); [|exact R].
    apply (balance_ext _ _ _ (fun r => 1 * v r + -(1) * v r) (fun r => 1 * p r + -(1) * p r));
      [apply balance_linear; assumption | intros; ring | intros; ring]. }
  lra.
Qed.

Lemma least : forall n (f : vector), (0 < n)%nat -> exists k, (k < n)%nat /\ forall r, (r < n)%nat -> f k <= f r.
Proof.
  induction n as [|n IH]; intros f L; [lia|]. destruct (Nat.eq_dec n 0) as [->|N].
  - exists 0%nat. split; [lia|]. intros r R. assert (r = 0)%nat by lia. subst r. lra.
  - destruct (IH f ltac:(lia)) as (k & K & M). destruct (Qlt_le_dec (f n) (f k)) as [Q|Q].
    + exists n. split; [lia|]. intros r R. destruct (Nat.eq_dec r n) as [->|]; [lra|].
      specialize (M r ltac:(lia)). lra.
    + exists k. split; [lia|]. intros r R. destruct (Nat.eq_dec r n) as [->|]; [lra|]. apply M. lia.
Qed.

Lemma Qsum_terms_zero : forall l, (forall x, In x l -> x <= 0) -> 0 <= Qsum l -> forall x, In x l -> x == 0.
Proof.
  induction l as [|a l IH]; intros N S x I; [contradiction|]. cbn [Qsum] in S.
  assert (NL : Qsum l <= 0).
  { clear - N. induction l as [|b l IH]; cbn [Qsum]; [lra|].
    pose proof (N b ltac:(right; left; reflexivity)).
    assert (Qsum l <= 0) by (apply IH; intros y [->|Y]; apply N; [left | right; right]; auto). lra. }
  pose proof (N a ltac:(left; reflexivity)). destruct I as [->|I]; [lra|].
  apply IH; [intros; apply N; right; assumption | lra | exact I].
Qed.

(** Minimum principle: with no power removed from a free node, no node is colder
    than every boundary node. *)
Lemma minimum_principle : forall n es fixed v p t m, forallb (in_range n) es = true -> rigid n es fixed ->
  balance n es fixed v p t -> (forall r, (r < n)%nat -> fixed r = false -> 0 <= p r) ->
  (forall r, (r < n)%nat -> fixed r = true -> m <= v r) ->
  forall r, (r < n)%nat -> m <= t r.
Proof.
  intros n es fixed v p t m F RG B P V r R.
  destruct (least n t ltac:(lia)) as (k & K & L).
  destruct (Qlt_le_dec (t k) m) as [Q|Q]; [exfalso | specialize (L r R); lra].
  (* every node as cold as [k] is free, and so are all its neighbours as cold *)
  assert (FR : forall s, (s < n)%nat -> t s == t k -> fixed s = false).
  { intros s S E. destruct (fixed s) eqn:X; [|reflexivity]. exfalso.
    specialize (B s S). rewrite X in B. specialize (V s S X). lra. }
  assert (RNG : forall e, In e es -> (e_from e < n)%nat /\ (e_to e < n)%nat).
  { intros e I. rewrite forallb_forall in F. specialize (F e I). unfold in_range in F.
    apply andb_true_iff in F. rewrite !Nat.ltb_lt in F. exact F. }
  assert (T0 : forall s, (s < n)%nat -> t s == t k -> forall e, In e es -> leaving t s e == 0).
  { intros s S E e I. pose proof (B s S) as BS. rewrite (FR s S E) in BS. unfold heat_leaving in BS.
    apply (Qsum_terms_zero (map (leaving t s) es)).
    - intros x X. apply in_map_iff in X. destruct X as (d & <- & D). destruct (RNG d D) as (D1 & D2).
      unfold leaving, heat. pose proof (conductance_pos d) as G.
      pose proof (L _ D1) as L1. pose proof (L _ D2) as L2.
      destruct (Nat.eqb_spec s (e_from d)) as [E1|]; destruct (Nat.eqb_spec s (e_to d)) as [E2|]; try rewrite E1 in E; try rewrite E2 in E; try lra.
      + assert (0 <= conductance d * (t (e_to d) - t (e_from d))) by (apply Qmult_le_0_compat; lra). lra.
      + assert (0 <= conductance d * (t (e_from d) - t (e_to d))) by (apply Qmult_le_0_compat; lra). lra.
    - rewrite BS. apply P; [exact S | apply FR; assumption].
    - apply in_map. exact I. }
  assert (NB : forall e, In e es -> t (e_from e) == t k \/ t (e_to e) == t k -> t (e_from e) == t (e_to e)).
  { intros e I H. destruct (RNG e I) as (D1 & D2). pose proof (conductance_pos e) as G.
    assert (Z : conductance e * (t (e_from e) - t (e_to e)) == 0).
    { destruct (Nat.eq_dec (e_from e) (e_to e)) as [->|NE]; [ring|].
      destruct H as [H|H].
      - pose proof (T0 _ D1 H e I) as Z. unfold leaving, heat in Z.
        rewrite Nat.eqb_refl in Z. destruct (Nat.eqb_spec (e_from e) (e_to e)); [contradiction|]. lra.
      - pose proof (T0 _ D2 H e I) as Z. unfold leaving, heat in Z.
        rewrite Nat.eqb_refl in Z. destruct (Nat.eqb_spec (e_to e) (e_from e)); [congruence|]. lra. }
    apply Qmult_integral in Z. destruct Z; lra. }
  set (z := fun s => if Qeq_bool (t s) (t k) then 1 else 0).
  assert (ZB : balance n es fixed (fun _ => 0) (fun _ => 0) z).
  { intros s S. destruct (fixed s) eqn:X.
    - unfold z. destruct (Qeq_bool (t s) (t k)) eqn:E; [|reflexivity].
      apply Qeq_bool_iff in E. rewrite (FR s S E) in X. discriminate.
    - unfold heat_leaving.
      assert (A : forall d, In d es -> leaving z s d == 0).
      { intros d D. unfold leaving, heat.
        assert (ZE : z (e_from d) - z (e_to d) == 0).
        { unfold z. destruct (Qeq_bool (t (e_from d)) (t k)) eqn:E1.
          - apply Qeq_bool_iff in E1. pose proof (NB d D (or_introl E1)) as E2.
            replace (Qeq_bool (t (e_to d)) (t k)) with true; [lra|].
            symmetry. apply Qeq_bool_iff. rewrite <- E2. exact E1.
          - destruct (Qeq_bool (t (e_to d)) (t k)) eqn:E2; [|lra]. apply Qeq_bool_iff in E2.
            pose proof (NB d D (or_intror E2)) as E3. apply Qeq_bool_neq in E1. exfalso. apply E1. lra. }
        assert (HZ : conductance d * (z (e_from d) - z (e_to d)) == 0) by (setoid_rewrite ZE; ring).
        destruct (Nat.eqb s (e_from d)), (Nat.eqb s (e_to d)); lra. }
      clear - A. induction es as [|d es' IH]; cbn [map Qsum]; [reflexivity|].
      rewrite IH by (intros; apply A; right; assumption). rewrite A by (left; reflexivity). reflexivity. }
  pose proof (RG z ZB k K) as ZK. unfold z in ZK. rewrite Qeq_bool_refl in ZK. discriminate.
Qed.

Lemma maximum_principle : forall n es fixed v p t m, forallb (in_range n) es = true -> rigid n es fixed ->
  balance n es fixed v p t -> (forall r, (r < n)%nat -> fixed r = false -> p r <= 0) ->
  (forall r, (r < n)%nat -> fixed r = true -> v r <= m) ->
  forall r, (r < n)%nat -> t r <= m.
Proof.
  intros n es fixed v p t m F RG B P V r R.
  assert (H : - m <= -(1) * t r + 0 * t r).
  { apply (minimum_principle n es fixed (fun r => -(1) * v r + 0 * v r) (fun r => -(1) * p r + 0 * p r)
             (fun r => -(1) * t r + 0 * t r)); auto.
    - apply balance_linear; assumption.
    - intros s S X. specialize (P s S X). lra.
    - intros s S X. specialize (V s S X). lra. }
  lra.
Qed.

(** More power, or warmer boundaries, never cools a node. *)
Lemma balance_monotone : forall n es fixed v p t w q u, forallb (in_range n) es = true -> rigid n es fixed ->
  balance n es fixed v p t -> balance n es fixed w q u ->
  (forall r, (r < n)%nat -> fixed r = false -> p r <= q r) ->
  (forall r, (r < n)%nat -> fixed r = true -> v r <= w r) ->
  forall r, (r < n)%nat -> t r <= u r.
Proof.
  intros n es fixed v p t w q u F RG B C P V r R.
  assert (H : 0 <= 1 * u r + -(1) * t r).
  { apply (minimum_principle n es fixed (fun r => 1 * w r + -(1) * v r) (fun r => 1 * q r + -(1) * p r)
             (fun r => 1 * u r + -(1) * t r)); auto.
    - apply balance_linear; assumption.
    - intros s S X. specialize (P s S X). lra.
    - intros s S X. specialize (V s S X). lra. }
  lra.
Qed.

(** The heat of an element counted at every node. *)
Lemma leaving_total : forall n w t e, in_range n e = true ->
  sum n (fun r => w r * leaving t r e) == conductance e * (w (e_from e) - w (e_to e)) * (t (e_from e) - t (e_to e)).
Proof.
  intros n w t e R. unfold in_range in R. apply andb_true_iff in R. rewrite !Nat.ltb_lt in R. destruct R as (R1 & R2).
  transitivity (sum n (fun r => (if Nat.eqb r (e_from e) then w r * heat e t else 0)
    + -(1) * (if Nat.eqb r (e_to e) then w r * heat e t else 0))).
  - apply sum_ext. intros r L. unfold leaving. destruct (Nat.eqb r (e_from e)), (Nat.eqb r (e_to e)); ring.
  - rewrite sum_plus, sum_scale.
    rewrite (sum_single n (e_from e) (fun r => w r * heat e t)), (sum_single n (e_to e) (fun r => w r * heat e t)).
    replace (Nat.ltb (e_from e) n) with true by (symmetry; apply Nat.ltb_lt; exact R1).
    replace (Nat.ltb (e_to e) n) with true by (symmetry; apply Nat.ltb_lt; exact R2). unfold heat. ring.
Qed.

Lemma heat_total : forall n es w t, forallb (in_range n) es = true ->
  sum n (fun r => w r * heat_leaving es t r)
  == Qsum (map (fun e => conductance e * (w (e_from e) - w (e_to e)) * (t (e_from e) - t (e_to e))) es).
Proof.
  intros n es w t F. unfold heat_leaving. induction es as [|e es IH]; cbn [map Qsum].
  - apply sum_zero. intros. ring.
  - cbn [forallb] in F. apply andb_true_iff in F. destruct F as (R & F).
    rewrite <- (IH F), <- (leaving_total n w t e R), <- sum_plus. apply sum_ext. intros. ring.
Qed.

Lemma heat_symmetric : forall n es w t, forallb (in_range n) es = true ->
  sum n (fun r => w r * heat_leaving es t r) == sum n (fun r => t r * heat_leaving es w r).
Proof.
  intros n es w t F. rewrite !heat_total by exact F.
  clear F. induction es as [|e es IH]; cbn [map Qsum]; [reflexivity|]. rewrite IH. ring.
Qed.

Lemma heat_conserved : forall n es t, forallb (in_range n) es = true ->
  sum n (fun r => heat_leaving es t r) == 0.
Proof.
  intros n es t F. rewrite (sum_ext n _ (fun r => 1 * heat_leaving es t r)) by (intros; ring).
  rewrite (heat_total n es (fun _ => 1)) by exact F.
  clear F. induction es as [|e es IH]; cbn [map Qsum]; [reflexivity|]. rewrite IH. ring.
Qed.

(** ** One solve of the program *)

Lemma system_product : forall n nodes es x r, forallb (in_range n) es = true -> (r < n)%nat ->
  product n (system_matrix nodes es) x r == if pinned nodes r then x r else heat_leaving es x r.
Proof.
  intros n nodes es x r F R. unfold product, system_matrix. destruct (pinned nodes r) eqn:P.
  - transitivity (sum n (fun c => if Nat.eqb c r then x c else 0)).
    + apply sum_ext. intros c C. rewrite (Nat.eqb_sym r c). destruct (Nat.eqb c r); ring.
    + rewrite (sum_single n r x). replace (Nat.ltb r n) with true by (symmetry; apply Nat.ltb_lt; exact R). reflexivity.
  - rewrite <- (assembled_product n) by exact F. unfold product. reflexivity.
Qed.

Lemma system_solves : forall n nodes es a x, forallb (in_range n) es = true ->
  (solves n (system_matrix nodes es) (system_rhs a nodes) x <->
   balance n es (pinned nodes) (imposed a nodes) (fun r => t_power (node_at nodes r)) x).
Proof.
  intros n nodes es a x F. unfold solves, balance. split; intros H r R; specialize (H r R).
  - rewrite system_product in H by assumption. unfold system_rhs in H. destruct (pinned nodes r); exact H.
  - rewrite system_product by assumption. unfold system_rhs. destruct (pinned nodes r); exact H.
Qed.

Lemma zero_solution : forall n A b x z, matrix_solve n A b = Some x -> solves n A (fun _ => 0) z ->
  forall r, (r < n)%nat -> z r == 0.
Proof.
  intros n A b x z H Z r R. destruct (matrix_solve_spec n A b x H) as (X & U).
  assert (S : solves n A b (fun k => at_ x k + z k)).
  { intros k K. rewrite <- (X k K). unfold product.
    rewrite (sum_ext n _ (fun c => A k c * at_ x c + A k c * z c)) by (intros; ring).
    rewrite sum_plus. pose proof (Z k K) as ZK. unfold product in ZK. rewrite ZK. ring. }
  specialize (U _ S r R). cbn beta in U. lra.
Qed.

Theorem solve_network_spec : forall a nodes es t, solve_network a nodes es = Ok t ->
  let n := List.length nodes in
  List.length t = n /\ forallb (in_range n) es = true /\ rigid n es (pinned nodes) /\
  balance n es (pinned nodes) (imposed a nodes) (fun r => t_power (node_at nodes r)) (at_ t).
Proof.
  intros a nodes es t H n. unfold solve_network in H. fold n in H.
  destruct (forallb (in_range n) es) eqn:F; cbn [negb] in H; [|discriminate].
  destruct (existsb _ _); [discriminate|].
  destruct (matrix_solve n _ _) as [x|] eqn:M; [|discriminate]. injection H as ->.
  assert (EQ : forall b x, solves n (stored n (system_matrix nodes es)) b x <-> solves n (system_matrix nodes es) b x).
  { intros b x. apply solves_ext; [intros; apply stored_at; assumption | reflexivity]. }
  split; [eapply matrix_solve_length; eassumption|]. split; [reflexivity|]. split.
  - intros z Z. apply (zero_solution n _ _ t z M). apply EQ.
    intros r R. rewrite system_product by assumption. specialize (Z r R). destruct (pinned nodes r); exact Z.
  - apply system_solves; [exact F|]. apply EQ. exact (proj1 (matrix_solve_spec n _ _ t M)).
Qed.
