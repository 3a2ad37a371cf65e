(** C100, C101: the inverse of the inductance matrix and the extended
    cantilever model of a transformer. *)
From Coq Require Import ZArith QArith Qabs List String Bool Lia Lra Lqa.
From Verif Require Import Base QAux NetworkModel NetworkProofs CantileverModel CantileverProofs.
Import ListNotations.
Open Scope Q_scope.

(** ** What the statements say *)

(** The product of two matrices of [n] rows and columns, and the unit matrix. *)
Definition times (n : nat) (A B : matrix) (i k : nat) : Q := sum n (fun j => A i j * B j k).
Definition one (i j : nat) : Q := if Nat.eqb i j then 1 else 0.
Definition inverse (n : nat) (A B : matrix) : Prop :=
  forall i k, (i < n)%nat -> (k < n)%nat -> times n A B i k == one i k /\ times n B A i k == one i k.

Definition applied (n : nat) (A : matrix) (v : vector) (i : nat) : Q := sum n (fun k => A i k * v k).
Definition non_zero (n : nat) (v : vector) : Prop := exists k, (k < n)%nat /\ ~ v k == 0.
Definition quadratic_form (n : nat) (A : matrix) (v : vector) : Q :=
  sum n (fun i => v i * sum n (fun k => A i k * v k)).
Definition symmetric (n : nat) (A : matrix) : Prop :=
  forall i k, (i < n)%nat -> (k < n)%nat -> A i k == A k i.
Definition positive (n : nat) (A : matrix) : Prop := forall v, non_zero n v -> 0 < quadratic_form n A v.

(** ** C100 *)

Theorem C100_inverse : forall n A B, invert_matrix n A = Ok B -> inverse n A B.
Proof.
  intros n A B E. destruct (invert_spec n A) as [(x & E' & H)|(w & E' & _)]; [|congruence].
  assert (x = B) by congruence. subst x. intros i k I K. destruct (H i k I K). split; assumption.
Qed.

(** The call gives up on the singular matrices and on no others; there is no
    third outcome. *)
Theorem C100_singular : forall n A,
  (exists w, invert_matrix n A = Throw w) <->
  exists v, non_zero n v /\ forall i, (i < n)%nat -> applied n A v i == 0.
Proof.
  intros n A. destruct (invert_spec n A) as [(x & E & H)|(w & E & v & k & K & NZ & V)].
  - split; [intros (w & E'); congruence|]. intros (v & (k & K & NZ) & V). exfalso. apply NZ.
    assert (P : sum n (fun j => x k j * applied n A v j) == v k).
    { unfold applied. rewrite <- (sum_identity_l n k v K).
      rewrite (sum_ext n _ (fun j => sum n (fun l => x k j * A j l * v l))).
      2:{ intros j J. rewrite <- sum_scale. apply sum_ext. intros. ring. }
      rewrite sum_comm. apply sum_ext. intros l L. rewrite sum_scale_r.
      destruct (H k l K L) as (H1 & _). unfold prod in H1. rewrite H1. reflexivity. }
    rewrite <- P. apply sum_zero. intros j J. rewrite V by exact J. ring.
  - split; [|intros _; exists w; exact E]. intros _. exists v. split; [exists k; split; assumption | exact V].
Qed.

Theorem C100_answers : forall n A,
  (exists B, invert_matrix n A = Ok B) \/ (exists w, invert_matrix n A = Throw w).
Proof.
  intros n A. destruct (invert_spec n A) as [(x & E & _)|(w & E & _)]; [left; exists x | right; exists w]; exact E.
Qed.

(** No other matrix is the inverse, from either side. *)
Theorem C100_unique : forall n A B C, invert_matrix n A = Ok B ->
  (forall i k, (i < n)%nat -> (k < n)%nat -> times n A C i k == one i k) \/
  (forall i k, (i < n)%nat -> (k < n)%nat -> times n C A i k == one i k) ->
  forall i k, (i < n)%nat -> (k < n)%nat -> C i k == B i k.
Proof.
  intros n A B C E H i k I K. pose proof (C100_inverse n A B E) as V.
  destruct H as [H|H].
  - transitivity (prod n (prod n B A) C i k).
    + unfold prod at 1. rewrite (sum_ext n _ (fun j => identity i j * C j k)).
      2:{ intros j J. destruct (V i j I J) as (_ & V2). unfold prod. unfold times in V2. rewrite V2. reflexivity. }
      rewrite sum_identity_l by exact I. reflexivity.
    + rewrite prod_assoc. unfold prod at 1. rewrite (sum_ext n _ (fun j => B i j * identity j k)).
      2:{ intros j J. specialize (H j k J K). unfold times in H. unfold prod. rewrite H. reflexivity. }
      rewrite sum_identity_r by exact K. reflexivity.
  - transitivity (prod n C (prod n A B) i k).
    + unfold prod at 1. rewrite (sum_ext n _ (fun j => C i j * identity j k)).
      2:{ intros j J. destruct (V j k J K) as (V1 & _). unfold prod. unfold times in V1. rewrite V1. reflexivity. }
      rewrite sum_identity_r by exact K. reflexivity.
    + rewrite <- prod_assoc. unfold prod at 1. rewrite (sum_ext n _ (fun j => identity i j * B j k)).
      2:{ intros j J. specialize (H i j I J). unfold times in H. unfold prod. rewrite H. reflexivity. }
      rewrite sum_identity_l by exact I. reflexivity.
Qed.

Theorem C100_symmetric : forall n A B, symmetric n A -> invert_matrix n A = Ok B -> symmetric n B.
Proof.
  intros n A B S E i k I K. symmetry.
  apply (C100_unique n A B (fun i k => B k i) E); try assumption. left. intros i' k' I' K'.
  destruct (C100_inverse n A B E k' i' K' I') as (_ & V). unfold times in *. unfold one in *.
  rewrite (Nat.eqb_sym i' k'), <- V. apply sum_ext. intros j J. rewrite (S i' j I' J). ring.
Qed.

(** The inverse of a positive definite matrix exists and is one too. *)
Theorem C100_positive : forall n A, positive n A ->
  exists B, invert_matrix n A = Ok B /\ positive n B.
Proof.
  intros n A P.
  assert (NS : forall v, non_zero n v -> ~ (forall i, (i < n)%nat -> applied n A v i == 0)).
  { intros v NZ Z. specialize (P v NZ). unfold quadratic_form in P.
    rewrite sum_zero in P; [lra|]. intros i I. specialize (Z i I). unfold applied in Z. rewrite Z. ring. }
  destruct (C100_answers n A) as [(B & E)|T].
  - exists B. split; [exact E|]. intros y (k & K & NZ). pose proof (C100_inverse n A B E) as V.
    set (x := fun i => sum n (fun j => B i j * y j)).
    assert (AX : forall i, (i < n)%nat -> sum n (fun j => A i j * x j) == y i).
    { intros i I. unfold x. rewrite (sum_ext n _ (fun j => sum n (fun l => A i j * B j l * y l))).
      2:{ intros j J. rewrite <- sum_scale. apply sum_ext. intros. ring. }
      rewrite sum_comm. rewrite <- (sum_identity_l n i y I). apply sum_ext. intros l L. rewrite sum_scale_r.
      destruct (V i l I L) as (V1 & _). unfold times in V1. rewrite V1. reflexivity. }
    assert (XZ : non_zero n x).
    { destruct (Qeq_dec (y k) (y k)) as [_|Q]; [|exfalso; apply Q; reflexivity].
      assert (D : forall m, (m <= n)%nat -> (exists j, (j < m)%nat /\ ~ x j == 0) \/ (forall j, (j < m)%nat -> x j == 0)).
      { induction m as [|m IH]; intro M; [right; intros; lia|].
        destruct IH as [(j & J & JX)|Z]; [lia | left; exists j; split; [lia | exact JX] |].
        destruct (Qeq_dec (x m) 0) as [Q|Q]; [right | left; exists m; split; [lia | exact Q]].
        intros j J. destruct (Nat.eq_dec j m) as [->|]; [exact Q | apply Z; lia]. }
      destruct (D n (le_n n)) as [Y|Z]; [exact Y|]. exfalso. apply NZ. rewrite <- (AX k K). apply sum_zero.
      intros j J. rewrite Z by exact J. ring. }
    specialize (P x XZ). unfold quadratic_form in *.
    rewrite (sum_ext n _ (fun i => sum n (fun j => B i j * y j) * y i)) in P.
    2:{ intros i I. rewrite AX by exact I. reflexivity. }
    rewrite (sum_ext n _ (fun i => sum n (fun j => B i j * y j) * y i)); [exact P|]. intros. ring.
  - exfalso. apply C100_singular in T. destruct T as (v & NZ & Z). exact (NS v NZ Z).
Qed.

(** ** C101 *)

(** The inductance matrix that the model stands for: each winding links the
    magnetizing flux by its ratio and has its leakage besides. *)
Definition full (leakage : table) (magnetizing : Q) (ratios : list Q) : matrix :=
  fun j k => magnetizing * at_ ratios j * at_ ratios k + cell leakage j k.
Definition well_formed (leakage : table) (ratios : list Q) : Prop :=
  List.length leakage = List.length ratios /\ Forall (fun row => List.length row = List.length ratios) leakage.

Lemma cell_square : forall n f i j, (i < n)%nat -> (j < n)%nat -> cell (square n f) i j = f i j.
Proof.
  intros n f i j I J. unfold cell, square.
  rewrite (nth_indep _ [] (map (f 0%nat) (seq 0 n))) by (rewrite map_length, seq_length; exact I).
  rewrite (map_nth (fun i => map (f i) (seq 0 n))). rewrite seq_nth by exact I. cbn [plus].
  rewrite (nth_indep _ 0 (f i 0%nat)) by (rewrite map_length, seq_length; exact J).
  rewrite map_nth, seq_nth by exact J. reflexivity.
Qed.

Lemma square_length : forall n f, List.length (square n f) = n.
Proof. intros. unfold square. rewrite map_length, seq_length. reflexivity. Qed.

Lemma square_rows : forall n f row, In row (square n f) -> List.length row = n.
Proof.
  intros n f row I. unfold square in I. apply in_map_iff in I. destruct I as (i & <- & _).
  rewrite map_length, seq_length. reflexivity.
Qed.

Lemma assemble_full : forall leakage magnetizing ratios, well_formed leakage ratios ->
  exists t, assemble leakage (rank1 magnetizing ratios) = Ok t /\ List.length t = List.length ratios /\
    forall j k, (j < List.length ratios)%nat -> (k < List.length ratios)%nat ->
      cell t j k = full leakage magnetizing ratios j k.
Proof.
  intros leakage magnetizing ratios (L1 & L2). unfold assemble.
  assert (R : List.length (rank1 magnetizing ratios) = List.length ratios) by apply square_length.
  rewrite R, L1, Nat.ltb_irrefl. cbn [orb].
  replace (existsb _ _) with false.
  - eexists. split; [reflexivity|]. split; [apply square_length|]. intros j k J K.
    rewrite cell_square by assumption. unfold rank1. rewrite cell_square by assumption. reflexivity.
  - symmetry. apply not_true_iff_false. intro T. apply existsb_exists in T. destruct T as (row & I & T).
    apply Nat.ltb_lt in T. apply in_app_or in I. destruct I as [I|I].
    + rewrite Forall_forall in L2. rewrite <- L1, firstn_all in I. specialize (L2 row I). lia.
    + apply square_rows in I. lia.
Qed.

(** The model that is built: the entries of the inverse off its diagonal are
    those that the effective leakage inductances stand for. *)
Theorem C101_built : forall leakage magnetizing ratios m, well_formed leakage ratios ->
  build_from_leakage_matrix leakage magnetizing ratios = Ok m ->
  let n := List.length ratios in
  ec_magnetizing m = magnetizing /\ ec_ratios m = ratios /\ 0 < magnetizing /\
  exists B, inverse n (full leakage magnetizing ratios) B /\
    forall j k, (j < n)%nat -> (k < n)%nat -> j <> k ->
      ~ at_ ratios j == 0 /\ ~ cell (ec_leakage m) j k == 0 /\
      B j k == - (1 / (at_ ratios j * at_ ratios k * cell (ec_leakage m) j k)).
Proof.
  intros leakage magnetizing ratios m W H n. unfold build_from_leakage_matrix in H.
  destruct (Nat.eqb (List.length ratios) 0); [discriminate|].
  destruct (negb (Nat.eqb (List.length leakage) (List.length ratios))); [discriminate|].
  destruct (Qle_bool magnetizing 0) eqn:MQ; [discriminate|]. apply Qle_bool_false in MQ.
  destruct (assemble_full leakage magnetizing ratios W) as (t & ET & LT & CT). rewrite ET in H. cbn [bind] in H.
  unfold build_from_inductance_matrix in H. rewrite LT in H.
  destruct (invert_matrix (List.length ratios) (cell t)) as [B| | |] eqn:EB; try discriminate. cbn [bind] in H.
  destruct (existsb _ _) eqn:X; [discriminate|]. injection H as <-. cbn [ec_magnetizing ec_ratios ec_leakage].
  split; [reflexivity|]. split; [reflexivity|]. split; [exact MQ|]. exists B. split.
  - intros i k I K. destruct (C100_inverse _ _ _ EB i k I K) as (V1 & V2). unfold times in *. split.
    + rewrite <- V1. apply sum_ext. intros j J. rewrite (CT i j I J). reflexivity.
    + rewrite <- V2. apply sum_ext. intros j J. rewrite (CT j k J K). reflexivity.
  - intros j k J K NE. rewrite cell_square by assumption.
    replace (Nat.eqb j k) with false by (symmetry; apply Nat.eqb_neq; exact NE).
    assert (D : ~ at_ ratios j * at_ ratios k * B j k == 0).
    { intro Z. assert (T : existsb (fun j => existsb (fun k => negb (Nat.eqb j k) &&
        Qeq_bool (at_ ratios j * at_ ratios k * B j k) 0) (seq 0 (List.length ratios))) (seq 0 (List.length ratios)) = true).
      { apply existsb_exists. exists j. split; [apply in_seq; unfold n in *; lia|].
        apply existsb_exists. exists k. split; [apply in_seq; unfold n in *; lia|].
        apply andb_true_iff. split; [apply negb_true_iff; apply Nat.eqb_neq; exact NE | apply Qeq_bool_iff; exact Z]. }
      congruence. }
    assert (D1 : ~ at_ ratios j == 0) by (intro Z; apply D; rewrite Z; ring).
    assert (D2 : ~ at_ ratios k == 0) by (intro Z; apply D; rewrite Z; ring).
    assert (D3 : ~ B j k == 0) by (intro Z; apply D; rewrite Z; ring).
    split; [exact D1|]. split.
    + intro Z. apply D. assert (Y : - (1) / (at_ ratios j * at_ ratios k * B j k) * (at_ ratios j * at_ ratios k * B j k) == - (1))
        by (field; repeat split; assumption).
      rewrite Z in Y. exfalso. lra.
    + field. repeat split; assumption.
Qed.

Lemma inverse_unique : forall n A B C, inverse n A B -> inverse n A C ->
  forall i k, (i < n)%nat -> (k < n)%nat -> B i k == C i k.
Proof.
  intros n A B C HB HC i k I K.
  transitivity (prod n B (prod n A C) i k).
  - unfold prod at 1. rewrite (sum_ext n _ (fun j => B i j * identity j k)).
    2:{ intros j J. destruct (HC j k J K) as (V1 & _). unfold prod. unfold times in V1. rewrite V1. reflexivity. }
    rewrite sum_identity_r by exact K. reflexivity.
  - rewrite <- prod_assoc. unfold prod at 1. rewrite (sum_ext n _ (fun j => identity i j * C j k)).
    2:{ intros j J. destruct (HB i j I J) as (_ & V2). unfold times in V2. unfold prod. rewrite V2. reflexivity. }
    rewrite sum_identity_l by exact I. reflexivity.
Qed.

(** When there is a model and when there is none. *)
Theorem C101_refuses : forall leakage magnetizing ratios, well_formed leakage ratios ->
  let n := List.length ratios in
  (exists w, build_from_leakage_matrix leakage magnetizing ratios = Throw w) <->
  n = O \/ magnetizing <= 0 \/
  (exists v, non_zero n v /\ forall i, (i < n)%nat -> applied n (full leakage magnetizing ratios) v i == 0) \/
  (exists B j k, inverse n (full leakage magnetizing ratios) B /\
     (j < n)%nat /\ (k < n)%nat /\ j <> k /\ (at_ ratios j == 0 \/ at_ ratios k == 0 \/ B j k == 0)).
Proof.
  intros leakage magnetizing ratios W n. unfold build_from_leakage_matrix. fold n.
  destruct (Nat.eqb_spec n 0) as [Z|NZ].
  { split; intros _; [left; exact Z | eexists; reflexivity]. }
  pose proof (proj1 W) as LW. fold n in LW. rewrite LW, Nat.eqb_refl. cbn [negb].
  destruct (Qle_bool magnetizing 0) eqn:MQ.
  { apply Qle_bool_iff in MQ. split; intros _; [right; left; exact MQ | eexists; reflexivity]. }
  apply Qle_bool_false in MQ.
  destruct (assemble_full leakage magnetizing ratios W) as (t & ET & LT & CT). rewrite ET. cbn [bind].
  unfold build_from_inductance_matrix. rewrite LT. fold n in LT, CT. fold n.
  assert (AP : forall v i, (i < n)%nat -> applied n (cell t) v i == applied n (full leakage magnetizing ratios) v i).
  { intros v i I. unfold applied. apply sum_ext. intros k K. rewrite (CT i k I K). reflexivity. }
  destruct (C100_answers n (cell t)) as [(B & EB)|T].
  - rewrite EB. cbn [bind].
    assert (IB : inverse n (full leakage magnetizing ratios) B).
    { intros i k I K. destruct (C100_inverse _ _ _ EB i k I K) as (V1 & V2). unfold times in *. split.
      + rewrite <- V1. apply sum_ext. intros j J. rewrite (CT i j I J). reflexivity.
      + rewrite <- V2. apply sum_ext. intros j J. rewrite (CT j k J K). reflexivity. }
    destruct (existsb _ _) eqn:X.
    + split; intros _; [|eexists; reflexivity]. right. right. right.
      apply existsb_exists in X. destruct X as (j & J & X). apply existsb_exists in X. destruct X as (k & K & X).
      apply andb_true_iff in X. destruct X as (NE & Q). apply negb_true_iff, Nat.eqb_neq in NE.
      apply Qeq_bool_iff in Q. apply in_seq in J, K. exists B, j, k. split; [exact IB|].
      split; [lia|]. split; [lia|]. split; [exact NE|].
      apply Qmult_integral in Q. destruct Q as [Q|Q]; [|right; right; exact Q].
      apply Qmult_integral in Q. destruct Q as [Q|Q]; [left; exact Q | right; left; exact Q].
    + split; [intros (w & E); discriminate|]. intros [Z|[M|[(v & NV & Z)|(C & j & k & IC & J & K & NE & Q)]]]; exfalso.
      * exact (NZ Z).
      * lra.
      * assert (T : exists w, invert_matrix n (cell t) = Throw w).
        { apply C100_singular. exists v. split; [exact NV|]. intros i I. rewrite AP by exact I. apply Z. exact I. }
        destruct T as (w & T). congruence.
      * assert (T : existsb (fun j => existsb (fun k => negb (Nat.eqb j k) &&
          Qeq_bool (at_ ratios j * at_ ratios k * B j k) 0) (seq 0 n)) (seq 0 n) = true).
        { apply existsb_exists. exists j. split; [apply in_seq; lia|].
          apply existsb_exists. exists k. split; [apply in_seq; lia|].
          apply andb_true_iff. split; [apply negb_true_iff; apply Nat.eqb_neq; exact NE|]. apply Qeq_bool_iff.
          destruct Q as [Q|[Q|Q]]; [rewrite Q; ring | rewrite Q; ring |].
          rewrite (inverse_unique n _ B C IB IC j k J K), Q. ring. }
        congruence.
  - destruct T as (w & T). rewrite T. cbn [bind]. split; intros _; [|exists w; reflexivity].
    right. right. left. assert (T' : exists w, invert_matrix n (cell t) = Throw w) by (exists w; exact T).
    apply C100_singular in T'. destruct T' as (v & NV & Z). exists v. split; [exact NV|].
    intros i I. rewrite <- AP by exact I. apply Z. exact I.
Qed.

Lemma full_symmetric : forall leakage magnetizing ratios,
  symmetric (List.length ratios) (cell leakage) ->
  symmetric (List.length ratios) (full leakage magnetizing ratios).
Proof. intros l m r S i k I K. unfold full. rewrite (S i k I K). ring. Qed.

Lemma inverse_symmetric : forall n A B, symmetric n A -> inverse n A B -> symmetric n B.
Proof.
  intros n A B S V i k I K. apply (inverse_unique n A B (fun i k => B k i)); try assumption.
  intros i' k' I' K'. destruct (V k' i' K' I') as (V1 & V2). unfold times in *. unfold one in *.
  rewrite (Nat.eqb_sym i' k'). split.
  - rewrite <- V2. apply sum_ext. intros j J. rewrite (S i' j I' J). ring.
  - rewrite <- V1. apply sum_ext. intros j J. rewrite (S j k' J K'). ring.
Qed.

(** The leakage inductance of a pair does not depend on the order. *)
Theorem C101_symmetric : forall leakage magnetizing ratios m, well_formed leakage ratios ->
  symmetric (List.length ratios) (cell leakage) ->
  build_from_leakage_matrix leakage magnetizing ratios = Ok m ->
  symmetric (List.length ratios) (cell (ec_leakage m)).
Proof.
  intros leakage magnetizing ratios m W S H j k J K. destruct (Nat.eq_dec j k) as [->|NE]; [reflexivity|].
  destruct (C101_built _ _ _ _ W H) as (_ & _ & _ & B & V & P).
  pose proof (inverse_symmetric _ _ _ (full_symmetric _ magnetizing _ S) V j k J K) as SB.
  destruct (P j k J K NE) as (D1 & D2 & E1). destruct (P k j K J (fun e => NE (eq_sym e))) as (D3 & D4 & E2).
  rewrite E1, E2 in SB.
  set (a := at_ ratios j) in *. set (b := at_ ratios k) in *.
  set (x := cell (ec_leakage m) j k) in *. set (y := cell (ec_leakage m) k j) in *. clearbody a b x y.
  assert (T : 1 / (a * b * x) == 1 / (b * a * y)) by lra.
  assert (T2 : 1 / (a * b * x) * (a * b * x * y) == 1 / (b * a * y) * (a * b * x * y)) by (rewrite T; reflexivity).
  assert (U1 : 1 / (a * b * x) * (a * b * x * y) == y) by (field; repeat split; assumption).
  assert (U2 : 1 / (b * a * y) * (a * b * x * y) == x) by (field; repeat split; assumption).
  rewrite U1, U2 in T2. symmetry. exact T2.
Qed.

Lemma sum_of_fold : forall f n s0, fold_left (fun s i => s + f i) (seq 0 n) s0 == s0 + sum n f.
Proof.
  intros f. induction n as [|n IH]; intro s0; [cbn; lra|].
  rewrite seq_S, fold_left_app. cbn [fold_left sum plus]. pose proof (IH s0). lra.
Qed.

Lemma diagonal_sum : forall m w, (w < List.length (ec_ratios m))%nat ->
  exists b, inverse_inductance_diagonal m w = Ok b /\
    b == (sum (List.length (ec_ratios m)) (fun i => if Nat.eqb i w then 0 else 1 / cell (ec_leakage m) w i)
      + (if Nat.eqb w 0 then 1 / ec_magnetizing m else 0)) / (at_ (ec_ratios m) w * at_ (ec_ratios m) w).
Proof.
  intros m w W. unfold inverse_inductance_diagonal.
  replace (Nat.leb (List.length (ec_ratios m)) w) with false by (symmetry; apply Nat.leb_gt; exact W).
  eexists. split; [reflexivity|].
  set (f := fun i => if Nat.eqb i w then 0 else 1 / cell (ec_leakage m) w i).
  assert (F : forall l s0 s1, s0 == s1 -> fold_left (fun s i => if Nat.eqb i w then s else s + 1 / cell (ec_leakage m) w i) l s0
    == fold_left (fun s i => s + f i) l s1).
  { induction l as [|h l IH]; intros s0 s1 E; [exact E|]. cbn [fold_left]. apply IH. unfold f.
    destruct (Nat.eqb h w); lra. }
  pose proof (F (seq 0 (List.length (ec_ratios m))) 0 0 (Qeq_refl 0)) as E.
  rewrite sum_of_fold in E. destruct (Nat.eqb w 0); rewrite E; unfold Qdiv; ring.
Qed.

(** What is reported for the diagonal of the inverse, against what it is. *)
Lemma diagonal_error : forall leakage magnetizing ratios m w B, well_formed leakage ratios ->
  build_from_leakage_matrix leakage magnetizing ratios = Ok m ->
  let n := List.length ratios in
  inverse n (full leakage magnetizing ratios) B -> (w < n)%nat -> ~ at_ ratios w == 0 ->
  exists b, inverse_inductance_diagonal m w = Ok b /\
    b * at_ ratios w * at_ ratios w == B w w * at_ ratios w * at_ ratios w
      - at_ ratios w * sum n (fun k => B w k * at_ ratios k) + (if Nat.eqb w 0 then 1 / magnetizing else 0).
Proof.
  intros leakage magnetizing ratios m w B W H n V WN NZ.
  destruct (C101_built _ _ _ _ W H) as (EM & ER & MP & C & VC & P). fold n in VC, P.
  assert (WM : (w < List.length (ec_ratios m))%nat) by (rewrite ER; exact WN).
  destruct (diagonal_sum m w WM) as (b & E & Q). exists b. split; [exact E|]. rewrite ER, EM in Q. fold n in Q.
  assert (SI : sum n (fun i => if Nat.eqb i w then 0 else 1 / cell (ec_leakage m) w i)
    == B w w * at_ ratios w * at_ ratios w - at_ ratios w * sum n (fun k => B w k * at_ ratios k)).
  { rewrite <- sum_scale.
    assert (T : sum n (fun i => (if Nat.eqb i w then 0 else 1 / cell (ec_leakage m) w i) + at_ ratios w * (B w i * at_ ratios i))
      == sum n (fun i => 0 + (if Nat.eqb i w then B w w * at_ ratios w * at_ ratios w else 0))).
    { apply sum_ext. intros i I. destruct (Nat.eqb_spec i w) as [->|NE]; [ring|].
      destruct (P w i WN I (fun e => NE (eq_sym e))) as (_ & D2 & E1).
      destruct (P i w I WN NE) as (D3 & _ & _).
      rewrite (inverse_unique n _ B C V VC w i WN I), E1. field. repeat split; assumption. }
    rewrite sum_update in T by exact WN. rewrite (sum_zero n (fun _ => 0)) in T by (intros; reflexivity).
    rewrite (sum_plus n (fun i => if Nat.eqb i w then 0 else 1 / cell (ec_leakage m) w i)
      (fun i => at_ ratios w * (B w i * at_ ratios i))) in T. lra. }
  rewrite Q, SI. destruct (Nat.eqb w 0); field; try (split; [lra | exact NZ]); exact NZ.
Qed.

(** The diagonal of the inverse that the model reports is the true one, for
    every winding, exactly when the reference winding has no leakage of its
    own and none in common with another. *)
Theorem C101_diagonal : forall leakage magnetizing ratios m B, well_formed leakage ratios ->
  build_from_leakage_matrix leakage magnetizing ratios = Ok m ->
  let n := List.length ratios in
  at_ ratios 0 == 1 -> (forall w, (w < n)%nat -> ~ at_ ratios w == 0) ->
  inverse n (full leakage magnetizing ratios) B ->
  (forall w, (w < n)%nat -> exists b, inverse_inductance_diagonal m w = Ok b /\ b == B w w) <->
  (forall j, (j < n)%nat -> cell leakage j 0 == 0).
Proof.
  intros leakage magnetizing ratios m B W H n N0 NZ V.
  destruct (C101_built _ _ _ _ W H) as (EM & ER & MP & _).
  assert (NP : (0 < n)%nat).
  { unfold n. destruct ratios as [|r rs]; [|cbn; lia]. unfold at_ in N0. cbn in N0. discriminate. }
  set (L := full leakage magnetizing ratios) in *.
  (* B n = e0 / L11 says the same as L e0 = L11 n *)
  assert (STEP : (forall w, (w < n)%nat -> exists b, inverse_inductance_diagonal m w = Ok b /\ b == B w w) <->
    (forall w, (w < n)%nat -> sum n (fun k => B w k * at_ ratios k) == if Nat.eqb w 0 then 1 / magnetizing else 0)).
  { split.
    - intros A w WN. destruct (A w WN) as (b & E & Q).
      destruct (diagonal_error leakage magnetizing ratios m w B W H V WN (NZ w WN)) as (b' & E' & Q').
      assert (b' = b) by congruence. subst b'. rewrite Q in Q'. specialize (NZ w WN). fold n in Q'.
      set (s := sum n (fun k => B w k * at_ ratios k)) in *.
      assert (T : at_ ratios w * s == if Nat.eqb w 0 then 1 / magnetizing else 0) by lra.
      destruct (Nat.eqb_spec w 0) as [->|NW].
      + rewrite N0 in T. lra.
      + assert (T2 : / at_ ratios w * (at_ ratios w * s) == 0) by (rewrite T; ring).
        assert (T3 : / at_ ratios w * (at_ ratios w * s) == s) by (field; exact NZ). lra.
    - intros A w WN.
      destruct (diagonal_error leakage magnetizing ratios m w B W H V WN (NZ w WN)) as (b & E & Q).
      exists b. split; [exact E|]. specialize (A w WN). fold n in Q. rewrite A in Q. specialize (NZ w WN).
      assert (T : b * at_ ratios w * at_ ratios w == B w w * at_ ratios w * at_ ratios w).
      { rewrite Q. destruct (Nat.eqb_spec w 0) as [->|NW]; [rewrite N0; ring | ring]. }
      assert (T1 : b == b * at_ ratios w * at_ ratios w / (at_ ratios w * at_ ratios w)) by (field; exact NZ).
      rewrite T1, T. field. exact NZ. }
  rewrite STEP. split.
  - intros A j J.
    (* multiply by L *)
    assert (T : sum n (fun w => L j w * sum n (fun k => B w k * at_ ratios k)) == at_ ratios j).
    { rewrite (sum_ext n _ (fun w => sum n (fun k => L j w * B w k * at_ ratios k))).
      2:{ intros w WN. rewrite <- sum_scale. apply sum_ext. intros. ring. }
      rewrite sum_comm. rewrite <- (sum_identity_l n j (at_ ratios) J). apply sum_ext. intros k K.
      rewrite sum_scale_r. destruct (V j k J K) as (V1 & _). unfold times in V1. rewrite V1. reflexivity. }
    rewrite (sum_ext n _ (fun w => if Nat.eqb w 0 then L j 0%nat * (1 / magnetizing) else 0)) in T.
    2:{ intros w WN. rewrite A by exact WN. destruct (Nat.eqb_spec w 0) as [->|]; ring. }
    rewrite (sum_single n 0 (fun _ => L j 0%nat * (1 / magnetizing))) in T.
    replace (Nat.ltb 0 n) with true in T by (symmetry; apply Nat.ltb_lt; exact NP).
    unfold L, full in T. rewrite N0 in T.
    assert (T2 : (magnetizing * at_ ratios j * 1 + cell leakage j 0) * (1 / magnetizing) == at_ ratios j + cell leakage j 0 * (1 / magnetizing))
      by (field; lra).
    assert (T3 : cell leakage j 0 * (1 / magnetizing) == 0) by lra.
    assert (T4 : cell leakage j 0 == cell leakage j 0 * (1 / magnetizing) * magnetizing) by (field; lra).
    rewrite T4, T3. ring.
  - intros Z w WN.
    assert (T : sum n (fun k => B w k * (L k 0%nat * (1 / magnetizing))) == sum n (fun k => B w k * at_ ratios k)).
    { apply sum_ext. intros k K. unfold L, full. rewrite (Z k K), N0. field. lra. }
    rewrite <- T. rewrite (sum_ext n _ (fun k => B w k * L k 0%nat * (1 / magnetizing))) by (intros; ring).
    rewrite sum_scale_r. destruct (V w 0%nat WN NP) as (_ & V2). unfold times in V2. rewrite V2.
    unfold one. destruct (Nat.eqb w 0); ring.
Qed.

(** With no leakage at the reference winding, the output inductance of a
    winding is the one it shows with all the others in short circuit: no flux
    links the others, and its own linked flux is that inductance times its
    current. *)
Theorem C101_short_circuit : forall leakage magnetizing ratios m w currents, well_formed leakage ratios ->
  build_from_leakage_matrix leakage magnetizing ratios = Ok m ->
  let n := List.length ratios in
  at_ ratios 0 == 1 -> (forall k, (k < n)%nat -> ~ at_ ratios k == 0) ->
  (forall j, (j < n)%nat -> cell leakage j 0 == 0) -> (w < n)%nat ->
  (forall j, (j < n)%nat -> j <> w -> applied n (full leakage magnetizing ratios) currents j == 0) ->
  ~ currents w == 0 ->
  exists l, short_circuit_output_inductance m w = Ok l /\
    applied n (full leakage magnetizing ratios) currents w == l * currents w.
Proof.
  intros leakage magnetizing ratios m w currents W H n N0 NZ Z WN SC CW.
  destruct (C101_built _ _ _ _ W H) as (EM & ER & MP & B & V & _). fold n in V.
  destruct (proj2 (C101_diagonal leakage magnetizing ratios m B W H N0 NZ V) Z w WN) as (b & E & Q).
  exists (1 / b). unfold short_circuit_output_inductance. rewrite E. split; [reflexivity|].
  set (L := full leakage magnetizing ratios) in *.
  assert (T : currents w == B w w * applied n L currents w).
  { assert (T0 : sum n (fun j => B w j * applied n L currents j) == currents w).
    { unfold applied. rewrite (sum_ext n _ (fun j => sum n (fun l => B w j * L j l * currents l))).
      2:{ intros j J. rewrite <- sum_scale. apply sum_ext. intros. ring. }
      rewrite sum_comm. rewrite <- (sum_identity_l n w currents WN). apply sum_ext. intros l LL.
      rewrite sum_scale_r. destruct (V w l WN LL) as (_ & V2). unfold times in V2. rewrite V2. reflexivity. }
    rewrite <- T0. rewrite (sum_ext n _ (fun j => if Nat.eqb j w then B w w * applied n L currents w else 0)).
    - rewrite (sum_single n w (fun _ => B w w * applied n L currents w)).
      replace (Nat.ltb w n) with true by (symmetry; apply Nat.ltb_lt; exact WN). reflexivity.
    - intros j J. destruct (Nat.eqb_spec j w) as [->|NE]; [reflexivity|]. rewrite SC by assumption. ring. }
  assert (BZ : ~ b == 0).
  { intro BZ. apply CW. rewrite T, <- Q, BZ. ring. }
  transitivity (1 / b * (B w w * applied n L currents w)); [rewrite <- Q; field; exact BZ|].
  rewrite <- T. reflexivity.
Qed.

Theorem C101_index : forall m w, (List.length (ec_ratios m) <= w)%nat <->
  exists t, short_circuit_output_inductance m w = Throw t.
Proof.
  intros m w. unfold short_circuit_output_inductance, inverse_inductance_diagonal.
  destruct (Nat.leb_spec (List.length (ec_ratios m)) w) as [L|L]; cbn [bind].
  - split; [intros _; eexists; reflexivity | intros _; exact L].
  - split; [intro; lia | intros (t & E); discriminate].
Qed.

Lemma square_nonneg : forall z : Q, 0 <= z * z.
Proof. intro z. destruct (Qlt_le_dec z 0); nra. Qed.

(** With any leakage at the reference winding the reported diagonal, and so
    the output inductance, is not the true one. *)
Theorem C101_diagonal_refuted : exists leakage magnetizing ratios m B,
  well_formed leakage ratios /\ symmetric (List.length ratios) (cell leakage) /\
  (forall v, non_zero (List.length ratios) v -> 0 < quadratic_form (List.length ratios) (cell leakage) v) /\
  build_from_leakage_matrix leakage magnetizing ratios = Ok m /\
  inverse (List.length ratios) (full leakage magnetizing ratios) B /\
  exists b0 b1, inverse_inductance_diagonal m 0 = Ok b0 /\ inverse_inductance_diagonal m 1 = Ok b1 /\
    ~ b0 == B 0%nat 0%nat /\ ~ b1 == B 1%nat 1%nat.
Proof.
  set (leakage := [[2; 1]; [1; 3]] : table).
  set (ratios := [1; 2] : list Q).
  destruct (build_from_leakage_matrix leakage 100 ratios) as [m| | |] eqn:E; try (vm_compute in E; discriminate).
  assert (W : well_formed leakage ratios) by (split; [reflexivity | repeat constructor]).
  destruct (C101_built leakage 100 ratios m W E) as (_ & _ & _ & B & V & _).
  exists leakage, 100, ratios, m, B. split; [exact W|]. split.
  { intros [|[|i]] [|[|k]] I K; cbn in I, K; try lia; reflexivity. }
  split.
  { intros v (k & K & NZ). cbn in K. unfold quadratic_form. cbn. unfold cell. cbn.
    assert (A : ~ v 0%nat == 0 \/ ~ v 1%nat == 0) by (destruct k as [|[|k]]; [left | right |lia]; exact NZ).
    set (x := v 0%nat) in *. set (y := v 1%nat) in *. clearbody x y.
    assert (S1 : 0 <= (x + y) * (x + y)) by apply square_nonneg.
    assert (S2 : ~ x == 0 -> 0 < x * x) by (intro XN; destruct (Q_dec x 0) as [[X|X]|X]; [nra | nra | contradiction]).
    assert (S3 : ~ y == 0 -> 0 < y * y) by (intro YN; destruct (Q_dec y 0) as [[X|X]|X]; [nra | nra | contradiction]).
    pose proof (square_nonneg x) as S4. pose proof (square_nonneg y) as S5.
    destruct A as [A|A]; [specialize (S2 A) | specialize (S3 A)];
      assert (SE : 0 < x * x + (x + y) * (x + y) + 2 * (y * y)) by lra; ring_simplify; ring_simplify in SE; lra. }
  split; [exact E|]. split; [exact V|].
  assert (NZ : forall w, (w < 2)%nat -> ~ at_ ratios w == 0).
  { intros [|[|w]] I; cbn; [lra | lra | lia]. }
  assert (V' : inverse 2 (full leakage 100 ratios) B) by exact V.
  destruct (diagonal_error leakage 100 ratios m 0 B W E V ltac:(cbn; lia) (NZ 0%nat ltac:(lia))) as (b0 & E0 & Q0).
  destruct (diagonal_error leakage 100 ratios m 1 B W E V ltac:(cbn; lia) (NZ 1%nat ltac:(lia))) as (b1 & E1 & Q1).
  exists b0, b1. split; [exact E0|]. split; [exact E1|].
  pose proof (proj1 (V' 0%nat 0%nat ltac:(lia) ltac:(lia))) as A00. pose proof (proj1 (V' 0%nat 1%nat ltac:(lia) ltac:(lia))) as A01.
  pose proof (proj1 (V' 1%nat 0%nat ltac:(lia) ltac:(lia))) as A10. pose proof (proj1 (V' 1%nat 1%nat ltac:(lia) ltac:(lia))) as A11.
  unfold times, full, cell, one, at_, leakage, ratios in A00, A01, A10, A11. cbn in A00, A01, A10, A11.
  unfold at_, ratios in Q0, Q1. cbn in Q0, Q1.
  assert (HU : 1 / 100 == 1 # 100) by reflexivity.
  split; intro Z.
  - rewrite Z in Q0. rewrite HU in Q0. clear -Q0 A00 A01 A10 A11. lra.
  - rewrite Z in Q1. clear -Q1 A00 A01 A10 A11. lra.
Qed.

(** ** Concrete cases *)

(** A matrix that needs its rows exchanged, and a singular one. *)
Definition sample_matrix : table := [[0; 2]; [4; 1]].
Example C100_witness :
  (exists B, invert_matrix 2 (cell sample_matrix) = Ok B /\
     map (map Qred) (square 2 B) = [[-1 # 8; 1 # 4]; [1 # 2; 0]]) /\
  (exists w, invert_matrix 2 (cell [[1; 2]; [2; 4]]) = Throw w).
Proof.
  split; [|eexists; vm_compute; reflexivity].
  assert (T : match invert_matrix 2 (cell sample_matrix) with Ok B => map (map Qred) (square 2 B) | _ => [] end
    = [[-1 # 8; 1 # 4]; [1 # 2; 0]]) by (vm_compute; reflexivity).
  destruct (invert_matrix 2 (cell sample_matrix)) as [B| | |]; try discriminate T.
  exists B. split; [reflexivity | exact T].
Qed.

Example C101_witness :
  exists m l, build_from_leakage_matrix [[0; 0]; [0; 4]] 1 [1; 1] = Ok m /\
    short_circuit_output_inductance m 1 = Ok l /\ l == 4.
Proof. eexists. eexists. split; [vm_compute; reflexivity|]. split; vm_compute; reflexivity. Qed.

Print Assumptions C100_inverse.
Print Assumptions C100_singular.
Print Assumptions C101_diagonal.
Print Assumptions C101_diagonal_refuted.
