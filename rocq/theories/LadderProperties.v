(** C193, C194: the ladder networks of a single layer winding. *)
From Coq Require Import QArith Qround Qabs List Bool String ZArith Lia Lqa.
From Verif Require Import Base QAux LadderModel.
Import ListNotations.
Local Open Scope Q_scope.

(** * Vocabulary *)
(** Two capacitances one after the other. *)
Definition in_series (a b c : Q) : Prop := c * (a + b) == a * b.
(** How far [x] is from the capacitance a ladder of infinitely many turns has:
    adding one more turn to it would change nothing.  [x] in series with [ctt]
    and then in parallel with [cts] is [x] again exactly when this is zero. *)
Definition off (ctt cts x : Q) : Q := x * x - cts * x - cts * ctt.
Fixpoint power (x : Q) (n : nat) : Q := match n with O => 1 | S k => x * power x k end.

(** * Arithmetic *)
Lemma div_alt : forall x y, 0 < y -> (x / y) * y == x.
Proof. intros. field. lra. Qed.
Lemma halves : forall x, x / 2 == x * (1 # 2).
Proof. intros. field. Qed.

Lemma cas_rung_eq : forall t s v, 0 < t -> 0 < v -> (cas_rung t s v - s) * (v + t) == v * t.
Proof.
  intros t s v T V. unfold cas_rung. rewrite Qred_correct. field. lra.
Qed.
Lemma cab_rung_eq : forall t s v, 0 < t -> 0 < v ->
  (2 * cab_rung t s v - s) * (2 * v + t) == 2 * v * t.
Proof.
  intros t s v T V. unfold cab_rung. rewrite Qred_correct. field. lra.
Qed.

(** Facts on any value [w] with [(w - s) (v + h) = v h]. *)
Lemma rung_facts : forall h s v w, 0 < h -> 0 < s -> 0 < v -> (w - s) * (v + h) == v * h ->
  s < w /\ w < s + h /\
  off h s w * ((v + h) * (v + h)) == h * h * off h s v /\
  (w - v) * (v + h) == - off h s v.
Proof.
  intros h s v w H S V E. assert (P : 0 < v + h) by lra. assert (VH : 0 < v * h) by (apply Qmult_lt_0_compat; assumption).
  repeat split.
  - apply (Qmult_lt_r _ _ _ P). assert (w * (v + h) == s * (v + h) + v * h) by lra. lra.
  - apply (Qmult_lt_r _ _ _ P). assert (w * (v + h) == s * (v + h) + v * h) by lra.
    assert (0 < h * h) by (apply Qmult_lt_0_compat; assumption). lra.
  - unfold off. assert (W : w * (v + h) == s * (v + h) + v * h) by lra.
    transitivity ((w * (v + h)) * (w * (v + h)) - s * (w * (v + h)) * (v + h) - s * h * ((v + h) * (v + h))); [ring|].
    rewrite W. ring.
  - unfold off. assert (W : w * (v + h) == s * (v + h) + v * h) by lra.
    transitivity (w * (v + h) - v * (v + h)); [ring|]. rewrite W. ring.
Qed.
Lemma rung_mono : forall h s v w v' w', 0 < h -> 0 < v -> v <= v' ->
  (w - s) * (v + h) == v * h -> (w' - s) * (v' + h) == v' * h -> w <= w'.
Proof.
  intros h s v w v' w' H V L E E'.
  assert (P : 0 < (v + h) * (v' + h)) by (apply Qmult_lt_0_compat; lra).
  apply (Qmult_le_r _ _ _ P).
  assert (A : w * ((v + h) * (v' + h)) == s * ((v + h) * (v' + h)) + v * h * (v' + h)).
  { transitivity (((w - s) * (v + h)) * (v' + h) + s * ((v + h) * (v' + h))); [ring|]. rewrite E. ring. }
  assert (B : w' * ((v + h) * (v' + h)) == s * ((v + h) * (v' + h)) + v' * h * (v + h)).
  { transitivity (((w' - s) * (v' + h)) * (v + h) + s * ((v + h) * (v' + h))); [ring|]. rewrite E'. ring. }
  rewrite A, B. assert (v * h * (v' + h) <= v' * h * (v + h)); [|lra].
  assert (0 <= (v' - v) * (h * h)) by (apply Qmult_le_0_compat; nra). nra.
Qed.

(** * The loops *)
Lemma climb_exact : forall j fuel b k n rung v, 0 < b -> n == k + b * inject_Z (Z.of_nat j) -> (j <= fuel)%nat ->
  climb fuel b k n rung v = Ok (Nat.iter j rung v).
Proof.
  induction j as [|j IH]; intros fuel b k n rung v B N F.
  - destruct fuel; cbn [climb]; replace (Qlt_bool k n) with false; try reflexivity;
      symmetry; apply Qlt_bool_false; rewrite N; cbn [Z.of_nat]; change (inject_Z 0) with 0; lra.
  - destruct fuel as [|fuel]; [lia|]. cbn [climb]. replace (Qlt_bool k n) with true.
    2:{ symmetry. apply Qlt_bool_iff. rewrite N. assert (0 < b * inject_Z (Z.of_nat (S j))); [|lra].
        apply Qmult_lt_0_compat; [exact B|]. change 0 with (inject_Z 0). apply inj_lt. lia. }
    rewrite (IH fuel b (k + b) n rung (rung v) B).
    + f_equal. clear. revert v. induction j as [|j IH]; intro v; [reflexivity|]. exact (f_equal rung (IH v)).
    + rewrite N. rewrite Nat2Z.inj_succ. unfold Z.succ. rewrite inject_Z_plus. change (inject_Z 1) with 1. ring.
    + lia.
Qed.

Lemma floor_nat : forall k, Qfloor (inject_Z (Z.of_nat k)) = Z.of_nat k.
Proof. intros. apply Qfloor_Z. Qed.
Lemma whole_nat : forall k, whole (inject_Z (Z.of_nat k)) = true.
Proof. intros. unfold whole. rewrite floor_nat. apply Qeq_bool_iff. reflexivity. Qed.

Definition turns (k : nat) : Q := inject_Z (Z.of_nat k).

Lemma cas_at : forall k t s, cas (turns (S k)) t s = Ok (Nat.iter k (cas_rung t s) s).
Proof.
  intros k t s. unfold cas, turns. replace (Qlt_bool (inject_Z (Z.of_nat (S k))) 1) with false.
  2:{ symmetry. apply Qlt_bool_false. change 1 with (inject_Z 1). apply inj_le. lia. }
  rewrite whole_nat. cbn [orb negb]. rewrite floor_nat, Nat2Z.id.
  apply climb_exact; [lra| |lia]. rewrite Nat2Z.inj_succ. unfold Z.succ. rewrite inject_Z_plus. change (inject_Z 1) with 1. ring.
Qed.
(** The number of rungs [cab] adds and the value it starts from. *)
Definition cab_seed (k : nat) (t s : Q) : Q := Qred (if Nat.even k then t + s / 2 else t / 2 + s / 2).
Lemma cab_at : forall k t s, cab (turns (S (S k))) t s = Ok (Nat.iter (Nat.div2 k) (cab_rung t s) (cab_seed k t s)).
Proof.
  intros k t s. unfold cab, turns. replace (Qlt_bool (inject_Z (Z.of_nat (S (S k)))) 2) with false.
  2:{ symmetry. apply Qlt_bool_false. change 2 with (inject_Z 2). apply inj_le. lia. }
  rewrite whole_nat. cbn [orb negb]. rewrite floor_nat, Nat2Z.id.
  assert (EV : Z.even (Z.of_nat (S (S k))) = Nat.even k).
  { replace (Z.of_nat (S (S k))) with (Z.of_nat k + 1 * 2)%Z by lia. rewrite Z.add_comm, Z.even_add_mul_2 || rewrite Z.even_add.
    destruct (Nat.even k) eqn:E.
    - apply Nat.even_spec in E. destruct E as (m & ->). rewrite Nat2Z.inj_mul. change (Z.of_nat 2) with 2%Z.
      rewrite ?Z.even_mul, ?Z.even_add, ?Z.even_mul. reflexivity.
    - assert (O : Nat.odd k = true) by (unfold Nat.odd; rewrite E; reflexivity). apply Nat.odd_spec in O. destruct O as (m & ->).
      rewrite Nat2Z.inj_add, Nat2Z.inj_mul. change (Z.of_nat 2) with 2%Z. change (Z.of_nat 1) with 1%Z.
      rewrite ?Z.even_add, ?Z.even_mul, ?Z.even_add, ?Z.even_mul. reflexivity. }
  rewrite EV. unfold cab_seed.
  pose proof (Nat.div2_odd k) as D. unfold Nat.odd in D.
  apply climb_exact; [lra| |].
  - destruct (Nat.even k); cbn [negb Nat.b2n] in D.
    + replace (S (S k)) with (2 + 2 * Nat.div2 k)%nat by lia. rewrite Nat2Z.inj_add, Nat2Z.inj_mul, inject_Z_plus, inject_Z_mult.
      change (inject_Z (Z.of_nat 2)) with 2. ring.
    + replace (S (S k)) with (3 + 2 * Nat.div2 k)%nat by lia. rewrite Nat2Z.inj_add, Nat2Z.inj_mul, inject_Z_plus, inject_Z_mult.
      change (inject_Z (Z.of_nat 3)) with 3. change (inject_Z (Z.of_nat 2)) with 2. ring.
  - lia.
Qed.

(** * Values along the ladders *)
Lemma cas_run : forall k t s, 0 < t -> 0 < s ->
  s <= Nat.iter k (cas_rung t s) s /\ Nat.iter k (cas_rung t s) s < s + t /\ off t s (Nat.iter k (cas_rung t s) s) < 0.
Proof.
  induction k as [|k IH]; intros t s T S.
  - cbn [Nat.iter nat_rect]. unfold off. assert (0 < s * t) by (apply Qmult_lt_0_compat; assumption). repeat split; lra.
  - destruct (IH t s T S) as (L & U & O). cbn [Nat.iter nat_rect]. set (v := Nat.iter k (cas_rung t s) s) in *.
    fold (Nat.iter k (cas_rung t s) s). fold v. assert (V : 0 < v) by lra.
    destruct (rung_facts t s v _ T S V (cas_rung_eq t s v T V)) as (A & B & C & D).
    repeat split; [lra|lra|]. set (w := cas_rung t s v) in *.
    assert (P : 0 < (v + t) * (v + t)) by (apply Qmult_lt_0_compat; lra).
    assert (TT : 0 < t * t) by (apply Qmult_lt_0_compat; lra).
    apply (Qmult_lt_r _ _ _ P). rewrite C. nra.
Qed.
Lemma twice_eq : forall t s v w, (2 * w - s) * (2 * v + t) == 2 * v * t ->
  (2 * w - s) * ((2 * v) + t) == (2 * v) * t.
Proof. intros. assumption. Qed.
Lemma seed_facts : forall k t s, 0 < t -> 0 < s ->
  0 < off t s (2 * cab_seed k t s) /\ s < 2 * cab_seed k t s /\ 2 * cab_seed k t s <= 2 * t + s.
Proof.
  intros k t s T S. unfold cab_seed. assert (X : forall q, 2 * Qred q == 2 * q) by (intro; rewrite Qred_correct; reflexivity).
  assert (TT : 0 < t * t) by (apply Qmult_lt_0_compat; assumption). assert (TS : 0 < t * s) by (apply Qmult_lt_0_compat; assumption).
  assert (Y : 2 * Qred (if Nat.even k then t + s / 2 else t / 2 + s / 2) == (if Nat.even k then 2 * t + s else t + s)).
  { rewrite X. destruct (Nat.even k); field. }
  repeat split.
  - unfold off. rewrite Y. destruct (Nat.even k); nra.
  - rewrite Y. destruct (Nat.even k); lra.
  - rewrite Y. destruct (Nat.even k); lra.
Qed.
Lemma cab_run : forall j k t s, 0 < t -> 0 < s ->
  let v := Nat.iter j (cab_rung t s) (cab_seed k t s) in
  0 < off t s (2 * v) /\ s < 2 * v /\ 2 * v <= 2 * t + s /\ (j <> 0%nat -> 2 * v < t + s).
Proof.
  induction j as [|j IH]; intros k t s T S.
  - destruct (seed_facts k t s T S) as (A & B & C). cbn [Nat.iter nat_rect]. repeat split; [exact A|exact B|exact C|congruence].
  - destruct (IH k t s T S) as (A & B & C & _). set (v0 := Nat.iter j (cab_rung t s) (cab_seed k t s)) in *.
    cbv zeta. cbn [Nat.iter nat_rect]. fold (Nat.iter j (cab_rung t s) (cab_seed k t s)). fold v0.
    assert (V : 0 < v0) by lra. assert (V2 : 0 < 2 * v0) by lra.
    destruct (rung_facts t s (2 * v0) (2 * cab_rung t s v0) T S V2 (cab_rung_eq t s v0 T V)) as (P1 & P2 & P3 & P4).
    repeat split; [|lra|lra|intros _; lra].
    assert (P : 0 < (2 * v0 + t) * (2 * v0 + t)) by (apply Qmult_lt_0_compat; lra).
    apply (Qmult_lt_r _ _ _ P). rewrite P3. assert (0 < t * t) by (apply Qmult_lt_0_compat; lra). nra.
Qed.
(** Below the fixed point and above it. *)
Lemma off_order : forall t s x y, 0 < t -> 0 < s -> 0 < x -> 0 < y -> off t s x < 0 -> 0 < off t s y -> x < y.
Proof.
  intros t s x y T S X Y A B. apply Qnot_le_lt. intro L. unfold off in *.
  assert (ST : 0 < s * t) by (apply Qmult_lt_0_compat; assumption).
  (* x (x - s) < s t < y (y - s), while y <= x *)
  assert (YS : s < y) by (apply Qnot_le_lt; intro Z; assert (y * y <= s * y) by (apply Qmult_le_compat_r; lra); nra).
  assert (y * (y - s) <= x * (x - s)); [|nra]. apply Qle_trans with (x * (y - s)); [apply Qmult_le_compat_r; lra|].
  rewrite !(Qmult_comm x). apply Qmult_le_compat_r; lra.
Qed.

(** * C193: the ladders *)
(** They answer exactly for whole numbers of turns, and never loop for ever. *)
Theorem C193_cas_answers : forall n t s, 0 < t -> 0 < s ->
  (exists k, n == turns (S k)) \/ cas n t s = Throw "InvalidInput".
Proof.
  intros n t s T S. unfold cas. destruct (Qlt_bool n 1) eqn:L; [right; reflexivity|]. cbn [orb].
  destruct (whole n) eqn:W; [left|right; reflexivity].
  apply Qlt_bool_false in L. unfold whole in W. apply Qeq_bool_iff in W.
  assert (F : (1 <= Qfloor n)%Z) by (apply inj_le; rewrite <- W; exact L).
  exists (Z.to_nat (Qfloor n - 1)). unfold turns. rewrite Nat2Z.inj_succ, Z2Nat.id by lia. unfold Z.succ.
  replace (Qfloor n - 1 + 1)%Z with (Qfloor n) by lia. exact W.
Qed.
Theorem C193_cab_answers : forall n t s, 0 < t -> 0 < s ->
  (exists k, n == turns (S (S k))) \/ cab n t s = Throw "InvalidInput".
Proof.
  intros n t s T S. unfold cab. destruct (Qlt_bool n 2) eqn:L; [right; reflexivity|]. cbn [orb].
  destruct (whole n) eqn:W; [left|right; reflexivity].
  apply Qlt_bool_false in L. unfold whole in W. apply Qeq_bool_iff in W.
  assert (F : (2 <= Qfloor n)%Z) by (apply inj_le; rewrite <- W; exact L).
  exists (Z.to_nat (Qfloor n - 2)). unfold turns. rewrite !Nat2Z.inj_succ, Z2Nat.id by lia. unfold Z.succ.
  replace (Qfloor n - 2 + 1 + 1)%Z with (Qfloor n) by lia. exact W.
Qed.
(** Against the shield: one turn is its own element, and one more turn is the
    ladder so far, in series with the gap between turns, beside one more element. *)
Theorem C193_cas_network : forall t s, 0 < t -> 0 < s ->
  cas (turns 1) t s = Ok s /\
  (forall k, exists v w u, cas (turns (S k)) t s = Ok v /\ cas (turns (S (S k))) t s = Ok w /\
     in_series v t u /\ w == u + s).
Proof.
  intros t s T S. split; [apply (cas_at 0)|]. intro k.
  exists (Nat.iter k (cas_rung t s) s), (Nat.iter (Datatypes.S k) (cas_rung t s) s), (cas_rung t s (Nat.iter k (cas_rung t s) s) - s).
  destruct (cas_run k t s T S) as (A & _). split; [apply cas_at|]. split; [apply cas_at|]. split.
  - unfold in_series. apply cas_rung_eq; lra.
  - cbn [Nat.iter nat_rect]. fold (Nat.iter k (cas_rung t s) s). lra.
Qed.
(** From end to end: two turns see the gap and half an element, three turns two
    gaps in series and half an element, and two more turns add one gap at each
    end, in series with the ladder so far, beside half an element. *)
Theorem C193_cab_network : forall t s, 0 < t -> 0 < s ->
  (exists v, cab (turns 2) t s = Ok v /\ v == t + s / 2) /\
  (exists v u, cab (turns 3) t s = Ok v /\ in_series t t u /\ v == u + s / 2) /\
  (forall k, exists v w u g, cab (turns (S (S k))) t s = Ok v /\ cab (turns (S (S (S (S k))))) t s = Ok w /\
     in_series t t g /\ in_series v g u /\ w == u + s / 2).
Proof.
  intros t s T S. assert (G : in_series t t (t / 2)) by (unfold in_series; field). repeat split.
  - eexists. split; [apply (cab_at 0)|]. exact (Qred_correct _).
  - eexists. exists (t / 2). split; [apply (cab_at 1)|]. split; [exact G|]. exact (Qred_correct _).
  - intro k. do 2 eexists. exists (cab_rung t s (Nat.iter (Nat.div2 k) (cab_rung t s) (cab_seed k t s)) - s / 2), (t / 2).
    split; [apply cab_at|]. split; [apply cab_at|]. split; [exact G|].
    destruct (cab_run (Nat.div2 k) k t s T S) as (_ & B & _). cbn [Nat.div2].
    assert (EV : cab_seed (Datatypes.S (Datatypes.S k)) t s = cab_seed k t s) by reflexivity. rewrite EV.
    cbn [Nat.iter nat_rect]. fold (Nat.iter (Nat.div2 k) (cab_rung t s) (cab_seed k t s)). set (v := Nat.iter (Nat.div2 k) _ _) in *.
    split; [|lra]. unfold in_series. assert (V : 0 < v) by lra. pose proof (cab_rung_eq t s v T V) as E.
    assert (H1 : s / 2 == s * (1 # 2)) by field. assert (H2 : t / 2 == t * (1 # 2)) by field. rewrite H1, H2. lra.
Qed.
(** The first grows with every turn and the second shrinks with every two; half
    the first never reaches the second. *)
Theorem C193_bounds : forall k t s, 0 < t -> 0 < s ->
  exists a b, cas (turns (S (S k))) t s = Ok a /\ cab (turns (S (S k))) t s = Ok b /\
    s < a /\ a < s + t /\ a < 2 * b /\ 2 * b <= 2 * t + s.
Proof.
  intros k t s T S. do 2 eexists. split; [apply cas_at|]. split; [apply cab_at|].
  destruct (cas_run (Datatypes.S k) t s T S) as (A & B & C). destruct (cab_run (Nat.div2 k) k t s T S) as (D & E & F & _).
  destruct (cas_run k t s T S) as (A' & B' & C').
  assert (V : 0 < Nat.iter k (cas_rung t s) s) by lra.
  destruct (rung_facts t s _ _ T S V (cas_rung_eq t s _ T V)) as (X & _).
  repeat split; [exact X|exact B| |exact F]. apply (off_order t s); try lra; assumption.
Qed.
Theorem C193_monotone : forall k t s, 0 < t -> 0 < s ->
  (exists a a', cas (turns (S k)) t s = Ok a /\ cas (turns (S (S k))) t s = Ok a' /\ a < a') /\
  (exists b b', cab (turns (S (S k))) t s = Ok b /\ cab (turns (S (S (S (S k))))) t s = Ok b' /\ b' < b).
Proof.
  intros k t s T S. split; do 2 eexists.
  - split; [apply cas_at|]. split; [apply cas_at|]. destruct (cas_run k t s T S) as (A & B & C).
    cbn [Nat.iter nat_rect]. fold (Nat.iter k (cas_rung t s) s). set (v := Nat.iter k _ _) in *. assert (V : 0 < v) by lra.
    destruct (rung_facts t s v _ T S V (cas_rung_eq t s v T V)) as (_ & _ & _ & D).
    apply (Qmult_lt_r _ _ (v + t)); [lra|]. lra.
  - split; [apply cab_at|]. split; [apply cab_at|]. destruct (cab_run (Nat.div2 k) k t s T S) as (A & B & C & _).
    cbn [Nat.div2]. assert (EV : cab_seed (Datatypes.S (Datatypes.S k)) t s = cab_seed k t s) by reflexivity. rewrite EV.
    cbn [Nat.iter nat_rect]. fold (Nat.iter (Nat.div2 k) (cab_rung t s) (cab_seed k t s)). set (v := Nat.iter (Nat.div2 k) _ _) in *.
    assert (V : 0 < v) by lra. assert (V2 : 0 < 2 * v) by lra.
    destruct (rung_facts t s (2 * v) _ T S V2 (cab_rung_eq t s v T V)) as (_ & _ & _ & D).
    apply (Qmult_lt_r _ _ (2 * v + t)); [lra|]. lra.
Qed.
(** Larger elements never make the first ladder smaller. *)
Lemma cas_rung_grows : forall t t' s s' v v', 0 < t -> t <= t' -> s <= s' -> 0 < v -> v <= v' ->
  cas_rung t s v <= cas_rung t' s' v'.
Proof.
  intros t t' s s' v v' T TT SS V VV. unfold cas_rung. rewrite !Qred_correct.
  assert (A : v * t / (v + t) <= v' * t' / (v' + t')); [|lra].
  apply Qle_div_iff; [lra|]. 
  assert (B : v * t / (v + t) * (v' + t') == v * t * (v' + t') / (v + t)) by (field; lra). rewrite B.
  apply Qdiv_le_iff; [lra|].
  assert (0 <= v * t' * (t' - t) + 0) by (assert (0 <= v * t' * (t' - t)); [apply Qmult_le_0_compat; [apply Qmult_le_0_compat|]; lra|lra]).
  assert (P : 0 <= v * v' * (t' - t)) by (apply Qmult_le_0_compat; [apply Qmult_le_0_compat|]; lra).
  assert (P2 : 0 <= t * t' * (v' - v)) by (apply Qmult_le_0_compat; [apply Qmult_le_0_compat|]; lra).
  nra.
Qed.
Theorem C193_grows_with_elements : forall k t t' s s', 0 < t -> 0 < s -> t <= t' -> s <= s' ->
  exists a a', cas (turns (S k)) t s = Ok a /\ cas (turns (S k)) t' s' = Ok a' /\ a <= a'.
Proof.
  intros k t t' s s' T S TT SS. do 2 eexists. split; [apply cas_at|]. split; [apply cas_at|].
  induction k as [|k IH]; [exact SS|]. cbn [Nat.iter nat_rect]. fold (Nat.iter k (cas_rung t s) s). fold (Nat.iter k (cas_rung t' s') s').
  destruct (cas_run k t s T S) as (A & _). apply cas_rung_grows; [exact T|exact TT|exact SS|lra|exact IH].
Qed.
(** Both close in on the same value at a geometric rate: the one that solves
    [x^2 = cts (x + ctt)]. *)
Lemma shrink : forall t s v w, 0 < t -> 0 < s -> s <= v -> (w - s) * (v + t) == v * t ->
  Qabs (off t s w) <= (t / (t + s)) * (t / (t + s)) * Qabs (off t s v).
Proof.
  intros t s v w T S V E. assert (V0 : 0 < v) by lra.
  destruct (rung_facts t s v w T S V0 E) as (_ & _ & C & _).
  assert (W : off t s w == (t / (v + t)) * (t / (v + t)) * off t s v).
  { assert (P : ~ v + t == 0) by lra. transitivity (off t s w * ((v + t) * (v + t)) / ((v + t) * (v + t))); [field; exact P|].
    rewrite C. field. exact P. }
  rewrite W, Qabs_Qmult. apply Qmult_le_compat_r; [|apply Qabs_nonneg].
  assert (R0 : 0 <= t / (v + t)) by (apply Qle_div_iff; lra).
  assert (R1 : t / (v + t) <= t / (t + s)).
  { apply Qle_div_iff; [lra|]. assert (B : t / (v + t) * (t + s) == t * (t + s) / (v + t)) by (field; lra). rewrite B.
    apply Qdiv_le_iff; [lra|]. nra. }
  rewrite Qabs_pos by (apply Qmult_le_0_compat; assumption).
  apply Qle_trans with (t / (t + s) * (t / (v + t))); [apply Qmult_le_compat_r; assumption|].
  rewrite !(Qmult_comm (t / (t + s))). apply Qmult_le_compat_r; lra.
Qed.
Lemma scale_le : forall r a p q, 0 <= r -> a <= p * q -> r * a <= r * p * q.
Proof. intros r a p q R L. assert (E : r * p * q == p * q * r) by ring. rewrite E, (Qmult_comm r). apply Qmult_le_compat_r; assumption. Qed.
Theorem C193_converges : forall k t s, 0 < t -> 0 < s ->
  (exists a, cas (turns (S k)) t s = Ok a /\
     Qabs (off t s a) <= power ((t / (t + s)) * (t / (t + s))) k * (s * t)) /\
  (exists b, cab (turns (S (S k))) t s = Ok b /\
     Qabs (off t s (2 * b)) <= power ((t / (t + s)) * (t / (t + s))) (Nat.div2 k) * (4 * t * t + 2 * t * s)).
Proof.
  intros k t s T S. assert (TS : 0 < t * s) by (apply Qmult_lt_0_compat; assumption). assert (TT : 0 < t * t) by (apply Qmult_lt_0_compat; assumption).
  assert (R : 0 <= (t / (t + s)) * (t / (t + s))) by (assert (0 <= t / (t + s)) by (apply Qle_div_iff; lra); apply Qmult_le_0_compat; assumption).
  split; eexists.
  - split; [apply cas_at|]. induction k as [|k IH].
    + cbn [Nat.iter nat_rect power]. unfold off. rewrite Qabs_neg by lra. lra.
    + cbn [Nat.iter nat_rect power]. fold (Nat.iter k (cas_rung t s) s). destruct (cas_run k t s T S) as (A & _).
      eapply Qle_trans; [apply shrink; [exact T|exact S|exact A|apply cas_rung_eq; [exact T|lra]]|].
      apply (scale_le _ _ _ _ R IH).
  - split; [apply cab_at|]. generalize (Nat.div2 k). intro j. induction j as [|j IH].
    + cbn [Nat.iter nat_rect power]. destruct (seed_facts k t s T S) as (A & B & C). rewrite Qabs_pos by lra.
      unfold off in *. set (x := 2 * cab_seed k t s) in *.
      assert (x * (x - s) <= (2 * t + s) * (2 * t)); [|nra].
      apply Qle_trans with ((2 * t + s) * (x - s)); [apply Qmult_le_compat_r; lra|].
      rewrite !(Qmult_comm (2 * t + s)). apply Qmult_le_compat_r; lra.
    + cbn [Nat.iter nat_rect power]. fold (Nat.iter j (cab_rung t s) (cab_seed k t s)). destruct (cab_run j k t s T S) as (_ & A & _).
      set (v := Nat.iter j _ _) in *.
      eapply Qle_trans; [apply (shrink t s (2 * v)); [exact T|exact S|lra|apply cab_rung_eq; [exact T|lra]]|].
      apply (scale_le _ _ _ _ R IH).
Qed.
(** The source says the ladder settles at the square root of [cts ctt].  With
    equal elements every ladder of two turns or more is at least half as large
    again. *)
Theorem C193_geometric_mean_refuted : forall k c, 0 < c ->
  exists a, cas (turns (S (S k))) c c = Ok a /\ (3 # 2) * c <= a.
Proof.
  intros k c C. eexists. split; [apply cas_at|]. induction k as [|k IH].
  - cbn [Nat.iter nat_rect]. pose proof (cas_rung_eq c c c C C) as E.
    apply (Qmult_le_r _ _ (c + c)); [lra|]. lra.
  - eapply Qle_trans; [exact IH|]. destruct (cas_run (Datatypes.S k) c c C C) as (A & B & D).
    change (Nat.iter (Datatypes.S (Datatypes.S k)) (cas_rung c c) c) with (cas_rung c c (Nat.iter (Datatypes.S k) (cas_rung c c) c)).
    set (v := Nat.iter (Datatypes.S k) _ _) in *. assert (V : 0 < v) by lra.
    destruct (rung_facts c c v _ C C V (cas_rung_eq c c v C V)) as (_ & _ & _ & F).
    apply (Qmult_le_r _ _ (v + c)); [lra|]. lra.
Qed.
Example C193_witness : cas 4 3 2 = Ok (736 # 203) /\ cab 5 3 2 = Ok (31 # 16) /\ cas (5 # 2) 3 2 = Throw "InvalidInput" /\ cab 1 3 2 = Throw "InvalidInput".
Proof. repeat split; vm_compute; reflexivity. Qed.

(** * C194: the winding as a whole *)
Lemma turns_ge2 : forall k, Qlt_bool 1 (turns (S (S k))) = true.
Proof. intros. apply Qlt_bool_iff. unfold turns. change 1 with (inject_Z 1). apply inj_lt. lia. Qed.
Lemma one_layer_ladder : forall k t s a b l, cas (turns (S (S k))) t s = Ok a -> cab (turns (S (S k))) t s = Ok b ->
  one_layer false (turns (S (S k))) t s l =
    Ok (let c2 := 2 * b * a / (4 * b - a) * 2 in
        let c1 := b - b * a / (4 * b - a) in
        let r := Qred (if Qlt_bool (1 # 10000000000000) c1 then 1 / (1 / c2 + 1 / c1) else c2) in
        match l with Some l => r * inject_Z (Z.of_nat l) | None => r end).
Proof.
  intros k t s a b l A B. unfold one_layer. cbn [andb]. rewrite A. cbn [bind]. rewrite turns_ge2, B. cbn [bind]. reflexivity.
Qed.

(** On a bobbin the winding always has a capacitance, above zero and below four
    times the two elements together; whole layers multiply it. *)
Theorem C194_positive : forall k t s, 0 < t -> 0 < s ->
  exists a r, cas (turns (S (S k))) t s = Ok a /\ one_layer false (turns (S (S k))) t s None = Ok r /\
    0 < r /\ r < 2 * a /\ r < 2 * (s + t) /\
    (forall l, exists r', one_layer false (turns (S (S k))) t s (Some l) = Ok r' /\ r' == inject_Z (Z.of_nat l) * r).
Proof.
  intros k t s T S. destruct (C193_bounds k t s T S) as (a & b & A & B & S1 & S2 & S3 & S4).
  exists a. eexists. split; [exact A|]. split; [apply (one_layer_ladder k t s a b None A B)|]. cbv zeta.
  set (c2 := 2 * b * a / (4 * b - a) * 2). set (c1 := b - b * a / (4 * b - a)).
  assert (P : 0 < 4 * b - a) by lra. assert (AB : 0 < a * b) by (apply Qmult_lt_0_compat; lra).
  assert (C2 : 0 < c2 /\ c2 < 2 * a).
  { assert (E : c2 == 4 * (a * b) / (4 * b - a)) by (unfold c2; field; lra). split; rewrite E.
    - apply Qlt_div_iff; [exact P|]. lra.
    - apply Qdiv_lt_iff; [exact P|]. assert (0 < a * (2 * b - a)) by (apply Qmult_lt_0_compat; lra). nra. }
  assert (R : 0 < (if Qlt_bool (1 # 10000000000000) c1 then 1 / (1 / c2 + 1 / c1) else c2) /\
              (if Qlt_bool (1 # 10000000000000) c1 then 1 / (1 / c2 + 1 / c1) else c2) <= c2).
  { destruct (Qlt_bool (1 # 10000000000000) c1) eqn:L; [|split; lra]. apply Qlt_bool_iff in L.
    assert (0 < c1) by lra. assert (E : 1 / (1 / c2 + 1 / c1) == c1 * c2 / (c1 + c2)) by (field; repeat split; lra).
    assert (0 < c1 * c2) by (apply Qmult_lt_0_compat; lra). rewrite E. split.
    - apply Qlt_div_iff; lra.
    - apply Qdiv_le_iff; [lra|]. assert (0 < c2 * c2) by (apply Qmult_lt_0_compat; lra). lra. }
  rewrite Qred_correct. repeat split; try lra.
  intro l. eexists. split; [apply (one_layer_ladder k t s a b (Some l) A B)|]. cbv zeta. fold c2 c1. apply Qmult_comm.
Qed.
(** A single turn is the element to the shield, whatever the window. *)
Theorem C194_single_turn : forall toroidal t s, one_layer toroidal 1 t s None = Ok s.
Proof. intros [|] t s; reflexivity. Qed.
(** Fractional or missing turns are refused on a bobbin. *)
Theorem C194_refuses : forall n t s l, 0 < t -> 0 < s ->
  (exists k, n == turns (S k)) \/ one_layer false n t s l = Throw "InvalidInput".
Proof.
  intros n t s l T S. destruct (C193_cas_answers n t s T S) as [K|K]; [left; exact K|right].
  unfold one_layer. cbn [andb]. rewrite K. reflexivity.
Qed.

(** The toroid: the voltage falls evenly over the turns and the core floats at
    their mean.  The energy method gives this capacitance, for one volt. *)
Fixpoint sum_upto (f : nat -> Q) (n : nat) : Q := match n with O => 0 | S k => sum_upto f k + f k end.
Definition share (n k : nat) : Q := turns k / turns (n - 1).
Definition toroid_energy_capacitance (n : nat) (t s : Q) : Q :=
  let mean := sum_upto (share n) n / turns n in
  sum_upto (fun k => t * ((share n (S k) - share n k) * (share n (S k) - share n k))) (n - 1) +
  sum_upto (fun k => s * ((share n k - mean) * (share n k - mean))) n.

Lemma turns_S : forall k, turns (S k) == turns k + 1.
Proof. intro k. unfold turns. rewrite Nat2Z.inj_succ. unfold Z.succ. rewrite inject_Z_plus. reflexivity. Qed.
Lemma turns_pos : forall k, 0 < turns (S k).
Proof. intro k. unfold turns. change 0 with (inject_Z 0). apply inj_lt. lia. Qed.
Lemma sum_ext : forall f g n, (forall k, f k == g k) -> sum_upto f n == sum_upto g n.
Proof. induction n as [|n IH]; intro E; [reflexivity|]. cbn [sum_upto]. rewrite (IH E), (E n). reflexivity. Qed.
Lemma sum_k : forall n, sum_upto turns n == turns n * (turns n - 1) * (1 # 2).
Proof. induction n as [|n IH]; [reflexivity|]. cbn [sum_upto]. rewrite IH, turns_S. ring. Qed.
Lemma sum_kk : forall n, sum_upto (fun k => turns k * turns k) n == turns n * (turns n - 1) * (2 * turns n - 1) * (1 # 6).
Proof. induction n as [|n IH]; [reflexivity|]. cbn [sum_upto]. rewrite IH, turns_S. ring. Qed.
Lemma sum_lin : forall f g a b n, sum_upto (fun k => a * f k + b * g k) n == a * sum_upto f n + b * sum_upto g n.
Proof. induction n as [|n IH]; cbn [sum_upto]; [ring|]. rewrite IH. ring. Qed.
Lemma sum_const : forall c n, sum_upto (fun _ => c) n == turns n * c.
Proof. induction n as [|n IH]; cbn [sum_upto]; [unfold turns; cbn; ring|]. rewrite IH, turns_S. ring. Qed.

Theorem C194_toroid_energy : forall m t s, (1 <= m)%nat -> 
  toroid_energy_capacitance (S m) t s == t / turns m + s * (turns m + 1) * (turns m + 2) / (12 * turns m) /\
  (exists r, one_layer true (turns (S m)) t s None = Ok r /\
     toroid_energy_capacitance (S m) t s - r == s * (turns m + 1) / (6 * turns m)).
Proof.
  intros m t s M. assert (P : 0 < turns m) by (destruct m; [lia|apply turns_pos]).
  assert (E : toroid_energy_capacitance (S m) t s == t / turns m + s * (turns m + 1) * (turns m + 2) / (12 * turns m)).
  { unfold toroid_energy_capacitance, share. replace (S m - 1)%nat with m by lia. cbv zeta.
    assert (A : sum_upto (fun k => turns k / turns m) (S m) == / turns m * (turns (S m) * (turns (S m) - 1) * (1 # 2))).
    { rewrite <- sum_k. rewrite (sum_ext _ (fun k => / turns m * turns k + 0 * 0)) by (intro; unfold Qdiv; ring). rewrite (sum_lin turns (fun _ => 0)). ring. }
    assert (MEAN : sum_upto (fun k => turns k / turns m) (S m) / turns (S m) == 1 # 2).
    { rewrite A, turns_S. field. split; lra. }
    rewrite (sum_ext (fun k => t * ((turns (S k) / turns m - turns k / turns m) * (turns (S k) / turns m - turns k / turns m))) (fun _ => t / (turns m * turns m)))
      by (intro k; rewrite turns_S; field; lra).
    rewrite sum_const.
    rewrite (sum_ext (fun k => s * ((turns k / turns m - sum_upto (fun k => turns k / turns m) (S m) / turns (S m)) * (turns k / turns m - sum_upto (fun k => turns k / turns m) (S m) / turns (S m))))
       (fun k => s / (turns m * turns m) * (turns k * turns k) + 1 * (- s / turns m * turns k + s * (1 # 4) * 1))).
    2:{ intro k. rewrite MEAN. field. lra. }
    rewrite (sum_lin (fun k => turns k * turns k) (fun k => - s / turns m * turns k + s * (1 # 4) * 1)).
    rewrite sum_kk. rewrite (sum_lin turns (fun _ => 1)). rewrite sum_k, sum_const, turns_S. field. lra. }
  split; [exact E|]. eexists. split.
  - unfold one_layer. replace (Qlt_bool 1 (turns (S m))) with true; [reflexivity|].
    symmetry. apply Qlt_bool_iff. rewrite turns_S. lra.
  - rewrite E, turns_S. field. repeat split; lra.
Qed.
(** So the closed form is low, by three at two turns and by less and less. *)
Theorem C194_toroid_low : forall m t s, (1 <= m)%nat -> 0 < t -> 0 < s ->
  exists r, one_layer true (turns (S m)) t s None = Ok r /\ 0 < r /\
    r < toroid_energy_capacitance (S m) t s /\ toroid_energy_capacitance (S m) t s < 3 * r /\
    (toroid_energy_capacitance (S m) t s - r) * turns m <= r * 2.
Proof.
  intros m t s M T S. destruct (C194_toroid_energy m t s M) as (E & r & R & D). exists r. split; [exact R|].
  assert (P : 0 < turns m) by (destruct m; [lia|apply turns_pos]).
  assert (P1 : 1 <= turns m) by (unfold turns; change 1 with (inject_Z 1); apply inj_le; lia).
  assert (V : r == t / turns m + s * (turns m + 1) / 12).
  { assert (X : r == toroid_energy_capacitance (Datatypes.S m) t s - s * (turns m + 1) / (6 * turns m)) by lra.
    rewrite X, E. field. lra. }
  assert (A : 0 < t / turns m) by (apply Qlt_div_iff; lra).
  assert (B : 0 < s * (turns m + 1)) by (apply Qmult_lt_0_compat; lra).
  assert (C : s * (turns m + 1) / 12 == s * (turns m + 1) * (1 # 12)) by field.
  assert (F : s * (turns m + 1) / (6 * turns m) == s * (turns m + 1) * (1 # 6) * / turns m) by (field; lra).
  assert (I1 : 0 < / turns m) by (apply Qinv_lt_0_compat; exact P).
  assert (I2 : / turns m <= 1).
  { setoid_replace (/ turns m) with (1 / turns m) by (field; lra). apply Qdiv_le_iff; lra. }
  assert (I3 : turns m * / turns m == 1) by (apply Qmult_inv_r; lra).
  rewrite C in V. rewrite F in D. set (q := s * (turns m + 1)) in *. set (i := / turns m) in *.
  assert (QI : 0 < q * i) by (apply Qmult_lt_0_compat; assumption).
  assert (QI2 : q * i <= q) by nra.
  repeat split; try lra.
  rewrite D. assert (X : q * (1 # 6) * i * turns m == q * (1 # 6) * (turns m * i)) by ring. rewrite X, I3. lra.
Qed.
(** Not monotone: a tenth of a picofarad is where a term starts to count, so a
    winding whose elements are all slightly larger comes out with less. *)
Theorem C194_larger_is_more_refuted :
  exists t t' s s' r r', 0 < t /\ t < t' /\ 0 < s /\ s < s' /\
    one_layer false 2 t s None = Ok r /\ one_layer false 2 t' s' None = Ok r' /\ r' * 2 < r.
Proof.
  exists (1 # 10000000000000), (11 # 100000000000000), (1 # 10000000000000), (11 # 100000000000000). do 2 eexists.
  do 4 (split; [reflexivity|]). split; [vm_compute; reflexivity|]. split; [vm_compute; reflexivity|]. vm_compute. reflexivity.
Qed.
Example C194_witness : (exists r, one_layer false 3 2 1 (Some 2%nat) = Ok r /\ 0 < r) /\
  (exists r, one_layer true 3 2 1 (Some 2%nat) = Ok r /\ r == 5 # 4) /\ toroid_energy_capacitance 3 2 1 == 3 # 2.
Proof. split; [eexists; split; [vm_compute; reflexivity|reflexivity]|]. split; [eexists; split; [vm_compute; reflexivity|reflexivity]|]. reflexivity. Qed.

(** * C195: two dielectrics in series *)
(** The thickness [t] of permittivity [e] holds the field like this. *)
Definition same_series (t1 e1 t2 e2 e : Q) : Prop := (t1 + t2) / e == t1 / e1 + t2 / e2.
Theorem C195_series : forall t1 e1 t2 e2, 0 <= t1 -> 0 <= t2 -> 0 < e1 -> 0 < e2 -> 0 < t1 + t2 ->
  let e := effective_permittivity (Some t1) e1 (Some t2) e2 in
  0 < e /\ same_series t1 e1 t2 e2 e /\ (forall m, m <= e1 -> m <= e2 -> m <= e) /\ (forall m, e1 <= m -> e2 <= m -> e <= m).
Proof.
  intros t1 e1 t2 e2 T1 T2 E1 E2 T. cbv zeta. unfold effective_permittivity, same_series.
  destruct (Qeq_bool t1 0) eqn:Z1; [apply Qeq_bool_iff in Z1|apply Qeq_bool_neq in Z1].
  { repeat split; [exact E2| |intros; assumption|intros; assumption]. rewrite Z1. field. split; lra. }
  destruct (Qeq_bool t2 0) eqn:Z2; [apply Qeq_bool_iff in Z2|apply Qeq_bool_neq in Z2].
  { repeat split; [exact E1| |intros; assumption|intros; assumption]. rewrite Z2. field. split; lra. }
  assert (P1 : 0 < t1) by (destruct (Qlt_le_dec 0 t1); [assumption|exfalso; apply Z1; lra]).
  assert (P2 : 0 < t2) by (destruct (Qlt_le_dec 0 t2); [assumption|exfalso; apply Z2; lra]).
  assert (A : 0 < t1 * e2) by (apply Qmult_lt_0_compat; assumption). assert (B : 0 < t2 * e1) by (apply Qmult_lt_0_compat; assumption).
  assert (C : 0 < e1 * e2) by (apply Qmult_lt_0_compat; assumption).
  assert (D : 0 < t1 * e2 + t2 * e1) by lra.
  repeat split.
  - apply Qlt_div_iff; [exact D|]. assert (0 < e1 * e2 * (t1 + t2)) by (apply Qmult_lt_0_compat; lra). lra.
  - assert (N : ~ e1 * e2 * (t1 + t2) == 0) by (assert (0 < e1 * e2 * (t1 + t2)) by (apply Qmult_lt_0_compat; lra); lra).
    field. repeat split; lra.
  - intros m M1 M2. apply Qle_div_iff; [exact D|].
    assert (t1 * e2 * m <= t1 * e2 * e1) by (rewrite !(Qmult_comm (t1 * e2)); apply Qmult_le_compat_r; lra).
    assert (t2 * e1 * m <= t2 * e1 * e2) by (rewrite !(Qmult_comm (t2 * e1)); apply Qmult_le_compat_r; lra). lra.
  - intros m M1 M2. apply Qdiv_le_iff; [exact D|].
    assert (t1 * e2 * e1 <= t1 * e2 * m) by (rewrite !(Qmult_comm (t1 * e2)); apply Qmult_le_compat_r; lra).
    assert (t2 * e1 * e2 <= t2 * e1 * m) by (rewrite !(Qmult_comm (t2 * e1)); apply Qmult_le_compat_r; lra). lra.
Qed.
Theorem C195_symmetric : forall t1 e1 t2 e2, 0 < e1 -> 0 < e2 -> ~ (exists x, t1 = Some x /\ x < 0) -> ~ (exists x, t2 = Some x /\ x < 0) ->
  (forall x y, t1 = Some x -> t2 = Some y -> ~ (x == 0 /\ y == 0)) ->
  effective_permittivity t1 e1 t2 e2 == effective_permittivity t2 e2 t1 e1.
Proof.
  intros t1 e1 t2 e2 E1 E2 N1 N2 N.
  assert (MX : cmax e1 e2 == cmax e2 e1).
  { unfold cmax. destruct (Qlt_bool e1 e2) eqn:A, (Qlt_bool e2 e1) eqn:B; rewrite ?Qlt_bool_iff, ?Qlt_bool_false in *; lra. }
  destruct t1 as [x|], t2 as [y|]; cbn [effective_permittivity]; try exact MX.
  destruct (Qeq_bool x 0) eqn:A, (Qeq_bool y 0) eqn:B; try reflexivity.
  - apply Qeq_bool_iff in A. apply Qeq_bool_iff in B. exfalso. apply (N x y); auto.
  - apply Qeq_bool_neq in A. apply Qeq_bool_neq in B.
    assert (0 < x) by (destruct (Qlt_le_dec 0 x); [assumption|exfalso; apply N1; exists x; split; [reflexivity|]; apply Qnot_le_lt; intro; apply A; lra]).
    assert (0 < y) by (destruct (Qlt_le_dec 0 y); [assumption|exfalso; apply N2; exists y; split; [reflexivity|]; apply Qnot_le_lt; intro; apply B; lra]).
    assert (0 < x * e2) by (apply Qmult_lt_0_compat; assumption). assert (0 < y * e1) by (apply Qmult_lt_0_compat; assumption).
    field. repeat split; lra.
Qed.
(** With no thickness at all the order of the two decides. *)
Theorem C195_nothing_between_refuted : exists e1 e2, 0 < e1 /\ 0 < e2 /\
  ~ effective_permittivity (Some 0) e1 (Some 0) e2 == effective_permittivity (Some 0) e2 (Some 0) e1.
Proof. exists 1, 3. repeat split; try lra. vm_compute. discriminate. Qed.
Example C195_witness : effective_permittivity (Some 1) 2 (Some 3) 6 == 4.
Proof. reflexivity. Qed.
Print Assumptions C193_cas_answers.
Print Assumptions C193_cab_answers.
Print Assumptions C193_cas_network.
Print Assumptions C193_cab_network.
Print Assumptions C193_bounds.
Print Assumptions C193_monotone.
Print Assumptions C193_grows_with_elements.
Print Assumptions C193_converges.
Print Assumptions C193_geometric_mean_refuted.
Print Assumptions C194_positive.
Print Assumptions C194_single_turn.
Print Assumptions C194_refuses.
Print Assumptions C194_toroid_energy.
Print Assumptions C194_toroid_low.
Print Assumptions C194_larger_is_more_refuted.
Print Assumptions C195_series.
Print Assumptions C195_symmetric.
Print Assumptions C195_nothing_between_refuted.
