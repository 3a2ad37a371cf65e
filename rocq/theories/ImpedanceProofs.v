(** Lemmas on the impedance: complex figures, the double series of the core's cross
    section, the cascade of tanks. *)
From Coq Require Import Reals List Bool String ZArith Lia Lra Permutation Machin.
From Verif Require Import Base ImpedanceModel.
Import ListNotations.
Local Open Scope R_scope.

(** * Complex figures *)
Lemma square_pos : forall a, 0 <= square a.
Proof. intros [x y]. unfold square. cbn [fst snd]. nra. Qed.
Lemma square_zero : forall a, square a = 0 <-> a = (0, 0).
Proof.
  intros [x y]. unfold square. cbn [fst snd]. split.
  - intro H. assert (x = 0) by nra. assert (y = 0) by nra. now subst.
  - intro H. injection H as -> ->. ring.
Qed.
Lemma square_nonzero : forall a, a <> (0, 0) -> 0 < square a.
Proof. intros a H. pose proof (square_pos a). pose proof (proj1 (square_zero a)). destruct (Req_dec (square a) 0); [tauto | lra]. Qed.
Lemma inverse_some : forall a b, cinverse a = Some b <->
  a <> (0, 0) /\ b = (fst a / square a, - snd a / square a).
Proof.
  intros a b. unfold cinverse. destruct (Req_EM_T (square a) 0) as [E|N]; split.
  - discriminate.
  - intros (H & _). apply square_zero in E. contradiction.
  - intro H. injection H as <-. split; [|reflexivity]. intro E. apply N, square_zero, E.
  - intros (_ & ->). reflexivity.
Qed.
Lemma inverse_re : forall a b, cinverse a = Some b -> (0 <= fst a -> 0 <= fst b) /\ (0 < fst a -> 0 < fst b).
Proof.
  intros a b H. apply inverse_some in H. destruct H as (N & ->). apply square_nonzero in N. cbn [fst]. split; intro L.
  - apply Rmult_le_pos; [exact L|]. left. apply Rinv_0_lt_compat, N.
  - apply Rdiv_lt_0_compat; assumption.
Qed.

Lemma osum_comm : forall a b, osum a b = osum b a.
Proof. intros [[x y]|] [[x' y']|]; try reflexivity. cbn. unfold cplus. cbn. now rewrite (Rplus_comm x), (Rplus_comm y). Qed.
Lemma osum_assoc : forall a b c, osum (osum a b) c = osum a (osum b c).
Proof. intros [[x y]|] [[x' y']|] [[x'' y'']|]; try reflexivity. cbn. unfold cplus. cbn. now rewrite !Rplus_assoc. Qed.
Lemma osum_zero : forall a, osum (Some (0, 0)) a = a.
Proof. intros [[x y]|]; [|reflexivity]. cbn. unfold cplus. cbn. now rewrite !Rplus_0_l. Qed.
Lemma osum_some : forall a b z, osum a b = Some z -> exists x y, a = Some x /\ b = Some y /\ z = cplus x y.
Proof. intros [x|] [y|] z H; try discriminate. injection H as <-. eauto. Qed.

Definition total (l : list (option complex)) : option complex := fold_right osum (Some (0, 0)) l.
Lemma total_perm : forall l l', Permutation l l' -> total l = total l'.
Proof.
  intros l l' P. induction P; cbn [total fold_right]; [reflexivity | | | congruence].
  - fold (total l) (total l'). now rewrite IHP.
  - fold (total l). now rewrite <- !osum_assoc, (osum_comm x y).
Qed.
Lemma total_app : forall l l', total (l ++ l') = osum (total l) (total l').
Proof.
  induction l as [|x l IH]; intro l'; [symmetry; apply osum_zero|]. cbn [app total fold_right]. fold (total l) (total (l ++ l')).
  now rewrite IH, osum_assoc.
Qed.

(** * The double series *)
Lemma inner_total : forall a b k2 m ns s, inner_sum a b k2 m ns s = osum s (total (map (series_term a b k2 m) ns)).
Proof.
  intros a b k2 m ns. induction ns as [|n ns IH]; intro s; cbn [inner_sum map total fold_right].
  - rewrite osum_comm. symmetry. apply osum_zero.
  - fold (total (map (series_term a b k2 m) ns)). now rewrite IH, osum_assoc.
Qed.
Lemma double_total : forall a b k2 ms ns s, double_sum a b k2 ms ns s
  = osum s (total (map (fun m => total (map (series_term a b k2 m) ns)) ms)).
Proof.
  intros a b k2 ms ns. induction ms as [|m ms IH]; intro s; cbn [double_sum map total fold_right].
  - rewrite osum_comm. symmetry. apply osum_zero.
  - fold (total (map (fun m => total (map (series_term a b k2 m) ns)) ms)). now rewrite IH, inner_total, osum_assoc.
Qed.
Lemma total_cons : forall x l, total (x :: l) = osum x (total l).
Proof. reflexivity. Qed.
Lemma total_pairs : forall (B : Type) (f h : B -> option complex) ns,
  total (map (fun n => osum (f n) (h n)) ns) = osum (total (map f ns)) (total (map h ns)).
Proof.
  intros B f h. induction ns as [|n ns IH]; [symmetry; apply osum_zero|]. cbn [map]. rewrite !total_cons, IH, !osum_assoc. f_equal.
  rewrite <- !osum_assoc. f_equal. apply osum_comm.
Qed.
Lemma total_swap : forall (A B : Type) (g : A -> B -> option complex) ms ns,
  total (map (fun m => total (map (g m) ns)) ms) = total (map (fun n => total (map (fun m => g m n) ms)) ns).
Proof.
  intros A B g ms ns. induction ms as [|m ms IH].
  - cbn [map]. induction ns as [|n ns IHn]; [reflexivity|]. cbn [map]. rewrite total_cons, <- IHn. symmetry. apply osum_zero.
  - cbn [map]. rewrite total_cons, IH, <- total_pairs. reflexivity.
Qed.
Lemma term_swap : forall a b k2 m n, series_term a b k2 m n = series_term b a k2 n m.
Proof.
  intros a b k2 m n. unfold series_term. cbv zeta.
  replace (PI ^ 4 * m * m * n * n) with (PI ^ 4 * n * n * m * m) by ring.
  replace ((m * PI / a) ^ 2 + (n * PI / b) ^ 2) with ((n * PI / b) ^ 2 + (m * PI / a) ^ 2) by ring. reflexivity.
Qed.
Lemma double_swap : forall a b k2 ns s, double_sum a b k2 ns ns s = double_sum b a k2 ns ns s.
Proof.
  intros a b k2 ns s. rewrite !double_total. f_equal. rewrite total_swap. f_equal. apply map_ext. intro n. f_equal.
  apply map_ext. intro m. apply term_swap.
Qed.

(** The weight of a term, and of all. *)
Definition weight (m n : R) : R := 64 / (PI ^ 4 * (m * m) * (n * n)).
Fixpoint inverse_squares (ns : list R) : R := match ns with [] => 0 | n :: rest => / (n * n) + inverse_squares rest end.

Lemma term_bound : forall a b alpha x y e h m n t, 0 < alpha -> 0 <= y -> 0 <= h -> m <> 0 -> n <> 0 ->
  series_term a b (cscale alpha (ctimes (x, - y) (e, - h))) m n = Some t ->
  snd (ctimes (x, - y) t) <= weight m n * y.
Proof.
  intros a b alpha x y e h m n t A Y H M N. unfold series_term. cbv zeta.
  set (K := (m * PI / a) ^ 2 + (n * PI / b) ^ 2).
  assert (K0 : 0 <= K) by (unfold K; pose proof (pow2_ge_0 (m * PI / a)); pose proof (pow2_ge_0 (n * PI / b)); lra).
  set (s := PI ^ 4 * m * m * n * n).
  assert (Sp : 0 < s).
  { unfold s. pose proof PI_RGT_0. assert (0 < PI ^ 4) by (apply pow_lt; assumption).
    assert (0 < m * m) by nra. assert (0 < n * n) by nra.
    replace (PI ^ 4 * m * m * n * n) with (PI ^ 4 * (m * m) * (n * n)) by ring. apply Rmult_lt_0_compat; [|assumption]. apply Rmult_lt_0_compat; assumption. }
  unfold cscale, cminus, ctimes. cbn [fst snd].
  set (Dr := K - alpha * (x * e - - y * - h)). set (Di := 0 - alpha * (x * - h + - y * e)).
  destruct (cinverse (s * Dr, s * Di)) as [i|] eqn:I; [|discriminate]. cbn [obind]. intro E. injection E as <-.
  apply inverse_some in I. destruct I as (NZ & ->). apply square_nonzero in NZ. unfold square in *. cbn [fst snd] in *.
  set (q := Dr * Dr + Di * Di).
  assert (Q : s * Dr * (s * Dr) + s * Di * (s * Di) = s * s * q) by (unfold q; ring).
  rewrite Q in *. assert (Qp : 0 < q) by nra.
  assert (W : weight m n = 64 / s) by (unfold weight, s; f_equal; ring).
  rewrite W.
  match goal with |- ?l <= _ => assert (E : l = 64 / s * (y - K * (y * K + alpha * h * (x * x + y * y)) / q)) end.
  { apply Rmult_eq_reg_r with (s * q); [|nra].
    replace (64 / s * (y - K * (y * K + alpha * h * (x * x + y * y)) / q) * (s * q))
      with (64 * (y * q - K * (y * K + alpha * h * (x * x + y * y)))) by (field; lra).
    unfold Rdiv. rewrite (Rinv_mult (s * s) q), (Rinv_mult s s).
    assert (Si : s * / s = 1) by (apply Rinv_r; lra). assert (Qi : q * / q = 1) by (apply Rinv_r; lra).
    set (si := / s) in *. set (qi := / q) in *.
    transitivity (64 * (x * (alpha * (x * e - - y * - h) * (- Di) + alpha * (x * - h + - y * e) * Dr)
       + - y * (alpha * (x * e - - y * - h) * Dr - alpha * (x * - h + - y * e) * (- Di))) * (s * si) * (s * si) * (q * qi)).
    - ring.
    - rewrite Si, Qi. unfold q, Dr, Di. ring. }
  rewrite E. apply Rmult_le_compat_l; [left; apply Rdiv_lt_0_compat; lra|].
  assert (0 <= K * (y * K + alpha * h * (x * x + y * y)) / q); [|lra].
  apply Rmult_le_pos; [|left; apply Rinv_0_lt_compat, Qp]. apply Rmult_le_pos; [exact K0|].
  assert (0 <= y * K) by (apply Rmult_le_pos; assumption).
  assert (0 <= alpha * h * (x * x + y * y)); [|lra]. apply Rmult_le_pos; [apply Rmult_le_pos; lra | nra].
Qed.
Lemma ctimes_plus : forall u a b, snd (ctimes u (cplus a b)) = snd (ctimes u a) + snd (ctimes u b).
Proof. intros [x y] [a a'] [b b']. unfold ctimes, cplus. cbn. ring. Qed.

Lemma inner_bound : forall a b alpha x y e h m ns t, 0 < alpha -> 0 <= y -> 0 <= h -> m <> 0 -> (forall n, In n ns -> n <> 0) ->
  total (map (series_term a b (cscale alpha (ctimes (x, - y) (e, - h))) m) ns) = Some t ->
  snd (ctimes (x, - y) t) <= 64 / PI ^ 4 * / (m * m) * inverse_squares ns * y.
Proof.
  intros a b alpha x y e h m ns. induction ns as [|n ns IH]; intros t A Y H M N E.
  - injection E as <-. cbn. lra.
  - cbn [map total fold_right] in E. apply osum_some in E. destruct E as (u & v & E1 & E2 & ->).
    rewrite ctimes_plus. cbn [inverse_squares].
    assert (N0 : n <> 0) by (apply N; left; reflexivity).
    pose proof (term_bound a b alpha x y e h m n u A Y H M N0 E1).
    specialize (IH v A Y H M (fun k I => N k (or_intror I)) E2).
    assert (W : weight m n = 64 / PI ^ 4 * / (m * m) * / (n * n)).
    { unfold weight. pose proof PI_RGT_0. field. repeat split; try assumption. lra. }
    rewrite W in *. nra.
Qed.
Lemma double_bound : forall a b alpha x y e h ms ns t, 0 < alpha -> 0 <= y -> 0 <= h ->
  (forall n, In n ms -> n <> 0) -> (forall n, In n ns -> n <> 0) ->
  total (map (fun m => total (map (series_term a b (cscale alpha (ctimes (x, - y) (e, - h))) m) ns)) ms) = Some t ->
  snd (ctimes (x, - y) t) <= 64 / PI ^ 4 * inverse_squares ms * inverse_squares ns * y.
Proof.
  intros a b alpha x y e h ms ns. induction ms as [|m ms IH]; intros t A Y H M N E.
  - injection E as <-. cbn. lra.
  - cbn [map total fold_right] in E. apply osum_some in E. destruct E as (u & v & E1 & E2 & ->).
    rewrite ctimes_plus. cbn [inverse_squares].
    assert (N0 : m <> 0) by (apply M; left; reflexivity).
    pose proof (inner_bound a b alpha x y e h m ns u A Y H N0 N E1).
    specialize (IH v A Y H (fun k I => M k (or_intror I)) N E2). nra.
Qed.

(** The inverse squares of the odd numbers stay below [PI ^ 2 / 8]. *)
Lemma odds_sum : forall k : nat, inverse_squares (odds (6 + k)) <= 1 + 1/9 + 1/25 + 1/49 + 1/81 + 1/121 + 1 / 4 * (1 / 6 - / INR (6 + k)).
Proof.
  assert (App : forall l x, inverse_squares (l ++ [x]) = inverse_squares l + / (x * x)).
  { induction l as [|z l IH]; intro x; cbn [app inverse_squares]; [ring | rewrite IH; ring]. }
  induction k as [|k IH].
  - unfold odds. cbn [seq map Nat.add inverse_squares INR]. lra.
  - assert (Od : forall n, odds (S n) = odds n ++ [2 * INR n + 1]) by (intro n; unfold odds; now rewrite seq_S, map_app).
    replace (6 + S k)%nat with (S (6 + k)) by lia. rewrite Od, App, S_INR. set (j := INR (6 + k)) in *.
    assert (J : 6 <= j).
    { unfold j. rewrite plus_INR. pose proof (pos_INR k). cbn [INR]. lra. }
    assert (/ ((2 * j + 1) * (2 * j + 1)) <= 1 / 4 * (/ j - / (j + 1))); [|lra].
    replace (1 / 4 * (/ j - / (j + 1))) with (/ (4 * j * (j + 1))) by (field; lra).
    apply Rinv_le_contravar; nra.
Qed.
Lemma PI_low : 3136 / 1000 < PI.
Proof.
  destruct (PI_2_3_7_ineq 1) as (H & _). cbn [Nat.mul Nat.add sum_f_R0] in H.
  unfold tg_alt, PI_2_3_7_tg, Ratan_seq in H. cbn [Nat.mul Nat.add pow INR] in H. lra.
Qed.
Lemma odds_weight : 64 / PI ^ 4 * inverse_squares (odds 41) * inverse_squares (odds 41) < 1.
Proof.
  pose proof (odds_sum 35) as H. change (6 + 35)%nat with 41%nat in H.
  assert (I41 : INR 41 = 41) by (rewrite INR_IZR_INZ; reflexivity). rewrite I41 in H.
  set (s := inverse_squares (odds 41)) in *.
  assert (S1 : s <= 12281 / 10000) by lra.
  assert (S0 : 0 <= s).
  { unfold s. generalize (odds 41). induction l as [|n l IH]; [cbn; lra|]. cbn [inverse_squares].
    assert (0 <= / (n * n)); [|lra]. destruct (Req_dec n 0) as [->|N]; [rewrite Rmult_0_l, Rinv_0; lra|].
    left. apply Rinv_0_lt_compat. nra. }
  pose proof PI_low as P.
  assert (P2 : 98344 / 10000 < PI * PI) by nra.
  assert (P4 : 64 * (12281 / 10000) * (12281 / 10000) < PI ^ 4) by
   (replace (PI ^ 4) with (PI * PI * (PI * PI)) by ring; set (u := PI * PI) in *;
    assert (98344 / 10000 * (98344 / 10000) < u * u) by (apply Rmult_gt_0_lt_compat; lra); lra).
  assert (s * s <= 12281 / 10000 * (12281 / 10000)) by (apply Rmult_le_compat; lra).
  assert (64 * s * s < PI ^ 4) by lra.
  replace (64 / PI ^ 4 * s * s) with (64 * s * s / PI ^ 4) by (unfold Rdiv; ring).
  apply Rmult_lt_reg_r with (PI ^ 4); [lra|]. unfold Rdiv. rewrite Rmult_assoc, Rinv_l by lra. lra.
Qed.
Lemma odds_nonzero : forall k n, In n (odds k) -> n <> 0.
Proof. intros k n H. unfold odds in H. apply in_map_iff in H. destruct H as (i & <- & _). pose proof (pos_INR i). lra. Qed.

(** * Tanks *)
Lemma shunted_some : forall f arm c z, 0 < f -> shunted f arm c = Some z ->
  (c <= 0 /\ z = arm)
  \/ (0 < c /\ arm <> (0, 0) /\ exists y, y = (fst arm / square arm, - snd arm / square arm + 2 * PI * f * c)
        /\ cinverse y = Some z).
Proof.
  intros f arm c z F. unfold shunted. cbv zeta. destruct (Rlt_dec 0 c) as [C|C].
  - pose proof PI_RGT_0 as P. assert (W : 0 < 2 * PI * f * c) by (apply Rmult_lt_0_compat; [apply Rmult_lt_0_compat; lra | exact C]).
    destruct (Req_EM_T (2 * PI * f * c) 0) as [|_]; [lra|].
    destruct (cinverse arm) as [i|] eqn:I; [|discriminate]. cbn [obind].
    destruct (cinverse (0, - 1 / (2 * PI * f * c))) as [k|] eqn:K; [|discriminate]. cbn [obind]. intro E.
    right. split; [exact C|]. apply inverse_some in I. destruct I as (N & ->). split; [exact N|].
    apply inverse_some in K. destruct K as (_ & ->). unfold square in E at 3 4. cbn [fst snd] in E.
    exists (fst arm / square arm, - snd arm / square arm + 2 * PI * f * c). split; [reflexivity|].
    rewrite <- E. f_equal. unfold cplus. cbn [fst snd]. set (w := 2 * PI * f * c) in *. pose proof (square_nonzero _ N) as Sq. set (q := square arm) in *. f_equal; field; repeat split; lra.
  - intro E. injection E as <-. left. split; [lra | reflexivity].
Qed.
Lemma shunted_total : forall f arm c, 0 < f -> 0 < fst arm -> exists z, shunted f arm c = Some z.
Proof.
  intros f arm c F A. unfold shunted. cbv zeta. destruct (Rlt_dec 0 c) as [C|C]; [|eauto].
  pose proof PI_RGT_0 as P. assert (W : 0 < 2 * PI * f * c) by (apply Rmult_lt_0_compat; [apply Rmult_lt_0_compat; lra | exact C]).
  destruct (Req_EM_T (2 * PI * f * c) 0) as [|_]; [lra|].
  assert (S : forall a : complex, fst a <> 0 \/ snd a <> 0 -> exists b, cinverse a = Some b).
  { intros a H. eexists. apply inverse_some. split; [|reflexivity]. intros ->. cbn in H. lra. }
  destruct (S arm) as (i & I); [left; lra|]. rewrite I. cbn [obind].
  destruct (S (0, - 1 / (2 * PI * f * c))) as (k & K).
  { right. cbn. set (w := 2 * PI * f * c) in *. unfold Rdiv. intro E. apply Rmult_integral in E.
    pose proof (Rinv_0_lt_compat w W). lra. }
  rewrite K. cbn [obind]. apply S. left. unfold cplus. cbn [fst].
  pose proof (proj2 (inverse_re _ _ I) A). apply inverse_some in K. destruct K as (_ & ->). cbn [fst]. unfold Rdiv. rewrite Rmult_0_l. lra.
Qed.
Lemma shunted_re : forall f arm c z, 0 < f -> shunted f arm c = Some z ->
  (0 <= fst arm -> 0 <= fst z) /\ (0 < fst arm -> 0 < fst z).
Proof.
  intros f arm c z F H. destruct (shunted_some f arm c z F H) as [(_ & ->)|(_ & N & y & -> & I)]; [auto|].
  destruct (inverse_re _ _ I) as (P & Q). cbn [fst] in *. apply square_nonzero in N. split; intro L.
  - apply P. apply Rmult_le_pos; [exact L|]. left. apply Rinv_0_lt_compat, N.
  - apply Q. apply Rdiv_lt_0_compat; assumption.
Qed.
Lemma cascade_total : forall m f mu ts s, cascade m f mu ts s
  = osum s (total (map (fun t => shunted f (series_arm m f mu t) (t_capacitance t)) ts)).
Proof.
  intros m f mu ts. induction ts as [|t ts IH]; intro s; cbn [cascade map total fold_right].
  - rewrite osum_comm. symmetry. apply osum_zero.
  - fold (total (map (fun t => shunted f (series_arm m f mu t) (t_capacitance t)) ts)). now rewrite IH, osum_assoc.
Qed.
Lemma total_re : forall l z, (forall x, In (Some x) l -> 0 <= fst x) -> total l = Some z -> 0 <= fst z.
Proof.
  induction l as [|o l IH]; intros z H E; [injection E as <-; cbn; lra|].
  cbn [total fold_right] in E. apply osum_some in E. destruct E as (x & y & -> & E2 & ->). unfold cplus. cbn [fst].
  pose proof (H x (or_introl eq_refl)). pose proof (IH y (fun u I => H u (or_intror I)) E2). lra.
Qed.
