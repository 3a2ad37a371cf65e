(** Lemmas about the layout of the gaps of a core. *)
From Coq Require Import ZArith QArith Qround Qabs List Bool String Lia Lqa Arith.
From Verif Require Import Base QAux UtilsNumModel UtilsNumProofs GappingModel.
Import ListNotations.
Open Scope Q_scope.

(** * Booleans *)
Lemma lt_bool_true : forall x y, Qlt_bool x y = true <-> x < y.
Proof.
  intros. unfold Qlt_bool. rewrite Bool.negb_true_iff. split; intro H.
  - destruct (Qlt_le_dec x y) as [L|L]; [assumption|]. apply Qle_bool_iff in L. congruence.
  - destruct (Qle_bool y x) eqn:E; [|reflexivity]. apply Qle_bool_iff in E. lra.
Qed.

Lemma lt_bool_false : forall x y, Qlt_bool x y = false <-> y <= x.
Proof.
  intros. unfold Qlt_bool. rewrite Bool.negb_false_iff. apply Qle_bool_iff.
Qed.

Lemma lt_bool_comp : forall x y u v, x == u -> y == v -> Qlt_bool x y = Qlt_bool u v.
Proof.
  intros x y u v E F. destruct (Qlt_bool u v) eqn:B.
  - apply lt_bool_true in B. apply lt_bool_true. rewrite E, F. exact B.
  - apply lt_bool_false in B. apply lt_bool_false. rewrite E, F. exact B.
Qed.

Lemma kind_eqb_spec : forall a b, kind_eqb a b = true <-> a = b.
Proof. intros [] []; cbn; split; congruence. Qed.

(** * Half a nanometre *)
Definition tick : Q := 1 # 2000000000.

Lemma round_near : forall x, Qabs (roundFloat x 9 - x) <= tick.
Proof. intro x. pose proof (roundFloat_near x 9) as H. exact H. Qed.

Lemma round_bounds : forall x, x - tick <= roundFloat x 9 <= x + tick.
Proof.
  intro x. pose proof (round_near x) as H. apply Qabs_Qle_condition in H. lra.
Qed.

(** A whole number of nanometres. *)
Definition whole (x : Q) : Prop := exists z : Z, x == inject_Z z / p10 9.

Lemma whole_round : forall x, whole (roundFloat x 9).
Proof. intro x. eexists. reflexivity. Qed.

Lemma whole_0 : whole 0.
Proof. exists 0%Z. reflexivity. Qed.

Lemma whole_add : forall x y, whole x -> whole y -> whole (x + y).
Proof.
  intros x y [a A] [b B]. exists (a + b)%Z. rewrite A, B, inject_Z_plus.
  pose proof (p10_pos 9). field. lra.
Qed.

Lemma whole_sub : forall x y, whole x -> whole y -> whole (x - y).
Proof.
  intros x y [a A] [b B]. exists (a - b)%Z. rewrite A, B.
  unfold Z.sub. rewrite inject_Z_plus, inject_Z_opp.
  pose proof (p10_pos 9). field. lra.
Qed.

Lemma whole_comp : forall x y, x == y -> whole x -> whole y.
Proof. intros x y E [z Z]. exists z. rewrite <- E. exact Z. Qed.

Lemma round_whole : forall x, whole x -> roundFloat x 9 == x.
Proof. intros x [z Z]. eapply roundFloat_grid. exact Z. Qed.

Lemma round_comp : forall x y, x == y -> roundFloat x 9 == roundFloat y 9.
Proof.
  intros x y E.
  assert (A : roundFloat x 9 <= roundFloat y 9) by (apply roundFloat_mono; lra).
  assert (B : roundFloat y 9 <= roundFloat x 9) by (apply roundFloat_mono; lra).
  lra.
Qed.

Lemma round_0 : roundFloat 0 9 == 0.
Proof. apply round_whole, whole_0. Qed.

Lemma round_nonneg : forall x, 0 <= x -> 0 <= roundFloat x 9.
Proof.
  intros x H. pose proof (roundFloat_mono 0 x 9 H) as M. pose proof round_0. lra.
Qed.

Lemma whole_le : forall x y, whole x -> whole y -> x - tick < y -> x - 2 * tick < y.
Proof. intros. unfold tick in *. lra. Qed.

(** More than half a nanometre below zero is needed to round below zero. *)
Lemma round_not_negative : forall x, - tick < x -> 0 <= roundFloat x 9.
Proof.
  intros x H. destruct (whole_round x) as [z Z]. pose proof (round_bounds x) as B.
  assert (P : p10 9 == 1000000000) by reflexivity.
  destruct (Z_lt_le_dec z 0) as [N|N].
  - exfalso. assert (inject_Z z <= inject_Z (-1)) as L by (rewrite <- Zle_Qle; lia).
    assert (E : inject_Z z / p10 9 * p10 9 == inject_Z z) by (rewrite P; field).
    rewrite <- Z, P in E. unfold tick in *. change (inject_Z (-1)) with (-(1)) in L. lra.
  - rewrite Z. apply Qle_div_iff; [rewrite P; lra|]. rewrite Qmult_0_l.
    change 0 with (inject_Z 0). rewrite <- Zle_Qle. exact N.
Qed.

(** * Gaps in the middle of their columns *)
Definition middle (b : body) (x : column * (kind * Q)) : gap :=
  place b (fst x) (fst (snd x)) (snd (snd x)) (c_at (fst x))
    (c_height (fst x) / 2 - snd (snd x) / 2).

Definition shorter (x : column * (kind * Q)) : Prop := snd (snd x) <= c_height (fst x).

Lemma half_fits : forall h x, Qlt_bool (h / 2 - x / 2) 0 = false <-> x <= h.
Proof.
  intros. rewrite lt_bool_false.
  assert (E : h / 2 - x / 2 == (h - x) * (1 # 2)) by field.
  split; intro; lra.
Qed.

Lemma lay_spec : forall b l,
  (Forall shorter l /\ lay b l = Some (map (middle b) l)) \/
  (~ Forall shorter l /\ lay b l = None).
Proof.
  intros b l. induction l as [|[c [k x]] r IH].
  - left. split; [constructor|reflexivity].
  - cbn [lay]. destruct (Qlt_bool (c_height c / 2 - x / 2) 0) eqn:B.
    + right. split; [|reflexivity]. intro F. inversion F as [|? ? S ?]; subst.
      apply half_fits in S. cbn in S. congruence.
    + apply half_fits in B. destruct IH as [[F E]|[F E]]; rewrite E.
      * left. split; [constructor; assumption|reflexivity].
      * right. split; [|reflexivity]. intro G. inversion G; subst. contradiction.
Qed.

Lemma lay_some : forall b l r, lay b l = Some r -> Forall shorter l /\ r = map (middle b) l.
Proof.
  intros b l r H. destruct (lay_spec b l) as [[F E]|[F E]]; rewrite E in H; [|discriminate].
  split; [assumption|]. congruence.
Qed.

(** * Gaps of the winding column *)
Definition near_end (total i : nat) : Q := inject_Z (Z.min (Z.of_nat i) (Z.of_nat total - 1 - Z.of_nat i)).

Lemma near_end_step : forall total i,
  near_end total (S i) ==
  near_end total i + (if Nat.ltb (2 * i + 2) total then 1
                      else if Nat.ltb total (2 * i + 2) then -(1) else 0).
Proof.
  intros total i. unfold near_end.
  destruct (Nat.ltb (2 * i + 2) total) eqn:A; [|destruct (Nat.ltb total (2 * i + 2)) eqn:B].
  - apply Nat.ltb_lt in A. change 1 with (inject_Z 1). rewrite <- inject_Z_plus.
    apply inject_Z_injective. lia.
  - apply Nat.ltb_lt in B. change (-(1)) with (inject_Z (-1)). rewrite <- inject_Z_plus.
    apply inject_Z_injective. lia.
  - apply Nat.ltb_ge in A, B. change 0 with (inject_Z 0). rewrite <- inject_Z_plus.
    apply inject_Z_injective. lia.
Qed.

Definition standing (b : body) (c : column) (g : gap) (offset d : Q) : gap :=
  place b c (g_kind g) (g_length g)
    (Point (px (c_at c)) (py (c_at c) + offset) (pz (c_at c))) d.

Lemma count_S : forall k, count (S k) == count k + 1.
Proof.
  intro k. unfold count. rewrite Nat2Z.inj_succ. unfold Z.succ. rewrite inject_Z_plus. reflexivity.
Qed.

Lemma count_0 : count 0 == 0.
Proof. reflexivity. Qed.

Lemma count_nonneg : forall n, 0 <= count n.
Proof. intro n. unfold count. change 0 with (inject_Z 0). rewrite <- Zle_Qle. lia. Qed.

Lemma spread_some : forall b c total chunk step d0, whole chunk -> whole d0 ->
  forall l i offset d r, (i + List.length l = total)%nat ->
  d == d0 + chunk * near_end total i ->
  spread b c total chunk step i offset d l = Some r ->
  List.length r = List.length l /\
  forall k g, nth_error l k = Some g ->
    exists o e, nth_error r k = Some (standing b c g o e) /\
      o == offset + count k * step /\ e == d0 + chunk * near_end total (i + k) /\ 0 <= e.
Proof.
  intros b c total chunk step d0 C D l.
  induction l as [|g l IH]; intros i offset d r T E H.
  - cbn in H. inversion H; subst. split; [reflexivity|]. intros [|k] g G; discriminate.
  - cbn [spread] in H. destruct (Qlt_bool d 0) eqn:B; [discriminate|].
    apply lt_bool_false in B.
    set (d' := if Nat.ltb (2 * i + 2) total then roundFloat (d + chunk) 9
               else if Nat.ltb total (2 * i + 2) then roundFloat (d - chunk) 9 else d) in *.
    destruct (spread b c total chunk step (S i) (offset + step) d' l) as [t|] eqn:R; [|discriminate].
    assert (W : whole d).
    { apply (whole_comp (d0 + chunk * near_end total i)); [symmetry; exact E|].
      apply whole_add; [exact D|]. destruct C as [z Z]. unfold near_end.
      set (m := Z.min _ _). exists (z * m)%Z. rewrite Z, inject_Z_mult. field.
      pose proof (p10_pos 9); lra. }
    assert (E' : d' == d0 + chunk * near_end total (S i)).
    { unfold d'. rewrite near_end_step.
      destruct (Nat.ltb (2 * i + 2) total); [|destruct (Nat.ltb total (2 * i + 2))].
      - rewrite (round_whole _ (whole_add _ _ W C)), E. ring.
      - rewrite (round_whole _ (whole_sub _ _ W C)), E. ring.
      - rewrite E. ring. }
    destruct (IH (S i) (offset + step) d' t) as [L N]; [cbn in T; lia|exact E'|exact R|].
    assert (HH : r = standing b c g offset d :: t).
    { unfold standing. congruence. }
    subst r.
    split; [cbn; now rewrite L|].
    intros [|k] x G.
    + cbn in G. assert (x = g) by congruence. subst x. exists offset, d.
      split; [reflexivity|]. split; [rewrite count_0; ring|]. split; [|exact B].
      rewrite Nat.add_0_r. exact E.
    + cbn in G. destruct (N k x G) as (o & e & A1 & A2 & A3 & A4). exists o, e.
      split; [exact A1|]. split; [rewrite A2, count_S; ring|].
      split; [|exact A4]. rewrite A3. replace (S i + k)%nat with (i + S k)%nat by lia. reflexivity.
Qed.

Lemma near_end_nonneg : forall total i, (i < total)%nat -> 0 <= near_end total i.
Proof.
  intros total i H. unfold near_end. change 0 with (inject_Z 0). rewrite <- Zle_Qle. lia.
Qed.

Lemma spread_accepts : forall b c total chunk step d0, whole chunk -> whole d0 ->
  0 <= chunk -> 0 <= d0 ->
  forall l i offset d, (i + List.length l = total)%nat ->
  d == d0 + chunk * near_end total i ->
  exists r, spread b c total chunk step i offset d l = Some r.
Proof.
  intros b c total chunk step d0 C D C0 D0 l.
  induction l as [|g l IH]; intros i offset d T E.
  - eexists. reflexivity.
  - cbn [spread].
    assert (P : 0 <= chunk * near_end total i).
    { apply Qmult_le_0_compat; [exact C0|]. apply near_end_nonneg. cbn in T. lia. }
    assert (B : Qlt_bool d 0 = false) by (apply lt_bool_false; lra). rewrite B.
    set (d' := if Nat.ltb (2 * i + 2) total then roundFloat (d + chunk) 9
               else if Nat.ltb total (2 * i + 2) then roundFloat (d - chunk) 9 else d) in *.
    assert (W : whole d).
    { apply (whole_comp (d0 + chunk * near_end total i)); [symmetry; exact E|].
      apply whole_add; [exact D|]. destruct C as [z Z]. unfold near_end.
      set (m := Z.min _ _). exists (z * m)%Z. rewrite Z, inject_Z_mult. field.
      pose proof (p10_pos 9); lra. }
    assert (E' : d' == d0 + chunk * near_end total (S i)).
    { unfold d'. rewrite near_end_step.
      destruct (Nat.ltb (2 * i + 2) total); [|destruct (Nat.ltb total (2 * i + 2))].
      - rewrite (round_whole _ (whole_add _ _ W C)), E. ring.
      - rewrite (round_whole _ (whole_sub _ _ W C)), E. ring.
      - rewrite E. ring. }
    destruct (IH (S i) (offset + step) d') as [t R]; [cbn in T; lia|exact E'|].
    rewrite R. eexists. reflexivity.
Qed.

(** * The whole winding column *)
Definition chunk_of (c : column) (n : nat) : Q := roundFloat (c_height c / (count n + 1)) 9.

Definition first_length (l : list gap) : Q := match l with g :: _ => g_length g | [] => 0 end.

Definition first_clearance (c : column) (l : list gap) : Q :=
  if Nat.eqb (List.length l) 1 then roundFloat (c_height c / 2 - first_length l / 2) 9
  else roundFloat (chunk_of c (List.length l) - first_length l / 2) 9.

Definition first_offset (c : column) (l : list gap) : Q :=
  if Nat.eqb (List.length l) 1
  then (if Qlt_bool (first_length l) (c_height c) then roundFloat (first_length l / 2) 9 else 0)
  else roundFloat (- chunk_of c (List.length l) * (count (List.length l) - 1) / 2) 9.

Definition pitch (c : column) (l : list gap) : Q :=
  if Nat.eqb (List.length l) 1 then 0 else chunk_of c (List.length l).

Lemma wound_spread : forall b c l,
  wound b c l = spread b c (List.length l) (pitch c l) (chunk_of c (List.length l)) 0
                  (first_offset c l) (first_clearance c l) l.
Proof.
  intros. unfold wound, pitch, first_offset, first_clearance, first_length, chunk_of.
  destruct (Nat.eqb (List.length l) 1); reflexivity.
Qed.

Lemma pitch_whole : forall c l, whole (pitch c l).
Proof.
  intros. unfold pitch. destruct (Nat.eqb _ 1); [apply whole_0|apply whole_round].
Qed.

Lemma clearance_whole : forall c l, whole (first_clearance c l).
Proof. intros. unfold first_clearance. destruct (Nat.eqb _ 1); apply whole_round. Qed.

Lemma near_end_0 : forall n, (0 < n)%nat -> near_end n 0 == 0.
Proof.
  intros. unfold near_end. change 0 with (inject_Z 0). apply inject_Z_injective. lia.
Qed.

Lemma wound_some : forall b c l r, wound b c l = Some r ->
  List.length r = List.length l /\
  forall k g, nth_error l k = Some g ->
    exists o e, nth_error r k = Some (standing b c g o e) /\
      o == first_offset c l + count k * chunk_of c (List.length l) /\
      e == first_clearance c l + pitch c l * near_end (List.length l) k /\ 0 <= e.
Proof.
  intros b c l r H. rewrite wound_spread in H. destruct l as [|g l].
  - cbn in H. inversion H; subst. split; [reflexivity|]. intros [|k] g G; discriminate.
  - eapply (spread_some b c _ _ _ (first_clearance c (g :: l))) in H;
      [exact H|apply pitch_whole|apply clearance_whole|reflexivity|].
    rewrite near_end_0 by (cbn; lia). ring.
Qed.

Lemma wound_accepts : forall b c l,
  0 <= pitch c l -> 0 <= first_clearance c l -> exists r, wound b c l = Some r.
Proof.
  intros b c l P C. rewrite wound_spread. destruct l as [|g l].
  - eexists. reflexivity.
  - apply (spread_accepts b c _ _ _ (first_clearance c (g :: l)));
      [apply pitch_whole|apply clearance_whole|exact P|exact C|reflexivity|].
    rewrite near_end_0 by (cbn; lia). ring.
Qed.
