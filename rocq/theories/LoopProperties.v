(** C191, C192: hysteresis loops and the amplitude permeability. *)
From Coq Require Import QArith Qabs List Bool String ZArith Lia Lqa Permutation Sorting.Sorted.
From Verif Require Import Base QAux LoopModel.
Import ListNotations.
Local Open Scope Q_scope.

(** A soft magnetic material: it coerces before it saturates, and remains below
    saturation. *)
Definition soft (m : limb) : Prop := 0 < hc m /\ hc m < h0 m /\ 0 < br m /\ br m < b0 m.

Lemma below_iff : forall a b, below a b = true <-> a < b.
Proof. exact Qlt_bool_iff. Qed.
Lemma below_no : forall a b, below a b = false <-> b <= a.
Proof. exact Qlt_bool_false. Qed.

(** * The major loop *)
Lemma inv_pos : forall x, 0 < x -> 0 < / x /\ x * / x == 1.
Proof. intros x X. split; [apply Qinv_lt_0_compat, X | apply Qmult_inv_r; lra]. Qed.
Lemma b1_eq : forall m, soft m -> b1 m * h0 m == (h0 m + hc m) * / b0 m - hc m * / br m.
Proof. intros m (C & H & R & B). unfold b1. field. repeat split; lra. Qed.
Lemma a1_eq : forall m, soft m -> a1 m == hc m * / br m - b1 m * hc m.
Proof. intros m (C & H & R & B). unfold a1. field. lra. Qed.
Lemma b2_eq : forall m, soft m -> b2 m * (h0 m - hc m) == (h0 m - hc m) * / b0 m - a1 m.
Proof.
  intros m (C & H & R & B). unfold b2. assert (A : Qabs (- h0 m + hc m) == h0 m - hc m) by (rewrite Qabs_neg; lra). rewrite A. field. split; lra.
Qed.
Lemma a1_pos : forall m, soft m -> 0 < a1 m.
Proof.
  intros m S. pose proof S as (C & H & R & B). pose proof (b1_eq m S) as E1. pose proof (a1_eq m S) as E2.
  destruct (inv_pos (br m) R) as (P1 & P2). destruct (inv_pos (b0 m) ltac:(lra)) as (P3 & P4).
  assert (L : / b0 m < / br m).
  { apply (Qmult_lt_l _ _ (b0 m * br m)); [nra|]. assert (X : b0 m * br m * / b0 m == br m) by (rewrite (Qmult_comm (b0 m)), <- Qmult_assoc, P4; ring).
    assert (Y : b0 m * br m * / br m == b0 m) by (rewrite <- Qmult_assoc, P2; ring). rewrite X, Y. exact B. }
  assert (K : a1 m * h0 m == hc m * ((h0 m + hc m) * (/ br m - / b0 m))).
  { rewrite E2. transitivity (hc m * / br m * h0 m - hc m * (b1 m * h0 m)); [ring|]. rewrite E1. ring. }
  assert (Q0 : 0 < hc m * ((h0 m + hc m) * (/ br m - / b0 m))) by (apply Qmult_lt_0_compat; [exact C|]; apply Qmult_lt_0_compat; lra).
  apply (Qmult_lt_r _ _ (h0 m)); [lra|]. rewrite K. lra.
Qed.
Lemma den1 : forall m x, soft m -> 0 <= x -> x <= h0 m + hc m -> 0 < a1 m + b1 m * x.
Proof.
  intros m x S X1 X2. pose proof S as (C & H & R & B). pose proof (a1_pos m S) as A. pose proof (b1_eq m S) as E1. pose proof (a1_eq m S) as E2.
  destruct (inv_pos (b0 m) ltac:(lra)) as (P3 & P4).
  assert (K : a1 m + b1 m * (h0 m + hc m) == (h0 m + hc m) * / b0 m) by lra.
  assert (T : 0 < a1 m + b1 m * (h0 m + hc m)) by (rewrite K; apply Qmult_lt_0_compat; lra). clear K E1 E2.
  destruct (Qlt_le_dec (b1 m) 0) as [N|N]; [|assert (0 <= b1 m * x) by (apply Qmult_le_0_compat; assumption); lra].
  assert (b1 m * (h0 m + hc m) <= b1 m * x) by nra. lra.
Qed.
Lemma den2 : forall m x, soft m -> 0 <= x -> x <= h0 m - hc m -> 0 < a1 m + b2 m * x.
Proof.
  intros m x S X1 X2. pose proof S as (C & H & R & B). pose proof (a1_pos m S) as A. pose proof (b2_eq m S) as E1.
  destruct (inv_pos (b0 m) ltac:(lra)) as (P3 & P4).
  assert (T : 0 < a1 m + b2 m * (h0 m - hc m)) by (rewrite E1; assert (0 < (h0 m - hc m) * / b0 m) by (apply Qmult_lt_0_compat; lra); lra). clear E1.
  destruct (Qlt_le_dec (b2 m) 0) as [N|N]; [|assert (0 <= b2 m * x) by (apply Qmult_le_0_compat; assumption); lra].
  assert (b2 m * (h0 m - hc m) <= b2 m * x) by nra. lra.
Qed.
Lemma upper_right : forall m h, - hc m <= h -> upper m h == (h + hc m) / (a1 m + b1 m * (h + hc m)).
Proof.
  intros m h H. unfold upper, half. destruct (below h (- hc m)) eqn:E; [apply below_iff in E; lra|].
  assert (A : Qabs (h + hc m) == h + hc m) by (apply Qabs_pos; lra). rewrite A. reflexivity.
Qed.
Lemma upper_left : forall m h, h <= - hc m -> upper m h == - ((- h - hc m) / (a1 m + b2 m * (- h - hc m))).
Proof.
  intros m h H. unfold upper, half. assert (A : Qabs (h + hc m) == - h - hc m) by (rewrite Qabs_neg; lra). destruct (below h (- hc m)) eqn:E.
  - rewrite A. unfold Qdiv. ring.
  - apply below_no in E. assert (Z : h + hc m == 0) by lra. assert (Z' : - h - hc m == 0) by lra. rewrite Z, Z'. unfold Qdiv. ring.
Qed.
Lemma upper_compat : forall m h h', h == h' -> upper m h == upper m h'.
Proof.
  intros m h h' E. unfold upper, half. assert (B : below h (- hc m) = below h' (- hc m)) by (unfold below; now rewrite E). rewrite B. destruct (below h' (- hc m)); now rewrite E.
Qed.
Lemma lower_upper : forall m h, soft m -> lower m h == - upper m (- h).
Proof.
  intros m h S. unfold lower. destruct (below h (hc m)) eqn:E.
  - apply below_iff in E. unfold upper. destruct (below (- h) (- hc m)) eqn:F; [apply below_iff in F; lra | reflexivity].
  - apply below_no in E. unfold upper. destruct (below (- h) (- hc m)) eqn:F; [reflexivity|]. apply below_no in F.
    unfold half. assert (Z : - h + hc m == 0) by lra. rewrite Z. unfold Qdiv. ring.
Qed.
(** The branches of the major loop: through saturation, remanence and coercive force,
    each the other one turned about the origin. *)
Theorem C191_through : forall m, soft m ->
  upper m (h0 m) == b0 m /\ upper m 0 == br m /\ upper m (- hc m) == 0 /\ upper m (- h0 m) == - b0 m
  /\ forall h, lower m h == - upper m (- h).
Proof.
  intros m S. pose proof S as (C & H & R & B). pose proof (b1_eq m S) as E1. pose proof (a1_eq m S) as E2. pose proof (b2_eq m S) as E3.
  split; [|split; [|split; [|split]]].
  - rewrite upper_right by lra. assert (K : a1 m + b1 m * (h0 m + hc m) == (h0 m + hc m) * / b0 m) by lra. rewrite K. field. split; lra.
  - rewrite upper_right by lra. assert (K : a1 m + b1 m * (0 + hc m) == hc m * / br m) by lra. rewrite K. field. split; lra.
  - rewrite upper_right by lra. assert (K : - hc m + hc m == 0) by lra. rewrite K. unfold Qdiv. ring.
  - rewrite upper_left by lra. assert (N : - - h0 m - hc m == h0 m - hc m) by lra. rewrite N. assert (K : a1 m + b2 m * (h0 m - hc m) == (h0 m - hc m) * / b0 m) by lra. rewrite K. field. split; lra.
  - intro h. apply lower_upper, S.
Qed.
Lemma step_eq : forall a b x y, 0 < a + b * x -> 0 < a + b * y -> y / (a + b * y) - x / (a + b * x) == a * (y - x) / ((a + b * x) * (a + b * y)).
Proof. intros a b x y X Y. field. split; lra. Qed.
Lemma rise : forall a b x y, 0 < a -> 0 < a + b * x -> 0 < a + b * y -> x < y -> x / (a + b * x) < y / (a + b * y).
Proof.
  intros a b x y A X Y L. pose proof (step_eq a b x y X Y) as E.
  assert (0 < a * (y - x) / ((a + b * x) * (a + b * y))) by (apply Qlt_shift_div_l; [apply Qmult_lt_0_compat; assumption | rewrite Qmult_0_l; apply Qmult_lt_0_compat; lra]). lra.
Qed.
Lemma upper_rises : forall m h k, soft m -> - h0 m <= h -> h < k -> k <= h0 m -> upper m h < upper m k.
Proof.
  intros m h k S H1 H2 H3. pose proof S as (C & H & R & B). pose proof (a1_pos m S) as A.
  assert (Right : forall h k, - hc m <= h -> h < k -> k <= h0 m -> upper m h < upper m k).
  { intros x y X1 X2 X3. rewrite (upper_right m x), (upper_right m y) by lra. apply rise; [exact A | apply den1; [exact S|lra|lra] | apply den1; [exact S|lra|lra] | lra]. }
  assert (Left : forall h k, - h0 m <= h -> h < k -> k <= - hc m -> upper m h < upper m k).
  { intros x y X1 X2 X3. rewrite (upper_left m x), (upper_left m y) by lra.
    assert ((- y - hc m) / (a1 m + b2 m * (- y - hc m)) < (- x - hc m) / (a1 m + b2 m * (- x - hc m))) by (apply rise; [exact A | apply den2; [exact S|lra|lra] | apply den2; [exact S|lra|lra] | lra]). lra. }
  destruct (Qlt_le_dec h (- hc m)) as [L|L]; [|apply Right; assumption].
  destruct (Qlt_le_dec (- hc m) k) as [K|K]; [|apply Left; assumption].
  apply Qlt_trans with (upper m (- hc m)); [apply Left; lra | apply Right; lra].
Qed.
(** Both branches rise, and the upper one lies above the lower one up to saturation. *)
Lemma gap_at_end : forall m, soft m -> (b1 m - b2 m) * ((h0 m + hc m) * (h0 m - hc m)) == a1 m * (2 * hc m).
Proof.
  intros m S. pose proof S as (C & H & R & B). pose proof (b1_eq m S) as E1. pose proof (a1_eq m S) as E2. pose proof (b2_eq m S) as E3.
  assert (K : b1 m * (h0 m + hc m) == (h0 m + hc m) * / b0 m - a1 m) by lra.
  transitivity ((b1 m * (h0 m + hc m)) * (h0 m - hc m) - (b2 m * (h0 m - hc m)) * (h0 m + hc m)); [ring|]. rewrite K, E3. ring.
Qed.
Lemma branches_apart : forall m h, soft m -> - h0 m <= h -> h <= h0 m -> lower m h <= upper m h.
Proof.
  intros m h S H1 H2. pose proof S as (C & H & R & B). pose proof (a1_pos m S) as A. rewrite lower_upper by exact S.
  assert (Go : forall k, 0 <= k -> k <= h0 m -> 0 <= upper m k + upper m (- k)).
  { intros k K1 K2. assert (D1 : 0 < a1 m + b1 m * (k + hc m)) by (apply den1; [exact S|lra|lra]).
    destruct (Qlt_le_dec (hc m) k) as [K|K].
    - rewrite upper_right by lra. rewrite upper_left by lra. assert (N : - - k - hc m == k - hc m) by lra. rewrite N.
      assert (D2 : 0 < a1 m + b2 m * (k - hc m)) by (apply den2; [exact S|lra|lra]).
      pose proof (gap_at_end m S) as G.
      assert (E : (k + hc m) / (a1 m + b1 m * (k + hc m)) - (k - hc m) / (a1 m + b2 m * (k - hc m))
                  == (a1 m * (2 * hc m) - (b1 m - b2 m) * ((k + hc m) * (k - hc m))) / ((a1 m + b1 m * (k + hc m)) * (a1 m + b2 m * (k - hc m)))) by (field; split; lra).
      assert (Num : 0 <= a1 m * (2 * hc m) - (b1 m - b2 m) * ((k + hc m) * (k - hc m))).
      { rewrite <- G. assert (P : 0 < b1 m - b2 m).
        { apply (Qmult_lt_r _ _ ((h0 m + hc m) * (h0 m - hc m))); [apply Qmult_lt_0_compat; lra|]. rewrite G. assert (0 < a1 m * (2 * hc m)) by (apply Qmult_lt_0_compat; lra). lra. }
        assert (Le : (k + hc m) * (k - hc m) <= (h0 m + hc m) * (h0 m - hc m)) by nra. nra. }
      assert (0 <= (a1 m * (2 * hc m) - (b1 m - b2 m) * ((k + hc m) * (k - hc m))) / ((a1 m + b1 m * (k + hc m)) * (a1 m + b2 m * (k - hc m)))) by (apply Qle_shift_div_l; [apply Qmult_lt_0_compat; assumption | rewrite Qmult_0_l; exact Num]). lra.
    - rewrite !upper_right by lra. assert (D2 : 0 < a1 m + b1 m * (- k + hc m)) by (apply den1; [exact S|lra|lra]).
      assert (0 <= (k + hc m) / (a1 m + b1 m * (k + hc m))) by (apply Qle_shift_div_l; [exact D1 | rewrite Qmult_0_l; lra]).
      assert (0 <= (- k + hc m) / (a1 m + b1 m * (- k + hc m))) by (apply Qle_shift_div_l; [exact D2 | rewrite Qmult_0_l; lra]). lra. }
  destruct (Qlt_le_dec h 0) as [N|N]; [|pose proof (Go h N H2); lra].
  pose proof (Go (- h) ltac:(lra) ltac:(lra)) as G. rewrite (upper_compat m (- - h) h) in G by lra. lra.
Qed.
Theorem C191_branches : forall m, soft m ->
  (forall h k, - h0 m <= h -> h < k -> k <= h0 m -> upper m h < upper m k /\ lower m h < lower m k)
  /\ (forall h, - h0 m <= h -> h <= h0 m -> lower m h <= upper m h).
Proof.
  intros m S. split.
  - intros h k A B C. split; [apply upper_rises; assumption|]. rewrite !lower_upper by exact S. pose proof (upper_rises m (- k) (- h) S ltac:(lra) ltac:(lra) ltac:(lra)). lra.
  - intros h A B. apply branches_apart; assumption.
Qed.

(** * The grid *)
Definition mem (x : Q) (l : list Q) : Prop := exists y, In y l /\ y == x.
Lemma put_in : forall x y l, In y (put x l) <-> y = x \/ In y l.
Proof.
  intros x y l. induction l as [|z l IH]; cbn [put]; [cbn; intuition congruence|]. destruct (Qle_bool x z); cbn [In]; [intuition congruence|]. rewrite IH. intuition congruence.
Qed.
Lemma lined_in : forall y l, In y (lined l) <-> In y l.
Proof. intros y l. induction l as [|z l IH]; cbn [lined]; [reflexivity|]. rewrite put_in, IH. cbn. intuition congruence. Qed.
Lemma put_sorted : forall x l, StronglySorted Qle l -> StronglySorted Qle (put x l).
Proof.
  intros x l S. induction S as [|z l S IH H]; cbn [put]; [repeat constructor|]. rewrite Forall_forall in H. destruct (Qle_bool x z) eqn:E; qb.
  - constructor; [constructor; [exact S | rewrite Forall_forall; exact H]|]. rewrite Forall_forall. intros y [<- |I]; [exact E|]. specialize (H y I). lra.
  - constructor; [exact IH|]. rewrite Forall_forall. intros y I. apply put_in in I. destruct I as [-> |I]; [lra | apply H, I].
Qed.
Lemma lined_sorted : forall l, StronglySorted Qle (lined l).
Proof. induction l as [|x l IH]; cbn [lined]; [constructor | apply put_sorted, IH]. Qed.
Definition spaced (a b : Q) : Prop := a + millionth <= b.
Lemma thinned_in : forall l b x, In x (thinned b l) -> In x l.
Proof.
  induction l as [|y l IH]; intros b x I; [exact I|]. cbn [thinned] in I. destruct b as [b|]; [destruct (below _ _)|]; try (right; apply (IH _ _ I)); (destruct I as [<- |I]; [left; reflexivity | right; apply (IH _ _ I)]).
Qed.
Lemma thinned_spec : forall l b, StronglySorted Qle l -> (forall x p, b = Some x -> In p l -> x <= p) ->
  StronglySorted spaced (thinned b l) /\ (forall x p, b = Some x -> In p (thinned b l) -> x + millionth <= p)
  /\ (forall p, In p l -> (exists q, In q (thinned b l) /\ q <= p /\ p < q + millionth) \/ (exists x, b = Some x /\ x <= p /\ p < x + millionth)).
Proof.
  induction l as [|q l IH]; intros b S B; [repeat split; [constructor | intros x p _ [] | intros p []]|]. apply StronglySorted_inv in S. destruct S as (S & H). rewrite Forall_forall in H.
  assert (Q0 : forall x p, Some q = Some x -> In p l -> x <= p) by (intros x p E I; injection E as <-; apply (H p I)).
  destruct (IH (Some q) S Q0) as (A & C & D).
  assert (K : StronglySorted spaced (q :: thinned (Some q) l)) by (constructor; [exact A|]; rewrite Forall_forall; intros p I; apply (C _ p eq_refl I)).
  assert (N : forall p, In p (q :: l) -> exists r, In r (q :: thinned (Some q) l) /\ r <= p /\ p < r + millionth).
  { assert (Self : q <= q /\ q < q + millionth) by (unfold millionth; lra).
    intros p [<- |I]; [exists q; split; [left; reflexivity | exact Self]|]. destruct (D p I) as [(r & R & R')|(x & E & R)]; [exists r; split; [right; exact R | exact R']|]. injection E as <-. exists q. split; [left; reflexivity | exact R]. }
  cbn [thinned]. destruct b as [b|].
  - pose proof (B b q eq_refl (or_introl eq_refl)) as Bq. assert (Ab : Qabs (b - q) == q - b) by (rewrite Qabs_neg; lra).
    destruct (below (Qabs (b - q)) millionth) eqn:E; [apply below_iff in E | apply below_no in E]; rewrite Ab in E.
    + destruct (IH (Some b) S) as (A' & C' & D'); [intros x p E' I; apply (B x p E'); right; exact I|]. split; [exact A'|]. split; [exact C'|].
      intros p [<- |I]; [right; exists b; repeat split; lra | apply D', I].
    + split; [exact K|]. split; [|intros p I; left; apply N, I]. intros x p E' [<- |I]; injection E' as <-; [lra|]. pose proof (C _ p eq_refl I). unfold millionth in *. lra.
  - split; [exact K|]. split; [intros x p E; discriminate | intros p I; left; apply N, I].
Qed.
Lemma spaced_lt : forall l, StronglySorted spaced l -> StronglySorted Qlt l.
Proof. intros l S. induction S as [|x l S IH H]; constructor; [exact IH|]. eapply Forall_impl; [|exact H]. intros y Y. unfold spaced, millionth in Y. lra. Qed.
Lemma sorted_app_one : forall l x, StronglySorted Qlt l -> (forall y, In y l -> y < x) -> StronglySorted Qlt (l ++ [x])%list.
Proof.
  intros l x S H. induction S as [|y l S IH F]; [repeat constructor|]. cbn [app]. constructor; [apply IH; intros z I; apply H; right; exact I|].
  rewrite Forall_forall in *. intros z I. apply in_app_iff in I. destruct I as [I|[<- |[]]]; [apply F, I | apply H; left; reflexivity].
Qed.
Lemma sorted_last : forall l x, StronglySorted Qlt (l ++ [x])%list -> forall y, In y (l ++ [x])%list -> y <= x.
Proof.
  induction l as [|z l IH]; intros x S y I; [destruct I as [<- |[]]; lra|]. cbn [app] in *. apply StronglySorted_inv in S. destruct S as (S & F). rewrite Forall_forall in F.
  destruct I as [<- |I]; [|apply (IH x S y I)]. assert (z < x) by (apply F, in_app_iff; right; left; reflexivity). lra.
Qed.
Lemma grid_spec : forall m peak,
  StronglySorted Qlt (grid m peak)
  /\ (forall x, In x (grid m peak) -> In x (fields m peak))
  /\ (forall p, In p (fields m peak) -> exists q, In q (grid m peak) /\ q <= p /\ p < q + millionth).
Proof.
  intros m peak. unfold grid. destruct (thinned_spec (lined (fields m peak)) None (lined_sorted _) ltac:(intros; discriminate)) as (A & _ & D).
  pose proof (thinned_in (lined (fields m peak)) None) as I. apply spaced_lt in A. set (t := thinned None (lined (fields m peak))) in *.
  assert (I' : forall x, In x t -> In x (fields m peak)) by (intros x X; apply lined_in, I, X).
  assert (D' : forall p, In p (fields m peak) -> exists q, In q t /\ q <= p /\ p < q + millionth).
  { intros p P. destruct (D p ltac:(apply lined_in, P)) as [K|(x & E & _)]; [exact K | discriminate]. }
  assert (Lo : In (- h0 m) (fields m peak)) by (left; reflexivity). assert (Hi : In (h0 m) (fields m peak)) by (do 4 right; left; reflexivity).
  unfold bounded. assert (First : match t with x :: _ => if below (- h0 m) x then - h0 m :: t else t | [] => t end = t).
  { destruct (D' _ Lo) as (q & Q1 & Q2 & _). destruct t as [|x t']; [reflexivity|]. destruct (below (- h0 m) x) eqn:E; [|reflexivity]. apply below_iff in E. exfalso.
    apply StronglySorted_inv in A. destruct A as (_ & F). rewrite Forall_forall in F. destruct Q1 as [<- |Q1]; [lra | specialize (F q Q1); lra]. }
  cbv zeta. rewrite First. destruct (rev t) as [|x r] eqn:Rv; [repeat split; assumption|].
  assert (T : t = (rev r ++ [x])%list) by (rewrite <- (rev_involutive t), Rv; reflexivity).
  destruct (below x (h0 m)) eqn:E; [|repeat split; assumption]. apply below_iff in E.
  assert (Top : forall y, In y t -> y <= x) by (rewrite T in *; apply sorted_last, A).
  split; [apply sorted_app_one; [exact A|]; intros y Y; specialize (Top y Y); lra|]. split.
  - intros y Y. apply in_app_iff in Y. destruct Y as [Y|[<- |[]]]; [apply I', Y | exact Hi].
  - intros p P. destruct (D' p P) as (q & Q1 & Q2). exists q. split; [apply in_app_iff; left; exact Q1 | exact Q2].
Qed.

Lemma least_spec : forall g l best, In (least g best l) (best :: l) /\ (forall r, In r (best :: l) -> g (least g best l) <= g r).
Proof.
  intro g. induction l as [|r l IH]; intro best; cbn [least]; [split; [left; reflexivity | intros r [<- |[]]; lra]|].
  destruct (below (g r) (g best)) eqn:E; [apply below_iff in E | apply below_no in E].
  - destruct (IH r) as (A & B). split; [right; exact A|]. intros x [<- |X]; [pose proof (B r (or_introl eq_refl)); lra | apply B, X].
  - destruct (IH best) as (A & B). split; [destruct A as [A|A]; [left; exact A | right; right; exact A]|].
    intros x [<- |[<- |X]]; [apply B; left; reflexivity | pose proof (B best (or_introl eq_refl)); lra | apply B; right; exact X].
Qed.

(** * Minor loops *)
(** A peak field that is told apart from the other fields looked at. *)
Definition separated (m : limb) (p : Q) : Prop :=
  forall x, In x (fields m (Some p)) -> (x == p \/ millionth <= Qabs (x - p)) /\ (x == - p \/ millionth <= Qabs (x + p)).
Lemma in_fields_peak : forall m p, 0 < p -> exists x y, In x (fields m (Some p)) /\ In y (fields m (Some p)) /\ x == p /\ y == - p.
Proof.
  intros m p P. exists (p * 1), (- p * 1). unfold fields. assert (B : below 0 p = true) by (apply below_iff, P). rewrite B. split; [|split; [|split; ring]].
  - apply in_app_iff. right. apply in_app_iff. left. unfold shares. cbn [map]. do 6 right. left. reflexivity.
  - apply in_app_iff. right. apply in_app_iff. right. unfold shares. cbn [map]. do 6 right. left. reflexivity.
Qed.
Lemma grid_peak : forall m p, 0 < p -> separated m p -> (exists x, In x (grid m (Some p)) /\ x == p) /\ (exists y, In y (grid m (Some p)) /\ y == - p).
Proof.
  intros m p P S. destruct (grid_spec m (Some p)) as (_ & I & N). destruct (in_fields_peak m p P) as (x & y & X & Y & Ex & Ey). split.
  - destruct (N x X) as (q & Q1 & Q2 & Q3). exists q. split; [exact Q1|]. destruct (proj1 (S q (I q Q1))) as [E|E]; [exact E|]. rewrite Qabs_neg in E by lra. lra.
  - destruct (N y Y) as (q & Q1 & Q2 & Q3). exists q. split; [exact Q1|]. destruct (proj2 (S q (I q Q1))) as [E|E]; [exact E|]. rewrite Qabs_neg in E by lra. lra.
Qed.
Lemma sorted_filter : forall (l : list Q) f, StronglySorted Qlt l -> StronglySorted Qlt (filter f l).
Proof.
  intros l f S. induction S as [|x l S IH H]; cbn [filter]; [constructor|]. destruct (f x); [|exact IH]. constructor; [exact IH|].
  rewrite Forall_forall in *. intros y I. apply filter_In in I. apply H, I.
Qed.
(** What a loop of a given peak field looks like, before the shape of the branches is
    used: both branches over the same fields, moved together by half their distance at
    the peak. *)
Lemma by_field_eq : forall m p, 0 < p -> separated m p ->
  let s := Qabs (upper m p - lower m p) / 2 in
  let hs := filter (fun h => within h p) (grid m (Some p)) in
  exists s', s' == s
  /\ fst (by_field m p) = map (fun h => (h, Qred (upper m h - s'))) hs
  /\ snd (by_field m p) = map (fun h => (h, Qred (lower m h + s'))) hs.
Proof.
  intros m p P S. cbv zeta. destruct (grid_peak m p P S) as ((x & X & Ex) & _). unfold by_field, rows.
  destruct (grid m (Some p)) as [|g0 gs] eqn:G; [destruct X|]. cbn [map].
  set (mk := fun h => mkRow h (upper m h) (lower m h)). change {| at_field := g0; up := upper m g0; down := lower m g0 |} with (mk g0).
  set (tip := least (fun x => Qabs (at_field x - p)) (mk g0) (map mk gs)).
  destruct (least_spec (fun x => Qabs (at_field x - p)) (map mk gs) (mk g0)) as (T1 & T2). fold tip in T1, T2.
  change (mk g0 :: map mk gs) with (map mk (g0 :: gs)) in *. apply in_map_iff in T1. destruct T1 as (h & Eh & Ih).
  assert (Hp : h == p).
  { pose proof (T2 (mk x) (in_map mk _ _ X)) as L. rewrite <- Eh in L. cbn [at_field mk] in L.
    assert (Z : Qabs (x - p) == 0) by (rewrite Ex; setoid_replace (p - p) with 0 by ring; reflexivity). rewrite Z in L. apply Qabs_Qle_condition in L. lra. }
  exists (Qabs (up tip - down tip) / 2). split; [|split].
  - rewrite <- Eh. cbn [up down mk]. assert (L : lower m h == lower m p).
    { unfold lower, half. assert (B : below h (hc m) = below p (hc m)) by (unfold below; now rewrite Hp). rewrite B. destruct (below p (hc m)); now rewrite Hp. }
    rewrite (upper_compat m h p Hp), L. reflexivity.
  - cbn [fst]. unfold shifted. rewrite map_map. cbn [at_field up down mk]. generalize (g0 :: gs). intro l. induction l as [|y l IH]; [reflexivity|]. cbn [map filter at_field].
    destruct (within y p); cbn [map at_field up]; now rewrite IH.
  - cbn [snd]. unfold shifted. rewrite map_map. cbn [at_field up down mk]. generalize (g0 :: gs). intro l. induction l as [|y l IH]; [reflexivity|]. cbn [map filter at_field].
    destruct (within y p); cbn [map at_field down]; now rewrite IH.
Qed.
(** The loop of a peak field up to saturation: over the same fields, in order and within
    the peak, reaching it on both sides; the branches of the major loop moved together,
    closed at both tips. *)
Theorem C191_minor : forall m p, soft m -> 0 < p -> p <= h0 m -> separated m p ->
  let top := (upper m p + lower m p) / 2 in
  let s := (upper m p - lower m p) / 2 in
  let u := fst (by_field m p) in let l := snd (by_field m p) in
  map fst u = map fst l /\ StronglySorted Qlt (map fst u)
  /\ (forall h b, In (h, b) u -> - p <= h /\ h <= p /\ b == upper m h - s)
  /\ (forall h b, In (h, b) l -> - p <= h /\ h <= p /\ b == lower m h + s)
  /\ (exists h b b', h == p /\ In (h, b) u /\ In (h, b') l /\ b == top /\ b' == top)
  /\ (exists h b b', h == - p /\ In (h, b) u /\ In (h, b') l /\ b == - top /\ b' == - top)
  /\ (forall x, In x (fields m (Some p)) -> - p <= x -> x <= p -> exists h b, In (h, b) u /\ h <= x /\ x < h + millionth).
Proof.
  intros m p S P P0 Se. cbv zeta. destruct (by_field_eq m p P Se) as (s & Es & -> & ->). pose proof S as (C & H & R & B).
  pose proof (branches_apart m p S ltac:(lra) P0) as Ap.
  assert (Es' : s == (upper m p - lower m p) / 2) by (rewrite Es, Qabs_pos by lra; reflexivity). clear Es.
  destruct (grid_spec m (Some p)) as (Gs & Gi & Gn). destruct (grid_peak m p P Se) as ((x & X & Ex) & (y & Y & Ey)).
  assert (Wi : forall h, within h p = true <-> - p <= h /\ h <= p).
  { intro h. unfold within. rewrite andb_true_iff, !Qle_bool_iff. tauto. }
  set (hs := filter (fun h => within h p) (grid m (Some p))).
  assert (Hs : forall h, In h hs <-> In h (grid m (Some p)) /\ - p <= h /\ h <= p) by (intro h; unfold hs; rewrite filter_In, Wi; tauto).
  assert (Lu : forall h, lower m h == - upper m (- h)) by (intro h; apply lower_upper, S).
  assert (LC : forall h h', h == h' -> lower m h == lower m h') by (intros h h' E; rewrite !Lu, (upper_compat m (- h) (- h')) by lra; reflexivity).
  split; [now rewrite !map_map|]. split; [rewrite map_map; cbn [fst]; rewrite map_id; apply sorted_filter, Gs|].
  split; [|split; [|split; [|split]]].
  - intros h b I. apply in_map_iff in I. destruct I as (h' & E & I). pose proof (f_equal fst E) as E1. pose proof (f_equal snd E) as E2. cbn [fst snd] in E1, E2. clear E. subst h b. apply Hs in I. split; [apply I|]. split; [apply I|]. (etransitivity; [apply Qred_correct|]). rewrite Es'. reflexivity.
  - intros h b I. apply in_map_iff in I. destruct I as (h' & E & I). pose proof (f_equal fst E) as E1. pose proof (f_equal snd E) as E2. cbn [fst snd] in E1, E2. clear E. subst h b. apply Hs in I. split; [apply I|]. split; [apply I|]. (etransitivity; [apply Qred_correct|]). rewrite Es'. reflexivity.
  - exists x, (Qred (upper m x - s)), (Qred (lower m x + s)). split; [exact Ex|]. assert (I : In x hs) by (apply Hs; repeat split; [exact X | lra | lra]).
    split; [apply in_map_iff; exists x; auto|]. split; [apply in_map_iff; exists x; auto|]. split; (etransitivity; [apply Qred_correct|]); rewrite Es', ?(upper_compat m x p Ex), ?(LC x p Ex); field.
  - exists y, (Qred (upper m y - s)), (Qred (lower m y + s)). split; [exact Ey|]. assert (I : In y hs) by (apply Hs; repeat split; [exact Y | lra | lra]).
    split; [apply in_map_iff; exists y; auto|]. split; [apply in_map_iff; exists y; auto|]. split; (etransitivity; [apply Qred_correct|]); rewrite Es', ?(upper_compat m y (- p) Ey), ?(LC y (- p) Ey), ?(Lu (- p)), ?(Lu p), ?(upper_compat m (- - p) p) by lra; field.
  - intros z Z Z1 Z2. destruct (Gn z Z) as (q & Q1 & Q2 & Q3). exists q, (Qred (upper m q - s)). split; [|split; assumption]. apply in_map_iff. exists q. split; [reflexivity|]. apply Hs. split; [exact Q1|]. split; [|lra].
    destruct (Qlt_le_dec q (- p)) as [Lt|Ge]; [|exact Ge]. exfalso. destruct (proj2 (Se q (Gi q Q1))) as [E|E]; [lra|]. rewrite Qabs_neg in E by lra. lra.
Qed.

(** A material that is remanent enough keeps its minor loops open, upper above lower. *)
Lemma b1_nonneg : forall m, soft m -> b0 m * hc m <= br m * (h0 m + hc m) -> 0 <= b1 m.
Proof.
  intros m S L. pose proof S as (C & H & R & B). pose proof (b1_eq m S) as E. destruct (inv_pos (br m) R) as (P1 & P2). destruct (inv_pos (b0 m) ltac:(lra)) as (P3 & P4).
  assert (K : 0 <= (h0 m + hc m) * / b0 m - hc m * / br m).
  { assert (Q0 : (h0 m + hc m) * / b0 m - hc m * / br m == (br m * (h0 m + hc m) - b0 m * hc m) * (/ b0 m * / br m)) by (field; split; lra).
    rewrite Q0. apply Qmult_le_0_compat; [lra|]. assert (0 < / b0 m * / br m) by (apply Qmult_lt_0_compat; assumption). lra. }
  rewrite <- E in K. destruct (Qlt_le_dec (b1 m) 0) as [N|N]; [|exact N]. assert (b1 m * h0 m < 0) by nra. lra.
Qed.
Lemma drop_eq : forall a b c x y z w, 0 < a -> 0 < a + b * x -> 0 < a + b * y -> 0 < a + c * z -> 0 < a + c * w ->
  a + c * z <= a + b * x -> a + c * w <= a + b * y -> y - x == w - z -> 0 <= y - x ->
  y / (a + b * y) - x / (a + b * x) <= w / (a + c * w) - z / (a + c * z).
Proof.
  intros a b c x y z w A X Y Z W L1 L2 E D. rewrite (step_eq a b x y X Y), (step_eq a c z w Z W).
  apply Qle_shift_div_r; [apply Qmult_lt_0_compat; assumption|].
  setoid_replace (a * (w - z) / ((a + c * z) * (a + c * w)) * ((a + b * x) * (a + b * y))) with ((a * (w - z) * ((a + b * x) * (a + b * y))) / ((a + c * z) * (a + c * w))) by (field; split; lra).
  apply Qle_shift_div_l; [apply Qmult_lt_0_compat; assumption|]. rewrite E in *.
  assert (M : (a + c * z) * (a + c * w) <= (a + b * x) * (a + b * y)).
  { apply Qle_trans with ((a + b * x) * (a + c * w)); [apply Qmult_le_compat_r; lra|]. rewrite (Qmult_comm (a + b * x) (a + c * w)), (Qmult_comm (a + b * x) (a + b * y)). apply Qmult_le_compat_r; lra. }
  assert (0 <= a * (w - z)) by (apply Qmult_le_0_compat; lra). rewrite !(Qmult_comm (a * (w - z))). apply Qmult_le_compat_r; assumption.
Qed.
Lemma gap_falls : forall m h k, soft m -> 0 <= b1 m -> 0 <= h -> h <= k -> k <= h0 m -> upper m k + upper m (- k) <= upper m h + upper m (- h).
Proof.
  intros m h k S N H1 H2 H3. pose proof S as (C & H & R & B). pose proof (a1_pos m S) as A.
  assert (Small : forall h k, 0 <= h -> h <= k -> k <= hc m -> upper m k + upper m (- k) <= upper m h + upper m (- h)).
  { intros x y X1 X2 X3. rewrite !upper_right by lra.
    pose proof (drop_eq (a1 m) (b1 m) (b1 m) (x + hc m) (y + hc m) (- y + hc m) (- x + hc m) A
      ltac:(apply den1; [exact S|lra|lra]) ltac:(apply den1; [exact S|lra|lra]) ltac:(apply den1; [exact S|lra|lra]) ltac:(apply den1; [exact S|lra|lra])
      ltac:(nra) ltac:(nra) ltac:(lra) ltac:(lra)). lra. }
  assert (P : b2 m <= b1 m).
  { pose proof (gap_at_end m S) as G. apply (Qmult_le_r _ _ ((h0 m + hc m) * (h0 m - hc m))); [apply Qmult_lt_0_compat; lra|].
    assert (0 < a1 m * (2 * hc m)) by (apply Qmult_lt_0_compat; lra). lra. }
  assert (Large : forall h k, hc m <= h -> h <= k -> k <= h0 m -> upper m k + upper m (- k) <= upper m h + upper m (- h)).
  { intros x y X1 X2 X3. rewrite (upper_right m x), (upper_right m y), (upper_left m (- x)), (upper_left m (- y)) by lra.
    setoid_replace (- - x - hc m) with (x - hc m) by ring. setoid_replace (- - y - hc m) with (y - hc m) by ring.
    pose proof (drop_eq (a1 m) (b1 m) (b2 m) (x + hc m) (y + hc m) (x - hc m) (y - hc m) A
      ltac:(apply den1; [exact S|lra|lra]) ltac:(apply den1; [exact S|lra|lra]) ltac:(apply den2; [exact S|lra|lra]) ltac:(apply den2; [exact S|lra|lra])
      ltac:(nra) ltac:(nra) ltac:(lra) ltac:(lra)). lra. }
  destruct (Qlt_le_dec (hc m) h) as [X|X]; [apply Large; lra|]. destruct (Qlt_le_dec (hc m) k) as [Y|Y]; [|apply Small; lra].
  apply Qle_trans with (upper m (hc m) + upper m (- hc m)); [apply Large; lra | apply Small; lra].
Qed.
Theorem C191_minor_open : forall m p h b b', soft m -> b0 m * hc m <= br m * (h0 m + hc m) -> 0 < p -> p <= h0 m -> separated m p ->
  In (h, b) (fst (by_field m p)) -> In (h, b') (snd (by_field m p)) ->
  b' <= b /\ - ((upper m p + lower m p) / 2) <= b /\ b <= (upper m p + lower m p) / 2 /\ - ((upper m p + lower m p) / 2) <= b' /\ b' <= (upper m p + lower m p) / 2.
Proof.
  intros m p h b b' S Rm P P0 Se I I'. destruct (C191_minor m p S P P0 Se) as (_ & _ & Mu & Ml & _). cbv zeta in *.
  destruct (Mu h b I) as (H1 & H2 & E). destruct (Ml h b' I') as (_ & _ & E').
  assert (Lu : forall h, lower m h == - upper m (- h)) by (intro x; apply lower_upper, S).
  assert (G : upper m p + upper m (- p) <= upper m h + upper m (- h)).
  { destruct (Qlt_le_dec h 0) as [N|N]; [|apply gap_falls; try assumption; apply b1_nonneg; assumption].
    pose proof (gap_falls m (- h) p S (b1_nonneg m S Rm) ltac:(lra) ltac:(lra) P0) as G. rewrite (upper_compat m (- - h) h) in G by lra. lra. }
  assert (U : upper m h <= upper m p) by (destruct (Qlt_le_dec h p) as [L|L]; [pose proof (upper_rises m h p S ltac:(lra) L P0); lra | rewrite (upper_compat m h p); lra]).
  assert (V : upper m (- p) <= upper m h) by (destruct (Qlt_le_dec (- p) h) as [L|L]; [pose proof (upper_rises m (- p) h S ltac:(lra) L ltac:(lra)); lra | rewrite (upper_compat m h (- p)); lra]).
  assert (U' : upper m (- h) <= upper m p) by (destruct (Qlt_le_dec (- h) p) as [L|L]; [pose proof (upper_rises m (- h) p S ltac:(lra) L P0); lra | rewrite (upper_compat m (- h) p); lra]).
  assert (V' : upper m (- p) <= upper m (- h)) by (destruct (Qlt_le_dec (- p) (- h)) as [L|L]; [pose proof (upper_rises m (- p) (- h) S ltac:(lra) L ltac:(lra)); lra | rewrite (upper_compat m (- h) (- p)); lra]).
  assert (Hf : forall x, x / 2 == x * (1 # 2)) by (intro x; field). pose proof (Lu p) as Lp. pose proof (Lu h) as Lh. rewrite E, E', !Hf, Lp, Lh. repeat split; lra.
Qed.

(** Otherwise the branches may cross: the lower one above the upper one. *)
Theorem C191_minor_crossed_refuted : exists m p b b', soft m /\ 0 < p /\ p <= h0 m /\
  In (0, b) (fst (by_field m p)) /\ In (0, b') (snd (by_field m p)) /\ b < b'.
Proof.
  exists (mkLimb 10 10 5 1), 5, (-7 # 13), (7 # 13). repeat split; try reflexivity; [discriminate| |]; vm_compute; tauto.
Qed.
Example C191_witness :
  let m := mkLimb 3 2 1 1 in
  soft m /\ separated m 2 /\ b0 m * hc m <= br m * (h0 m + hc m)
  /\ map (fun p => (Qred (fst p), Qred (snd p))) (firstn 3 (fst (by_field m 2))) = [(-2, -3 # 2); (-19 # 10, -687 # 490); (-9 # 5, -13 # 10)].
Proof.
  cbv zeta. split; [repeat split; reflexivity|]. split; [|split; [discriminate | reflexivity]].
  intros x I. vm_compute in I. repeat destruct I as [<- |I]; try destruct I; (split; [first [left; reflexivity | right; discriminate] | first [left; reflexivity | right; discriminate]]).
Qed.

(** * C192: the permeability *)
(** Given a peak field, the permeability is positive, and it is the slope of the upper
    branch from the negative peak to the next field looked at. *)
Theorem C192_slope : forall vacuum m density p, 0 < vacuum -> soft m -> 0 < p -> p <= h0 m -> separated m p ->
  exists a h, amplitude vacuum m density (Some p) = Ok (Some a) /\ 0 < a
    /\ In h (fields m (Some p)) /\ - p < h /\ h <= p
    /\ (forall x, In x (fields m (Some p)) -> - p < x -> h < x + millionth)
    /\ a * vacuum * (h + p) == upper m h - upper m (- p).
Proof.
  intros vacuum m density p V S P P0 Se. pose proof S as (C & H & R & B).
  destruct (by_field_eq m p P Se) as (s & _ & Eu & _). destruct (grid_spec m (Some p)) as (Gs & Gi & Gn). destruct (grid_peak m p P Se) as ((x & X & Ex) & (y & Y & Ey)).
  set (hs := filter (fun h => within h p) (grid m (Some p))) in *.
  assert (Hs : forall h, In h hs <-> In h (grid m (Some p)) /\ - p <= h /\ h <= p) by (intro h; unfold hs, within; rewrite filter_In, andb_true_iff, !Qle_bool_iff; tauto).
  assert (Ss : StronglySorted Qlt hs) by (apply sorted_filter, Gs).
  assert (Ix : In x hs) by (apply Hs; repeat split; [exact X|lra|lra]). assert (Iy : In y hs) by (apply Hs; repeat split; [exact Y|lra|lra]).
  destruct hs as [|z hs]; [destruct Ix|]. apply StronglySorted_inv in Ss. destruct Ss as (Ss & F). rewrite Forall_forall in F.
  assert (Ez : z == - p).
  { destruct (proj1 (Hs z) (or_introl eq_refl)) as (_ & Z1 & _). destruct Iy as [-> |Iy]; [exact Ey|]. specialize (F y Iy). lra. }
  destruct hs as [|h hs]; [destruct Ix as [-> |[]]; lra|].
  destruct (proj1 (Hs h) (or_intror (or_introl eq_refl))) as (Hg & H1 & H2). pose proof (F h (or_introl eq_refl)) as Zh.
  apply StronglySorted_inv in Ss. destruct Ss as (_ & F'). rewrite Forall_forall in F'.
  assert (Far : millionth <= h + p).
  { destruct (proj2 (Se h (Gi h Hg))) as [E|E]; [lra|]. rewrite Qabs_pos in E by lra. exact E. }
  pose proof (upper_rises m z h S ltac:(lra) Zh ltac:(lra)) as Ri.
  exists (Qabs (Qred (upper m h - s) - Qred (upper m z - s)) / Qabs (h - z) / vacuum), h.
  assert (Num : Qabs (Qred (upper m h - s) - Qred (upper m z - s)) == upper m h - upper m z).
  { assert (E : Qred (upper m h - s) - Qred (upper m z - s) == upper m h - upper m z).
    { pose proof (Qred_correct (upper m h - s)) as E1. pose proof (Qred_correct (upper m z - s)) as E2. lra. }
    rewrite E. apply Qabs_pos. lra. }
  assert (Den : Qabs (h - z) == h + p) by (rewrite Qabs_pos by lra; lra).
  split.
  - unfold amplitude. assert (Hy : hysteresis m density (Some p) = by_field m p) by reflexivity. rewrite Hy, Eu. cbn [map]. cbv zeta.
    assert (Bl : below (Qabs (h - z)) (1 # 1000000000000) = false) by (apply below_no; rewrite Den; unfold millionth in Far; lra). rewrite Bl. destruct density; reflexivity.
  - assert (Hp : 0 < h + p) by (unfold millionth in Far; lra). split; [|split; [apply Gi, Hg|split; [lra|split; [exact H2|split]]]].
    + rewrite Num, Den. apply Qlt_shift_div_l; [exact V|]. rewrite Qmult_0_l. apply Qlt_shift_div_l; [exact Hp|]. rewrite Qmult_0_l. lra.
    + intros w W W1. destruct (Qlt_le_dec p w) as [Wp|Wp]; [unfold millionth; lra|]. destruct (Gn w W) as (q & Q1 & Q2 & Q3).
      assert (Wm : millionth <= w + p) by (destruct (proj2 (Se w W)) as [E|E]; [lra|]; rewrite Qabs_pos in E by lra; exact E).
      assert (Iq : In q (z :: h :: hs)) by (apply Hs; repeat split; [exact Q1|lra|lra]).
      destruct Iq as [<- |[<- |Iq]]; [exfalso; lra | unfold millionth; lra|]. specialize (F' q Iq). unfold millionth. lra.
    + rewrite Num, Den, (upper_compat m z (- p) Ez). field. split; lra.
Qed.
(** A peak field that is not positive has none; without a peak the question is refused. *)
Theorem C192_none : forall vacuum m density p, p <= 0 -> amplitude vacuum m density (Some p) = Ok None.
Proof.
  intros vacuum m density p P. assert (L0 : (List.length (fst (by_field m p)) <= 1)%nat);
    [|unfold amplitude, hysteresis; destruct density; (destruct (fst (by_field m p)) as [|[x y] [|? ?]]; [reflexivity | reflexivity | cbn in L0; lia])].
  unfold by_field, rows.
  destruct (grid_spec m (Some p)) as (Gs & _). destruct (grid m (Some p)) as [|g gs]; [cbn; lia|]. cbn [map fst].
  set (s := Qabs _ / 2). set (mk := fun h => mkRow h (upper m h) (lower m h)). change (shifted s ({| at_field := g; up := upper m g; down := lower m g |} :: map mk gs)) with (shifted s (map mk (g :: gs))).
  assert (K : forall l, StronglySorted Qlt l -> (List.length (filter (fun x => within (at_field x) p) (shifted s (map mk l))) <= 1)%nat).
  { intros l Sl. unfold shifted. rewrite map_map. induction Sl as [|x l Sl IH F]; [cbn; lia|]. cbn [map filter at_field mk].
    destruct (within x p) eqn:W; [|exact IH]. unfold within in W. qb. rewrite Forall_forall in F.
    assert (N : filter (fun r => within (at_field r) p) (map (fun h => {| at_field := h; up := Qred (upper m h - s); down := Qred (lower m h + s) |}) l) = []).
    { clear IH. induction l as [|z l IHl]; [reflexivity|]. cbn [map filter at_field]. destruct (within z p) eqn:Z; [|apply IHl; [inversion Sl; assumption | intros q Iq; apply F; right; exact Iq]].
      unfold within in Z. qb. pose proof (F z (or_introl eq_refl)). exfalso. lra. }
    unfold mk in N |- *. cbn [at_field up down] in N |- *. rewrite N. cbn. lia. }
  rewrite map_length. apply (K (g :: gs) Gs).
Qed.
Theorem C192_neither : forall vacuum m, exists e, amplitude vacuum m None None = Throw e.
Proof. intros. eexists. reflexivity. Qed.

(** Given a peak flux density, both branches are those of the major loop, moved towards
    or away from each other by the same amount, and cut at the peak. *)
Definition moved (s : Q) (m : limb) (l : list row) : Prop :=
  map at_field l = grid m None /\ forall r, In r l -> up r == upper m (at_field r) - s /\ down r == lower m (at_field r) + s.
Lemma shifted_moved : forall s t m l, moved s m l -> moved (s + t) m (shifted t l).
Proof.
  intros s t m l (A & B). split; [unfold shifted; rewrite map_map; exact A|]. intros r I. unfold shifted in I. apply in_map_iff in I. destruct I as (r' & <- & I). destruct (B r' I) as (U & D). cbn [up down at_field].
  split; (etransitivity; [apply Qred_correct|]); [rewrite U | rewrite D]; ring.
Qed.
Lemma settle_moved : forall left n tol d p m r rest s, moved s m (r :: rest) -> exists s', moved s' m (settle left n tol d p r rest).
Proof.
  induction left as [|left IH]; intros n tol d p m r rest s M; cbn [settle]; destruct (Qle_bool (Qabs d) tol); try (exists s; exact M).
  cbv zeta. set (d' := Qabs _ - p). pose proof (shifted_moved s (d' / 16) m _ M) as M'. destruct (shifted (d' / 16) (r :: rest)) as [|r' rest'] eqn:E; [discriminate E|]. apply (IH _ _ _ _ _ _ _ _ M').
Qed.
Theorem C192_density : forall m p, exists s,
  (forall h b, In (h, b) (fst (by_density m p)) -> In h (fields m None) /\ - p <= b /\ b <= p /\ b == upper m h - s)
  /\ (forall h b, In (h, b) (snd (by_density m p)) -> In h (fields m None) /\ - p <= b /\ b <= p /\ b == lower m h + s)
  /\ (forall h, In h (fields m None) -> exists g, g <= h /\ h < g + millionth
       /\ (- p <= upper m g - s -> upper m g - s <= p -> exists b, In (g, b) (fst (by_density m p)))
       /\ (- p <= lower m g + s -> lower m g + s <= p -> exists b, In (g, b) (snd (by_density m p)))).
Proof.
  intros m p. destruct (grid_spec m None) as (Gs & Gi & Gn). unfold by_density. destruct (rows m None) as [|r rest] eqn:Rw.
  - exists 0. unfold rows in Rw. apply map_eq_nil in Rw. split; [intros h b []|]. split; [intros h b []|]. intros h H. destruct (Gn h H) as (q & Q1 & _). rewrite Rw in Q1. destruct Q1.
  - assert (M0 : moved 0 m (r :: rest)).
    { rewrite <- Rw. unfold rows. split; [rewrite map_map; apply map_id|]. intros x I. apply in_map_iff in I. destruct I as (h & <- & _). cbn [up down at_field]. split; ring. }
    destruct (settle_moved 10 0 (1 # 1000) p p m r rest 0 M0) as (s & (A & B)). exists s. set (l := settle 10 0 (1 # 1000) p p r rest) in *. cbv zeta. cbn [fst snd].
    assert (Wi : forall x, within x p = true <-> - p <= x /\ x <= p) by (intro x; unfold within; rewrite andb_true_iff, !Qle_bool_iff; tauto).
    assert (Ig : forall x, In x l -> In (at_field x) (fields m None)) by (intros x I; apply Gi; rewrite <- A; apply in_map, I).
    split; [|split].
    + intros h b I. apply in_map_iff in I. destruct I as (x & E & I). apply filter_In in I. destruct I as (I & W). apply Wi in W. pose proof (f_equal fst E) as E1. pose proof (f_equal snd E) as E2. cbn [fst snd] in E1, E2. subst h b.
      split; [apply Ig, I|]. split; [apply W|]. split; [apply W | apply (B x I)].
    + intros h b I. apply in_map_iff in I. destruct I as (x & E & I). apply filter_In in I. destruct I as (I & W). apply Wi in W. pose proof (f_equal fst E) as E1. pose proof (f_equal snd E) as E2. cbn [fst snd] in E1, E2. subst h b.
      split; [apply Ig, I|]. split; [apply W|]. split; [apply W | apply (B x I)].
    + intros h H. destruct (Gn h H) as (g & G1 & G2 & G3). exists g. split; [exact G2|]. split; [exact G3|]. rewrite <- A in G1. apply in_map_iff in G1. destruct G1 as (x & <- & I). destruct (B x I) as (U & D).
      split; intros L1 L2; eexists; apply in_map_iff; exists x; (split; [reflexivity|]); apply filter_In; (split; [exact I|]); apply Wi; [rewrite U | rewrite D]; split; assumption.
Qed.
(** The loop of a flux density need not reach it; below saturation there may be no
    permeability at all; and the permeability is not the ratio of the peaks. *)
Theorem C192_peak_refuted : exists m p, soft m /\ 0 < p /\ p < b0 m
  /\ forall h b, In (h, b) (fst (by_density m p)) \/ In (h, b) (snd (by_density m p)) -> Qabs b < p * (2 # 3).
Proof.
  exists (mkLimb 3 2 1 1), 1. split; [repeat split; reflexivity|]. split; [reflexivity|]. split; [reflexivity|].
  intros h b I. vm_compute in I. repeat match goal with H : _ \/ _ |- _ => destruct H | H : False |- _ => destruct H end; match goal with H : (_, _) = (_, _) |- _ => injection H as <- <- end; reflexivity.
Qed.
Theorem C192_missing_refuted : exists m p, soft m /\ 0 < p /\ p < b0 m /\ forall vacuum, amplitude vacuum m (Some p) None = Ok None.
Proof.
  exists (mkLimb 3 2 1 1), (1 # 2). split; [repeat split; reflexivity|]. split; [reflexivity|]. split; [reflexivity|]. intro vacuum.
  unfold amplitude, hysteresis. assert (E : List.length (fst (by_density (mkLimb 3 2 1 1) (1 # 2))) = 1%nat) by (vm_compute; reflexivity).
  destruct (fst (by_density (mkLimb 3 2 1 1) (1 # 2))) as [|[x y] [|? ?]]; try discriminate. reflexivity.
Qed.
Theorem C192_ratio_refuted : exists m p, soft m /\ 0 < p /\ p < h0 m /\ separated m p
  /\ exists a, amplitude 1 m None (Some p) = Ok (Some a) /\ ~ a == (upper m p + lower m p) / 2 / p.
Proof.
  destruct C191_witness as (S & Se & _). exists (mkLimb 3 2 1 1), 2. split; [exact S|]. split; [reflexivity|]. split; [reflexivity|]. split; [exact Se|].
  eexists. split; [vm_compute; reflexivity|]. vm_compute. discriminate.
Qed.
Example C192_witness : let m := mkLimb 3 2 1 1 in
  List.length (fst (by_density m 1)) = 6%nat
  /\ exists a, amplitude 1 m None (Some 2) = Ok (Some a) /\ a == 48 # 49.
Proof. cbv zeta. split; [vm_compute; reflexivity|]. eexists. split; vm_compute; reflexivity. Qed.
Print Assumptions C191_through.
Print Assumptions C191_branches.
Print Assumptions C191_minor.
Print Assumptions C191_minor_open.
Print Assumptions C191_minor_crossed_refuted.
Print Assumptions C192_slope.
Print Assumptions C192_none.
Print Assumptions C192_neither.
Print Assumptions C192_density.
Print Assumptions C192_peak_refuted.
Print Assumptions C192_missing_refuted.
Print Assumptions C192_ratio_refuted.
