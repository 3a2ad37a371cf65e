(** Lemmas about the model of Roshen. *)
From Coq Require Import Reals List Lra Lia ZArith String.
From Verif Require Import Base SizingModel CoreLossModel CoreLossProofs CoreLossInverseModel RoshenModel.
Import ListNotations.
Local Open Scope R_scope.

(** ** A branch: [x / (a + b x)] *)

Definition branch (a b x : R) : R := x / (a + b * x).

Lemma branch_difference : forall a b x y, a + b * x <> 0 -> a + b * y <> 0 ->
  branch a b y - branch a b x = a * (y - x) / ((a + b * x) * (a + b * y)).
Proof. intros a b x y X Y. unfold branch. field. split; assumption. Qed.

Lemma branch_lt : forall a b x y, 0 < a -> 0 < a + b * x -> 0 < a + b * y -> x < y -> branch a b x < branch a b y.
Proof.
  intros a b x y A X Y L.
  assert (E : branch a b y - branch a b x = a * (y - x) / ((a + b * x) * (a + b * y))) by (apply branch_difference; lra).
  assert (P : 0 < a * (y - x) / ((a + b * x) * (a + b * y))).
  { apply Rdiv_lt_0_compat; apply Rmult_lt_0_compat; lra. }
  lra.
Qed.

Lemma branch_le : forall a b x y, 0 < a -> 0 < a + b * x -> 0 < a + b * y -> x <= y -> branch a b x <= branch a b y.
Proof. intros a b x y A X Y [L| ->]; [left; apply branch_lt; assumption|right; reflexivity]. Qed.

Lemma branch_pos : forall a b x, 0 < a + b * x -> 0 < x -> 0 < branch a b x.
Proof. intros a b x A X. apply Rdiv_lt_0_compat; assumption. Qed.

Lemma branch_0 : forall a b, branch a b 0 = 0.
Proof. intros a b. unfold branch, Rdiv. ring. Qed.

Lemma quotient_le : forall n p q, 0 <= n -> 0 < p <= q -> n / q <= n / p.
Proof.
  intros n p q N [P L]. unfold Rdiv. apply Rmult_le_compat_l; [exact N|]. apply Rinv_le_contravar; assumption.
Qed.

(** ** The two branches *)

(** A coercive force and a remanence below saturation; the third condition is
    the one by which the curve bends down on the demagnetizing side too. *)
Definition soft (p : roshen) : Prop :=
  0 < coercive p < saturation_field p /\ 0 < remanence p < saturation_flux p /\
  coercive p * (saturation_field p + coercive p) * (saturation_flux p / remanence p - 1)
  < saturation_field p * (saturation_field p - coercive p).

Section Branches.
Variable p : roshen.
Hypothesis S : soft p.
Let hc := coercive p.
Let hs := saturation_field p.
Let br := remanence p.
Let bs := saturation_flux p.
Let a := a1_of p.
Let b1 := b1_of p.
Let b2 := b2_of p.

Lemma orders : 0 < hc < hs /\ 0 < br < bs.
Proof. destruct S as (H & B & _). split; assumption. Qed.

Lemma a_eq : a = hc * (hs + hc) / hs * (1 / br - 1 / bs).
Proof.
  destruct orders as [[H1 H2] [B1 B2]]. unfold a, a1_of, b1_of. fold hc hs br bs. field. lra.
Qed.

Lemma a_pos : 0 < a.
Proof.
  destruct orders as [[H1 H2] [B1 B2]]. rewrite a_eq. apply Rmult_lt_0_compat.
  - apply Rdiv_lt_0_compat; [apply Rmult_lt_0_compat; lra|lra].
  - assert (/ bs < / br) by (apply Rinv_lt_contravar; [apply Rmult_lt_0_compat; lra|lra]).
    unfold Rdiv. lra.
Qed.

Lemma b1_eq : b1 = 1 / bs - a / (hs + hc).
Proof.
  destruct orders as [[H1 H2] [B1 B2]]. rewrite a_eq. unfold b1, b1_of. fold hc hs br bs. field. lra.
Qed.

Lemma b2_eq : b2 = 1 / bs - a / (hs - hc).
Proof.
  destruct orders as [[H1 H2] [B1 B2]]. unfold b2, b2_of. fold hc hs br bs a.
  rewrite Rabs_left by lra. field. lra.
Qed.

Lemma b2_pos : 0 < b2.
Proof.
  destruct orders as [[H1 H2] [B1 B2]]. destruct S as (_ & _ & T). fold hc hs br bs in T.
  rewrite b2_eq, a_eq.
  assert (E : 1 / bs - hc * (hs + hc) / hs * (1 / br - 1 / bs) / (hs - hc) =
              (hs * (hs - hc) - hc * (hs + hc) * (bs / br - 1)) / (bs * hs * (hs - hc))) by (field; lra).
  rewrite E. apply Rdiv_lt_0_compat; [lra|]. repeat apply Rmult_lt_0_compat; lra.
Qed.

Lemma b2_b1 : b2 < b1.
Proof.
  destruct orders as [[H1 H2] _]. rewrite b1_eq, b2_eq. pose proof a_pos as A.
  assert (/ (hs + hc) < / (hs - hc)) by (apply Rinv_lt_contravar; [apply Rmult_lt_0_compat; lra|lra]).
  assert (a / (hs + hc) < a / (hs - hc)) by (unfold Rdiv; apply Rmult_lt_compat_l; assumption). lra.
Qed.
Lemma b1_pos : 0 < b1.
Proof. pose proof b2_pos. pose proof b2_b1. lra. Qed.
Lemma b1_bs : b1 * bs < 1.
Proof.
  destruct orders as [[H1 H2] [B1 B2]]. rewrite b1_eq. pose proof a_pos as A.
  assert (0 < a / (hs + hc)) by (apply Rdiv_lt_0_compat; lra).
  apply (Rlt_le_trans _ (1 / bs * bs)); [|right; field; lra]. apply Rmult_lt_compat_r; lra.
Qed.
Lemma b2_bs : b2 * bs < 1.
Proof.
  pose proof b1_bs. pose proof b2_b1. destruct orders as [_ [B1 B2]].
  apply (Rlt_trans _ (b1 * bs)); [|assumption]. apply Rmult_lt_compat_r; lra.
Qed.

Lemma bottom : forall b x, 0 < b -> 0 <= x -> 0 < a + b * x.
Proof. intros b x B X. pose proof a_pos. assert (0 <= b * x) by (apply Rmult_le_pos; lra). lra. Qed.

Lemma upper_right : forall h, - hc <= h -> upper_branch p h = branch a b1 (h + hc).
Proof.
  intros h H. unfold upper_branch, half_loop. fold hc a b1 b2. destruct (Rlt_dec h (- hc)); [lra|].
  rewrite Rabs_pos_eq by lra. reflexivity.
Qed.
Lemma upper_left : forall h, h <= - hc -> upper_branch p h = - branch a b2 (- h - hc).
Proof.
  intros h H. unfold upper_branch, half_loop. fold hc a b1 b2. destruct (Rlt_dec h (- hc)).
  - rewrite Rabs_left1 by lra. unfold branch. replace (- (h + hc)) with (- h - hc) by ring.
    pose proof (bottom b2 (- h - hc) b2_pos ltac:(lra)). field. lra.
  - replace h with (- hc) by lra. replace (- hc + hc) with 0 by ring. replace (- - hc - hc) with 0 by ring.
    rewrite branch_0. unfold Rdiv. ring.
Qed.

Lemma lower_upper : forall h, lower_branch p h = - upper_branch p (- h).
Proof.
  intros h. unfold lower_branch, upper_branch. fold hc a b1 b2. destruct (Rlt_dec h hc), (Rlt_dec (- h) (- hc)); try lra; try reflexivity.
  f_equal. unfold half_loop. fold hc. replace (- h + hc) with 0 by lra. unfold Rdiv. ring.
Qed.

Lemma upper_saturation : upper_branch p hs = bs.
Proof.
  destruct orders as [[H1 H2] [B1 B2]]. rewrite upper_right by lra. unfold branch. rewrite b1_eq.
  replace (a + (1 / bs - a / (hs + hc)) * (hs + hc)) with ((hs + hc) / bs) by (field; lra). field. lra.
Qed.
Lemma upper_minus_saturation : upper_branch p (- hs) = - bs.
Proof.
  destruct orders as [[H1 H2] [B1 B2]]. rewrite upper_left by lra. unfold branch. rewrite Ropp_involutive, b2_eq.
  replace (a + (1 / bs - a / (hs - hc)) * (hs - hc)) with ((hs - hc) / bs) by (field; lra). field. lra.
Qed.
Lemma upper_remanence : upper_branch p 0 = br.
Proof.
  destruct orders as [[H1 H2] [B1 B2]]. rewrite upper_right by lra. unfold branch. rewrite b1_eq, a_eq.
  rewrite Rplus_0_l.
  replace (hc * (hs + hc) / hs * (1 / br - 1 / bs) + (1 / bs - hc * (hs + hc) / hs * (1 / br - 1 / bs) / (hs + hc)) * hc)
    with (hc / br) by (field; lra). field. lra.
Qed.
Lemma upper_coercive : upper_branch p (- hc) = 0.
Proof. destruct orders as [[H1 H2] _]. rewrite upper_right by lra. replace (- hc + hc) with 0 by ring. apply branch_0. Qed.

Lemma upper_lt : forall h h', h < h' -> upper_branch p h < upper_branch p h'.
Proof.
  pose proof a_pos as A. pose proof b1_pos as P1. pose proof b2_pos as P2.
  assert (R_ : forall h h', - hc <= h -> h < h' -> upper_branch p h < upper_branch p h').
  { intros h h' H L. rewrite !upper_right by lra. apply branch_lt; [exact A|apply bottom; lra|apply bottom; lra|lra]. }
  assert (L_ : forall h h', h' <= - hc -> h < h' -> upper_branch p h < upper_branch p h').
  { intros h h' H L. rewrite !upper_left by lra. apply Ropp_lt_contravar.
    apply branch_lt; [exact A|apply bottom; lra|apply bottom; lra|lra]. }
  intros h h' L. destruct (Rle_lt_dec (- hc) h) as [H|H]; [apply R_; assumption|].
  destruct (Rle_lt_dec h' (- hc)) as [H'|H']; [apply L_; assumption|].
  apply (Rlt_trans _ (upper_branch p (- hc))); [apply L_; lra|apply R_; lra].
Qed.
Lemma lower_lt : forall h h', h < h' -> lower_branch p h < lower_branch p h'.
Proof. intros h h' L. rewrite !lower_upper. apply Ropp_lt_contravar. apply upper_lt. lra. Qed.

(** ** The gap between the branches *)

Definition gap (h : R) : R := upper_branch p h - lower_branch p h.

Lemma gap_even : forall h, gap (- h) = gap h.
Proof. intros h. unfold gap. rewrite !lower_upper, Ropp_involutive. ring. Qed.

Lemma gap_lt : forall h h', 0 <= h -> h < h' -> gap h' < gap h.
Proof.
  pose proof a_pos as A. pose proof b1_pos as P1. pose proof b2_pos as P2. pose proof b2_b1 as B.
  destruct orders as [[H1 H2] _].
  assert (N : forall h, 0 <= h <= hc -> gap h = branch a b1 (hc + h) + branch a b1 (hc - h)).
  { intros h H. unfold gap. rewrite lower_upper, !upper_right by lra.
    replace (h + hc) with (hc + h) by ring. replace (- h + hc) with (hc - h) by ring. ring. }
  assert (F : forall h, hc <= h -> gap h = branch a b1 (hc + h) - branch a b2 (h - hc)).
  { intros h H. unfold gap. rewrite lower_upper. rewrite upper_right by lra. rewrite upper_left by lra.
    replace (h + hc) with (hc + h) by ring. replace (- - h - hc) with (h - hc) by ring. ring. }
  assert (IN : forall h h', 0 <= h -> h < h' -> h' <= hc -> gap h' < gap h).
  { intros h h' H0 L H. rewrite !N by lra.
    assert (E1 := branch_difference a b1 (hc + h) (hc + h') ltac:(pose proof (bottom b1 (hc + h) P1 ltac:(lra)); lra)
      ltac:(pose proof (bottom b1 (hc + h') P1 ltac:(lra)); lra)).
    assert (E2 := branch_difference a b1 (hc - h') (hc - h) ltac:(pose proof (bottom b1 (hc - h') P1 ltac:(lra)); lra)
      ltac:(pose proof (bottom b1 (hc - h) P1 ltac:(lra)); lra)).
    replace (hc + h' - (hc + h)) with (h' - h) in E1 by ring. replace (hc - h - (hc - h')) with (h' - h) in E2 by ring.
    assert (Q : a * (h' - h) / ((a + b1 * (hc + h)) * (a + b1 * (hc + h'))) <
                a * (h' - h) / ((a + b1 * (hc - h')) * (a + b1 * (hc - h)))).
    { unfold Rdiv. apply Rmult_lt_compat_l; [apply Rmult_lt_0_compat; lra|].
      pose proof (bottom b1 (hc - h') P1 ltac:(lra)). pose proof (bottom b1 (hc - h) P1 ltac:(lra)).
      assert (b1 * (hc - h') < b1 * (hc + h)) by (apply Rmult_lt_compat_l; lra).
      assert (b1 * (hc - h) < b1 * (hc + h')) by (apply Rmult_lt_compat_l; lra).
      apply Rinv_lt_contravar.
      - repeat apply Rmult_lt_0_compat; lra.
      - apply Rmult_gt_0_lt_compat; lra. }
    lra. }
  assert (OUT : forall h h', hc <= h -> h < h' -> gap h' < gap h).
  { intros h h' H L. rewrite !F by lra.
    assert (E1 := branch_difference a b1 (hc + h) (hc + h') ltac:(pose proof (bottom b1 (hc + h) P1 ltac:(lra)); lra)
      ltac:(pose proof (bottom b1 (hc + h') P1 ltac:(lra)); lra)).
    assert (E2 := branch_difference a b2 (h - hc) (h' - hc) ltac:(pose proof (bottom b2 (h - hc) P2 ltac:(lra)); lra)
      ltac:(pose proof (bottom b2 (h' - hc) P2 ltac:(lra)); lra)).
    replace (hc + h' - (hc + h)) with (h' - h) in E1 by ring. replace (h' - hc - (h - hc)) with (h' - h) in E2 by ring.
    assert (Q : a * (h' - h) / ((a + b1 * (hc + h)) * (a + b1 * (hc + h'))) <
                a * (h' - h) / ((a + b2 * (h - hc)) * (a + b2 * (h' - hc)))).
    { unfold Rdiv. apply Rmult_lt_compat_l; [apply Rmult_lt_0_compat; lra|].
      pose proof (bottom b2 (h - hc) P2 ltac:(lra)). pose proof (bottom b2 (h' - hc) P2 ltac:(lra)).
      assert (G : forall x, hc <= x -> b2 * (x - hc) < b1 * (hc + x)).
      { intros x X. apply (Rle_lt_trans _ (b1 * (x - hc))); [apply Rmult_le_compat_r; lra|apply Rmult_lt_compat_l; lra]. }
      pose proof (G h ltac:(lra)). pose proof (G h' ltac:(lra)).
      apply Rinv_lt_contravar.
      - repeat apply Rmult_lt_0_compat; lra.
      - apply Rmult_gt_0_lt_compat; lra. }
    lra. }
  intros h h' H L. destruct (Rle_lt_dec hc h) as [Q|Q]; [apply OUT; assumption|].
  destruct (Rle_lt_dec h' hc) as [Q'|Q']; [apply IN; assumption|].
  apply (Rlt_trans _ (gap hc)); [apply OUT; lra|apply IN; lra].
Qed.

Lemma gap_saturation : gap hs = 0.
Proof. unfold gap. rewrite lower_upper, upper_minus_saturation, upper_saturation. ring. Qed.

Lemma gap_le : forall h h', Rabs h <= Rabs h' -> gap h' <= gap h.
Proof.
  assert (E : forall h, gap h = gap (Rabs h)).
  { intros h. unfold Rabs. destruct (Rcase_abs h); [rewrite gap_even|]; reflexivity. }
  intros h h' L. rewrite (E h), (E h'). destruct L as [L|L]; [left; apply gap_lt; [apply Rabs_pos|exact L]|].
  rewrite L. lra.
Qed.

(** ** The shift *)

(** Twice the peak reached where the branches meet, [u] beyond the coercive force. *)
Definition reach (u : R) : R := branch a b2 u + branch a b1 (2 * hc + u).

Lemma reach_lt : forall u v, 0 <= u -> u < v -> reach u < reach v.
Proof.
  intros u v U L. unfold reach. pose proof a_pos as A. pose proof b1_pos as P1. pose proof b2_pos as P2.
  destruct orders as [[H1 H2] _].
  apply Rplus_lt_compat; apply branch_lt; try apply bottom; lra.
Qed.

Lemma quadratic_reach : forall bp u, 0 <= u ->
  (- (2) * bp * b1 * b2 + b1 + b2) * u ^ 2
  - 2 * (2 * bp * hc * b1 * b2 + bp * a * (b1 + b2) - hc * (b1 + b2) - a) * u
  + (2 * hc * a - 2 * bp * a * (a + 2 * hc * b1)) =
  (reach u - 2 * bp) * ((a + b2 * u) * (a + b1 * (2 * hc + u))).
Proof.
  intros bp u U. unfold reach, branch. pose proof b1_pos. pose proof b2_pos. destruct orders as [[H1 H2] _].
  pose proof (bottom b2 u ltac:(assumption) U). pose proof (bottom b1 (2 * hc + u) ltac:(assumption) ltac:(lra)).
  field. lra.
Qed.

Lemma discriminant : forall bp,
  4 * bp * bp * hc * hc * b1 * b1 * b2 * b2
           - 4 * bp * bp * hc * a * b1 * b1 * b2
           + 4 * bp * bp * hc * a * b1 * b2 * b2
           + bp * bp * a * a * b1 * b1
           - 2 * bp * bp * a * a * b1 * b2
           + bp * bp * a * a * b2 * b2
           - 4 * bp * hc * hc * b1 * b1 * b2
           - 4 * bp * hc * hc * b1 * b2 * b2
           + 2 * bp * hc * a * b1 * b1
           - 2 * bp * hc * a * b2 * b2
           + hc * hc * b1 * b1
           + 2 * hc * hc * b1 * b2
           + hc * hc * b2 * b2
           + a * a =
  (2 * bp * hc * b1 * b2 + bp * a * (b1 + b2) - hc * (b1 + b2) - a) ^ 2
  - (- (2) * bp * b1 * b2 + b1 + b2) * (2 * hc * a - 2 * bp * a * (a + 2 * hc * b1)).
Proof. intros bp. ring. Qed.

(** In range: there is a [u] and the shift is its half difference. *)
Lemma shift_inside : forall bp, reach 0 < 2 * bp -> bp < bs ->
  exists u, 0 < u < hs - hc /\ reach u = 2 * bp /\
    shift_of p bp = (- branch a b2 u + branch a b1 (2 * hc + u)) / 2.
Proof.
  intros bp L U. pose proof a_pos as A. pose proof b1_pos as P1. pose proof b2_pos as P2.
  destruct orders as [[H1 H2] [B1 B2]].
  pose proof (bottom b1 (2 * hc) P1 ltac:(lra)) as D0.
  assert (BP : 0 < bp).
  { unfold reach in L. rewrite branch_0, Rplus_0_r in L. pose proof (branch_pos a b1 (2 * hc) D0 ltac:(lra)). lra. }
  unfold shift_of. fold hc a b1 b2. unfold delta_of. cbv zeta. rewrite discriminant.
  set (A' := 2 * bp * hc * b1 * b2 + bp * a * (b1 + b2) - hc * (b1 + b2) - a).
  set (C := - (2) * bp * b1 * b2 + b1 + b2).
  set (K := 2 * hc * a - 2 * bp * a * (a + 2 * hc * b1)).
  assert (CP : 0 < C).
  { unfold C. replace (- (2) * bp * b1 * b2 + b1 + b2) with (b1 * (1 - b2 * bp) + b2 * (1 - b1 * bp)) by ring.
    pose proof b1_bs as Q1. pose proof b2_bs as Q2.
    assert (b1 * bp < b1 * bs) by (apply Rmult_lt_compat_l; lra).
    assert (b2 * bp < b2 * bs) by (apply Rmult_lt_compat_l; lra).
    apply Rplus_lt_0_compat; apply Rmult_lt_0_compat; lra. }
  assert (KN : K < 0).
  { assert (E := quadratic_reach bp 0 (Rle_refl 0)). fold A' C K in E.
    replace (C * 0 ^ 2 - 2 * A' * 0 + K) with K in E by ring. rewrite E.
    replace (a + b2 * 0) with a by ring. replace (2 * hc + 0) with (2 * hc) by ring.
    assert (0 < a * (a + b1 * (2 * hc))) by (apply Rmult_lt_0_compat; assumption).
    apply Ropp_lt_cancel. rewrite Ropp_0, Ropp_mult_distr_l. apply Rmult_lt_0_compat; lra. }
  assert (CK : 0 < - (C * K)) by (rewrite Ropp_mult_distr_r; apply Rmult_lt_0_compat; lra).
  assert (A2 : 0 <= A' ^ 2) by (apply pow2_ge_0).
  destruct (Rlt_dec (A' ^ 2 - C * K) 0) as [N|N]; [lra|].
  set (s := sqrt (A' ^ 2 - C * K)).
  assert (S2 : s * s = A' ^ 2 - C * K) by (apply sqrt_sqrt; lra).
  assert (SG : Rabs A' < s).
  { unfold s. replace (Rabs A') with (sqrt (A' ^ 2)).
    - apply sqrt_lt_1; lra.
    - rewrite <- (sqrt_Rsqr_abs A'). f_equal. unfold Rsqr. ring. }
  set (u := (A' + s) / C).
  assert (UP : 0 < u).
  { unfold u. apply Rdiv_lt_0_compat; [|exact CP]. pose proof (Rle_abs (- A')). rewrite Rabs_Ropp in *. lra. }
  destruct (Rle_dec u 0) as [N1|N1]; [lra|]. destruct (Rle_dec u 0) as [N2|N2]; [lra|].
  assert (Q : C * u ^ 2 - 2 * A' * u + K = 0).
  { apply (Rmult_eq_reg_l C); [|lra]. rewrite Rmult_0_r. unfold u.
    transitivity (s * s - (A' ^ 2 - C * K)); [field; lra|rewrite S2; ring]. }
  pose proof (bottom b2 u P2 ltac:(lra)) as D2. pose proof (bottom b1 (2 * hc + u) P1 ltac:(lra)) as D1.
  assert (R_ : reach u = 2 * bp).
  { assert (E := quadratic_reach bp u ltac:(lra)). fold A' C K in E. rewrite Q in E.
    assert (0 < (a + b2 * u) * (a + b1 * (2 * hc + u))) by (apply Rmult_lt_0_compat; assumption).
    symmetry in E. apply Rmult_integral in E. destruct E as [E|E]; lra. }
  exists u. split; [split; [exact UP|]|split; [exact R_|]].
  - destruct (Rlt_le_dec u (hs - hc)) as [Q'|Q']; [exact Q'|exfalso].
    assert (T : reach (hs - hc) = 2 * bs).
    { unfold reach. replace (2 * hc + (hs - hc)) with (hs + hc) by ring.
      pose proof upper_saturation as U1. pose proof upper_minus_saturation as U2.
      rewrite upper_right in U1 by lra. rewrite upper_left in U2 by lra. rewrite Ropp_involutive in U2. lra. }
    destruct Q' as [Q'|Q'].
    + pose proof (reach_lt (hs - hc) u ltac:(lra) Q'). lra.
    + rewrite <- Q' in R_. lra.
  - unfold branch. field. split; lra.
Qed.

(** Out of range: the branches are not shifted. *)
Lemma shift_small : forall bp, 2 * bp <= reach 0 -> bp < bs -> shift_of p bp = 0.
Proof.
  intros bp L U. pose proof a_pos as A. pose proof b1_pos as P1. pose proof b2_pos as P2.
  destruct orders as [[H1 H2] [B1 B2]].
  assert (NR : forall u, 0 < u -> (- (2) * bp * b1 * b2 + b1 + b2) * u ^ 2
     - 2 * (2 * bp * hc * b1 * b2 + bp * a * (b1 + b2) - hc * (b1 + b2) - a) * u
     + (2 * hc * a - 2 * bp * a * (a + 2 * hc * b1)) <> 0).
  { intros u UP E. rewrite quadratic_reach in E by lra.
    pose proof (bottom b2 u P2 ltac:(lra)). pose proof (bottom b1 (2 * hc + u) P1 ltac:(lra)).
    assert (0 < (a + b2 * u) * (a + b1 * (2 * hc + u))) by (apply Rmult_lt_0_compat; assumption).
    pose proof (reach_lt 0 u (Rle_refl 0) UP).
    apply Rmult_integral in E. destruct E as [E|E]; lra. }
  unfold shift_of. fold hc a b1 b2. unfold delta_of. cbv zeta. rewrite discriminant.
  set (A' := 2 * bp * hc * b1 * b2 + bp * a * (b1 + b2) - hc * (b1 + b2) - a) in *.
  set (C := - (2) * bp * b1 * b2 + b1 + b2) in *.
  set (K := 2 * hc * a - 2 * bp * a * (a + 2 * hc * b1)) in *.
  assert (CP : 0 < C).
  { unfold C. replace (- (2) * bp * b1 * b2 + b1 + b2) with (b1 * (1 - b2 * bp) + b2 * (1 - b1 * bp)) by ring.
    pose proof b1_bs as Q1. pose proof b2_bs as Q2.
    assert (b1 * bp < b1 * bs) by (apply Rmult_lt_compat_l; lra).
    assert (b2 * bp < b2 * bs) by (apply Rmult_lt_compat_l; lra).
    apply Rplus_lt_0_compat; apply Rmult_lt_0_compat; lra. }
  destruct (Rlt_dec (A' ^ 2 - C * K) 0) as [N|N]; [reflexivity|].
  set (s := sqrt (A' ^ 2 - C * K)).
  assert (S2 : s * s = A' ^ 2 - C * K) by (apply sqrt_sqrt; lra).
  assert (RT : forall v, (v = A' + s \/ v = A' - s) -> ~ 0 < v / C).
  { intros v V UP. apply (NR (v / C) UP). apply (Rmult_eq_reg_l C); [|lra]. rewrite Rmult_0_r.
    destruct V as [-> | ->]; (transitivity (s * s - (A' ^ 2 - C * K)); [field; lra|rewrite S2; ring]). }
  pose proof (RT _ (or_introl eq_refl)) as R1. pose proof (RT _ (or_intror eq_refl)) as R2.
  destruct (Rle_dec ((A' + s) / C) 0) as [Q|Q]; [|exfalso; lra].
  destruct (Rle_dec ((A' - s) / C) 0) as [Q'|Q']; [reflexivity|exfalso; lra].
Qed.

End Branches.

(** ** The loop *)

Lemma fold_sum : forall l, fold_right Rplus 0 l = sumR l.
Proof. induction l as [|x l IH]; simpl; [reflexivity|rewrite IH; reflexivity]. Qed.

Lemma filter_map : forall (A B : Type) (f : A -> B) (q : B -> bool) l,
  filter q (map f l) = map f (filter (fun x => q (f x)) l).
Proof.
  intros A B f q l. induction l as [|x l IH]; simpl; [reflexivity|]. destruct (q (f x)); simpl; rewrite IH; reflexivity.
Qed.

Lemma filter_same : forall (A : Type) (q r : A -> bool) l, (forall x, In x l -> q x = r x) -> filter q l = filter r l.
Proof.
  intros A q r l. induction l as [|x l IH]; intros H; simpl; [reflexivity|].
  rewrite (H x) by (left; reflexivity). rewrite IH by (intros y Y; apply H; right; exact Y). reflexivity.
Qed.

Lemma combine_map : forall (A B C : Type) (f : A -> B) (g : A -> C) l,
  combine (map f l) (map g l) = map (fun x => (f x, g x)) l.
Proof. intros A B C f g l. induction l as [|x l IH]; simpl; [reflexivity|]. rewrite IH. reflexivity. Qed.

Definition between (t h : R) : bool := if Rle_dec (Rabs h) t then true else false.

Lemma inside_true : forall bp x, inside bp x = true <-> - bp <= x <= bp.
Proof.
  intros bp x. unfold inside. destruct (Rle_dec x bp), (Rle_dec (- bp) x); split; intros H; try discriminate; try reflexivity; lra.
Qed.
Lemma between_true : forall t h, between t h = true <-> - t <= h <= t.
Proof.
  intros t h. unfold between. destruct (Rle_dec (Rabs h) t) as [L|L]; split; intros H; try discriminate; try reflexivity.
  - pose proof (Rle_abs h). pose proof (Rle_abs (- h)). rewrite Rabs_Ropp in *. lra.
  - exfalso. apply L. apply Rabs_le. exact H.
Qed.

Lemma same_bool : forall x y : bool, (x = true <-> y = true) -> x = y.
Proof. intros [] [] H; try reflexivity; [symmetry; apply H; reflexivity|apply H; reflexivity]. Qed.
