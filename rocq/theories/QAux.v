(** Lemmas about rationals used throughout the proofs. *)
From Coq Require Import ZArith QArith Qround Qabs Qminmax List String Lia Lqa.
From Verif Require Import Base.
Import ListNotations.
Open Scope Q_scope.

Lemma Qlt_bool_iff : forall x y, Qlt_bool x y = true <-> x < y.
Proof.
  intros x y. unfold Qlt_bool. rewrite Bool.negb_true_iff.
  split; intros H.
  - apply Qnot_le_lt. intros Hle. apply Qle_bool_iff in Hle. congruence.
  - destruct (Qle_bool y x) eqn:E; [|reflexivity].
    apply Qle_bool_iff in E. exfalso. lra.
Qed.

Lemma Qlt_bool_false : forall x y, Qlt_bool x y = false <-> y <= x.
Proof.
  intros x y. unfold Qlt_bool. rewrite Bool.negb_false_iff. apply Qle_bool_iff.
Qed.

Lemma Qle_bool_false : forall x y, Qle_bool x y = false <-> y < x.
Proof.
  intros x y. split; intros H.
  - apply Qnot_le_lt. intros Hle. apply Qle_bool_iff in Hle. congruence.
  - destruct (Qle_bool x y) eqn:E; [|reflexivity].
    apply Qle_bool_iff in E. exfalso. lra.
Qed.

Ltac qb :=
  repeat match goal with
  | H : Qlt_bool _ _ = true |- _ => apply Qlt_bool_iff in H
  | H : Qlt_bool _ _ = false |- _ => apply Qlt_bool_false in H
  | H : Qle_bool _ _ = true |- _ => apply Qle_bool_iff in H
  | H : Qle_bool _ _ = false |- _ => apply Qle_bool_false in H
  | H : Qeq_bool _ _ = true |- _ => apply Qeq_bool_iff in H
  | H : Qeq_bool _ _ = false |- _ => apply Qeq_bool_neq in H
  | H : (_ && _)%bool = true |- _ => apply andb_prop in H; destruct H
  end.

Lemma cmax_ge_l : forall a b, a <= cmax a b.
Proof. intros. unfold cmax. destruct (Qlt_bool a b) eqn:E; qb; lra. Qed.
Lemma cmax_ge_r : forall a b, b <= cmax a b.
Proof. intros. unfold cmax. destruct (Qlt_bool a b) eqn:E; qb; lra. Qed.
Lemma cmax_case : forall a b, cmax a b = a \/ cmax a b = b.
Proof. intros. unfold cmax. destruct (Qlt_bool a b); auto. Qed.
Lemma cmax_lub : forall a b c, a <= c -> b <= c -> cmax a b <= c.
Proof. intros. destruct (cmax_case a b) as [-> | ->]; assumption. Qed.
Lemma cmin_le_l : forall a b, cmin a b <= a.
Proof. intros. unfold cmin. destruct (Qlt_bool b a) eqn:E; qb; lra. Qed.
Lemma cmin_le_r : forall a b, cmin a b <= b.
Proof. intros. unfold cmin. destruct (Qlt_bool b a) eqn:E; qb; lra. Qed.
Lemma cmin_case : forall a b, cmin a b = a \/ cmin a b = b.
Proof. intros. unfold cmin. destruct (Qlt_bool b a); auto. Qed.
Lemma cmin_glb : forall a b c, c <= a -> c <= b -> c <= cmin a b.
Proof. intros. destruct (cmin_case a b) as [-> | ->]; assumption. Qed.

#[export] Instance Qlt_bool_comp : Proper (Qeq ==> Qeq ==> eq) Qlt_bool.
Proof.
  intros x x' Hx y y' Hy. unfold Qlt_bool. now rewrite Hx, Hy.
Qed.
#[export] Instance cmax_comp : Proper (Qeq ==> Qeq ==> Qeq) cmax.
Proof.
  intros x x' Hx y y' Hy. unfold cmax. rewrite Hx, Hy at 1.
  destruct (Qlt_bool x' y'); assumption.
Qed.
#[export] Instance cmin_comp : Proper (Qeq ==> Qeq ==> Qeq) cmin.
Proof.
  intros x x' Hx y y' Hy. unfold cmin. rewrite Hx, Hy at 1.
  destruct (Qlt_bool y' x'); assumption.
Qed.
#[export] Instance qround_comp : Proper (Qeq ==> eq) qround.
Proof.
  intros x x' Hx. unfold qround. rewrite Hx at 1.
  destruct (Qle_bool 0 x'); [|f_equal]; apply Qfloor_comp; rewrite Hx; reflexivity.
Qed.

(** ** Injection of integers *)
Lemma inj_lt : forall a b, inject_Z a < inject_Z b <-> (a < b)%Z.
Proof. intros; rewrite <- Zlt_Qlt; reflexivity. Qed.
Lemma inj_le : forall a b, inject_Z a <= inject_Z b <-> (a <= b)%Z.
Proof. intros; rewrite <- Zle_Qle; reflexivity. Qed.
Lemma inj_eq : forall a b, inject_Z a == inject_Z b <-> (a = b)%Z.
Proof. intros; split; [apply inject_Z_injective | intros ->; reflexivity]. Qed.

Lemma Qfloor_unique : forall x z, inject_Z z <= x -> x < inject_Z z + 1 -> Qfloor x = z.
Proof.
  intros x z H1 H2.
  pose proof (Qfloor_le x) as A. pose proof (Qlt_floor x) as B.
  rewrite inject_Z_plus in B. change (inject_Z 1) with 1 in B.
  assert (C1 : inject_Z (Qfloor x) < inject_Z (z + 1)).
  { rewrite inject_Z_plus. change (inject_Z 1) with 1. lra. }
  assert (C2 : inject_Z z < inject_Z (Qfloor x + 1)).
  { rewrite inject_Z_plus. change (inject_Z 1) with 1. lra. }
  rewrite inj_lt in C1, C2. lia.
Qed.

Lemma Qceiling_unique : forall x z, x <= inject_Z z -> inject_Z z - 1 < x -> Qceiling x = z.
Proof.
  intros x z H1 H2. unfold Qceiling.
  rewrite (Qfloor_unique (-x) (-z)); [lia| |]; rewrite inject_Z_opp; lra.
Qed.

Lemma Qceiling_bounds : forall x,
  x <= inject_Z (Qceiling x) /\ inject_Z (Qceiling x) < x + 1.
Proof.
  intros x. split. apply Qle_ceiling.
  pose proof (Qceiling_lt x) as H.
  unfold Z.sub in H. rewrite inject_Z_plus in H.
  rewrite inject_Z_opp in H. change (inject_Z 1) with 1 in H. lra.
Qed.

Lemma Qfloor_bounds : forall x,
  inject_Z (Qfloor x) <= x /\ x < inject_Z (Qfloor x) + 1.
Proof.
  intros x. split. apply Qfloor_le.
  pose proof (Qlt_floor x) as H. rewrite inject_Z_plus in H.
  change (inject_Z 1) with 1 in H. lra.
Qed.

(** ** std::round *)
Lemma qround_bounds : forall x,
  inject_Z (qround x) - (1#2) <= x /\ x <= inject_Z (qround x) + (1#2).
Proof.
  intros x. unfold qround. destruct (Qle_bool 0 x) eqn:E; qb.
  - pose proof (Qfloor_bounds (x + (1#2))). lra.
  - pose proof (Qfloor_bounds (- x + (1#2))).
    rewrite inject_Z_opp. lra.
Qed.

Lemma qround_unique : forall x z,
  inject_Z z - (1#2) < x -> x < inject_Z z + (1#2) -> qround x = z.
Proof.
  intros x z H1 H2. pose proof (qround_bounds x) as [A B].
  assert (inject_Z (qround x) < inject_Z (z + 1)).
  { rewrite inject_Z_plus. change (inject_Z 1) with 1. lra. }
  assert (inject_Z z < inject_Z (qround x + 1)).
  { rewrite inject_Z_plus. change (inject_Z 1) with 1. lra. }
  rewrite inj_lt in *. lia.
Qed.

Lemma qround_Z : forall z, qround (inject_Z z) = z.
Proof. intros. apply qround_unique; lra. Qed.

Lemma qround_mono : forall x y, x <= y -> (qround x <= qround y)%Z.
Proof.
  intros x y H. unfold qround.
  destruct (Qle_bool 0 x) eqn:Ex; destruct (Qle_bool 0 y) eqn:Ey; qb.
  - apply Qfloor_resp_le. lra.
  - lra.
  - assert (0 <= Qfloor (-x + (1#2)))%Z.
    { change 0%Z with (Qfloor 0). apply Qfloor_resp_le. lra. }
    assert (0 <= Qfloor (y + (1#2)))%Z.
    { change 0%Z with (Qfloor 0). apply Qfloor_resp_le. lra. }
    lia.
  - apply Z.opp_le_mono. rewrite !Z.opp_involutive.
    apply Qfloor_resp_le. lra.
Qed.

Lemma qround_opp : forall x, qround (- x) = (- qround x)%Z.
Proof.
  intros x. unfold qround.
  destruct (Qle_bool 0 (-x)) eqn:E1; destruct (Qle_bool 0 x) eqn:E2; qb.
  - assert (x == 0) by lra. rewrite H. reflexivity.
  - lia.
  - f_equal. apply Qfloor_comp. ring.
  - lra.
Qed.

Lemma qround_nonneg : forall x, 0 <= x -> (0 <= qround x)%Z.
Proof. intros x H. change 0%Z with (qround 0). now apply qround_mono. Qed.

Lemma p10_pos : forall d, 0 < p10 d.
Proof.
  intros. unfold p10. change 0 with (inject_Z 0). rewrite inj_lt.
  apply Z.pow_pos_nonneg; lia.
Qed.

Lemma p10_ge1 : forall d, 1 <= p10 d.
Proof.
  intros. unfold p10. change 1 with (inject_Z 1). rewrite inj_le.
  pose proof (Z.pow_pos_nonneg 10 (Z.of_nat d)). lia.
Qed.

Lemma Qdiv_le_iff : forall a b p, 0 < p -> (a / p <= b <-> a <= b * p).
Proof.
  intros a b p Hp. split; intros H.
  - apply (Qmult_le_r _ _ p) in H; [|assumption].
    assert (a / p * p == a) by (field; lra). lra.
  - apply (Qmult_le_r _ _ p); [assumption|].
    assert (a / p * p == a) by (field; lra). lra.
Qed.

Lemma Qle_div_iff : forall a b p, 0 < p -> (a <= b / p <-> a * p <= b).
Proof.
  intros a b p Hp. split; intros H.
  - apply (Qmult_le_r _ _ p) in H; [|assumption].
    assert (b / p * p == b) by (field; lra). lra.
  - apply (Qmult_le_r _ _ p); [assumption|].
    assert (b / p * p == b) by (field; lra). lra.
Qed.

Lemma Qdiv_lt_iff : forall a b p, 0 < p -> (a / p < b <-> a < b * p).
Proof.
  intros a b p Hp. split; intros H.
  - apply Qnot_le_lt. intros C. apply Qle_div_iff in C; [lra|assumption].
  - apply Qnot_le_lt. intros C. apply Qle_div_iff in C; [lra|assumption].
Qed.

Lemma Qlt_div_iff : forall a b p, 0 < p -> (a < b / p <-> a * p < b).
Proof.
  intros a b p Hp. split; intros H.
  - apply Qnot_le_lt. intros C. apply Qdiv_le_iff in C; [lra|assumption].
  - apply Qnot_le_lt. intros C. apply Qdiv_le_iff in C; [lra|assumption].
Qed.

(** ** Sums of lists of rationals *)
Fixpoint Qsum (l : list Q) : Q :=
  match l with [] => 0 | x :: t => x + Qsum t end.

Fixpoint Zsum (l : list Z) : Z :=
  match l with [] => 0%Z | x :: t => (x + Zsum t)%Z end.

Lemma Qsum_app : forall a b, Qsum (a ++ b) == Qsum a + Qsum b.
Proof. induction a; intros; simpl; [ring|]. rewrite IHa. ring. Qed.

Lemma Zsum_app : forall a b, Zsum (a ++ b) = (Zsum a + Zsum b)%Z.
Proof. induction a; intros; simpl; [reflexivity|]. rewrite IHa. lia. Qed.

Lemma Qsum_nonneg : forall l, Forall (fun x => 0 <= x) l -> 0 <= Qsum l.
Proof. induction 1; simpl; lra. Qed.

Lemma Zsum_nonneg : forall l, Forall (fun x => 0 <= x)%Z l -> (0 <= Zsum l)%Z.
Proof. induction 1; simpl; lia. Qed.

Lemma Qsum_ext : forall a b, Forall2 Qeq a b -> Qsum a == Qsum b.
Proof. induction 1; simpl; [reflexivity|]. rewrite H, IHForall2. reflexivity. Qed.

Lemma Qsum_scale : forall k l, Qsum (map (fun x => k * x) l) == k * Qsum l.
Proof. induction l; simpl; [ring|]. rewrite IHl. ring. Qed.

Lemma Qsum_rev : forall l, Qsum (rev l) == Qsum l.
Proof.
  induction l; simpl; [reflexivity|]. rewrite Qsum_app, IHl. simpl. ring.
Qed.

Lemma Forall2_length : forall (A B : Type) (P : A -> B -> Prop) l l',
  Forall2 P l l' -> List.length l = List.length l'.
Proof. induction 1; simpl; congruence. Qed.
