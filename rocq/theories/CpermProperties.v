(** C189, C190: complex permeability, derived and interpolated. *)
From Coq Require Import Reals List Bool String ZArith Lia Lra Permutation Sorting.Sorted.
From Verif Require Import Base StrMap CoreLossModel CpermModel.
Import ListNotations.
Local Open Scope R_scope.

(** * C189: derived from the initial permeability *)
Lemma rpower10_log : forall v, 0 < v -> Rpower 10 (log10 v) = v.
Proof.
  intros v V. unfold Rpower, log10. assert (0 < ln 10) by (rewrite <- ln_1; apply ln_increasing; lra).
  replace (ln v / ln 10 * ln 10) with (ln v) by (field; lra). apply exp_ln, V.
Qed.
Lemma rpower10_le : forall a b, a <= b -> Rpower 10 a <= Rpower 10 b.
Proof. intros a b H. apply Rle_Rpower; lra. Qed.
Lemma log10_le : forall a b, 0 < a -> a <= b -> log10 a <= log10 b.
Proof.
  intros a b A L. unfold log10. assert (0 < ln 10) by (rewrite <- ln_1; apply ln_increasing; lra).
  apply Rmult_le_compat_r; [left; apply Rinv_0_lt_compat; assumption|]. destruct L as [L| ->]; [left; apply ln_increasing; assumption | lra].
Qed.
(** A table that rises in both columns. *)
Fixpoint rising (p : R * R) (l : list (R * R)) : Prop :=
  match l with [] => True | q :: rest => fst p < fst q /\ snd p <= snd q /\ rising q rest end.
Lemma rising_last : forall l p, rising p l -> snd p <= snd (last l p) /\ fst p <= fst (last l p).
Proof.
  induction l as [|q l IH]; intros p H; [cbn; lra|]. destruct H as (F & S & H). pose proof (IH q H) as (A & B).
  assert (E : last (q :: l) p = last l q).
  { clear. revert q p. induction l as [|r l IH]; intros q p; [reflexivity|]. change (last (q :: r :: l) p) with (last (r :: l) p). now rewrite (IH r p), (IH r q). }
  rewrite E. lra.
Qed.
Lemma climb_bounds : forall l p x, 0 < snd p -> rising p l -> fst p < x -> x < fst (last l p) -> snd p <= climb x p l <= snd (last l p).
Proof.
  induction l as [|q l IH]; intros p x P H A B; [cbn in B; lra|]. destruct H as (F & S & H).
  assert (E : last (q :: l) p = last l q).
  { clear. revert q p. induction l as [|r l IH]; intros q p; [reflexivity|]. change (last (q :: r :: l) p) with (last (r :: l) p). now rewrite (IH r p), (IH r q). }
  rewrite E in *. pose proof (rising_last l q H) as (La & _). cbn [climb]. destruct (Rle_dec x (fst q)) as [L|L].
  - pose proof (log10_le _ _ P S) as Lg. set (t := (x - fst p) / (fst q - fst p)).
    assert (T : 0 <= t <= 1).
    { unfold t. split; [apply Rmult_le_pos; [lra | left; apply Rinv_0_lt_compat; lra]|]. apply Rmult_le_reg_r with (fst q - fst p); [lra|]. unfold Rdiv. rewrite Rmult_assoc, Rinv_l by lra. lra. }
    split.
    + rewrite <- (rpower10_log (snd p) P) at 1. apply rpower10_le. nra.
    + apply Rle_trans with (snd q); [|exact La]. rewrite <- (rpower10_log (snd q)) at 2 by lra. apply rpower10_le. nra.
  - destruct (IH q x ltac:(lra) H ltac:(lra) B). lra.
Qed.
Lemma climb_mono : forall l p x y, 0 < snd p -> rising p l -> fst p < x -> x <= y -> y < fst (last l p) -> climb x p l <= climb y p l.
Proof.
  induction l as [|q l IH]; intros p x y P H A XY B; [cbn in B; lra|]. pose proof H as (F & S & H').
  assert (E : last (q :: l) p = last l q).
  { clear. revert q p. induction l as [|r l IH]; intros q p; [reflexivity|]. change (last (q :: r :: l) p) with (last (r :: l) p). now rewrite (IH r p), (IH r q). }
  rewrite E in B. cbn [climb]. destruct (Rle_dec x (fst q)) as [Lx|Lx]; destruct (Rle_dec y (fst q)) as [Ly|Ly]; try lra.
  - apply rpower10_le. pose proof (log10_le _ _ P S) as Lg.
    assert ((x - fst p) / (fst q - fst p) <= (y - fst p) / (fst q - fst p)) by (apply Rmult_le_compat_r; [left; apply Rinv_0_lt_compat; lra | lra]). nra.
  - apply Rle_trans with (snd q); [|apply climb_bounds; try assumption; lra].
    rewrite <- (rpower10_log (snd q)) at 2 by lra. apply rpower10_le. pose proof (log10_le _ _ P S) as Lg.
    assert ((x - fst p) / (fst q - fst p) <= 1).
    { apply Rmult_le_reg_r with (fst q - fst p); [lra|]. unfold Rdiv. rewrite Rmult_assoc, Rinv_l by lra. lra. }
    nra.
  - apply IH; try assumption; lra.
Qed.
Lemma drop_rising : rising (31/100, 1) (tl drop_table).
Proof. cbn. repeat split; lra. Qed.

(** The factor between particle and core permeability lies between 1 and 1000 and
    grows with the drop it is inferred from. *)
Theorem C189_infer : forall x y, x <= y -> 1 <= infer (Some x) /\ infer (Some x) <= infer (Some y) /\ infer (Some y) <= 1000.
Proof.
  assert (B : forall x, 1 <= infer (Some x) <= 1000).
  { intro x. unfold infer, within. change drop_table with ((31/100, 1) :: tl drop_table). cbv iota.
    destruct (Rle_dec x (fst (31/100, 1))) as [L|L]; [cbn; lra|].
    destruct (Rle_dec (fst (last (tl drop_table) (31/100, 1))) x) as [H|H]; [cbn; lra|].
    pose proof (climb_bounds (tl drop_table) (31/100, 1) x ltac:(cbn; lra) drop_rising ltac:(lra) ltac:(lra)) as C.
    change (snd (31/100, 1)) with 1 in C. change (snd (last (tl drop_table) (31 / 100, 1))) with 1000 in C. exact C. }
  intros x y L. split; [apply B|]. split; [|apply B].
  unfold infer, within. change drop_table with ((31/100, 1) :: tl drop_table). cbv iota.
  pose proof (B x) as Bx. pose proof (B y) as By. unfold infer, within in Bx, By. change drop_table with ((31/100, 1) :: tl drop_table) in Bx, By. cbv iota in Bx, By.
  change (snd (31/100, 1)) with 1 in *. change (snd (last (tl drop_table) (31 / 100, 1))) with 1000 in *.
  destruct (Rle_dec x (fst (31/100, 1))) as [X|X]; [lra|].
  destruct (Rle_dec y (fst (31/100, 1))) as [Y|Y]; [lra|].
  destruct (Rle_dec (fst (last (tl drop_table) (31/100, 1))) y) as [Hy|Hy]; [lra|].
  destruct (Rle_dec (fst (last (tl drop_table) (31/100, 1))) x) as [Hx|Hx]; [lra|].
  apply climb_mono; try lra; [cbn; lra | exact drop_rising].
Qed.
(** A material of one piece is left alone; otherwise the binder takes a share. *)
Theorem C189_factors : forall f90 f95 initial mu g, factors f90 f95 initial = (mu, g) ->
  1 <= mu /\ 0 < g <= 1 /\ (mu = 1 -> g = 1)
  /\ (g < 1 -> 1 < mu /\ 1 < initial /\ g * (mu * initial - 1) = mu * (initial - 1)).
Proof.
  intros f90 f95 initial mu g. unfold factors.
  assert (One : (1, 1) = (mu, g) -> 1 <= mu /\ 0 < g <= 1 /\ (mu = 1 -> g = 1) /\ (g < 1 -> 1 < mu /\ 1 < initial /\ g * (mu * initial - 1) = mu * (initial - 1))).
  { intro E. injection E as <- <-. repeat split; intros; lra. }
  destruct f90 as [a|]; [|exact One]. destruct f95 as [b|]; [|exact One]. destruct (Rlt_dec 0 a); [|exact One]. destruct (Rlt_dec b a); [|exact One].
  cbv zeta. set (m := infer (Some ((a - b) / a))). pose proof (C189_infer ((a - b) / a) ((a - b) / a) (Rle_refl _)) as (M & _). fold m in M.
  clearbody m. destruct (Rlt_dec 1 m) as [M1|M1].
  - destruct (Rlt_dec 1 initial) as [I|I]; intro E; injection E as <- <-.
    + assert (D : 0 < m * initial - 1) by nra. assert (N : 0 < m * (initial - 1)) by nra.
      assert (Eq : m * (initial - 1) / (m * initial - 1) * (m * initial - 1) = m * (initial - 1)) by (field; lra).
      repeat split; try lra; [apply Rdiv_lt_0_compat; assumption|]. apply Rmult_le_reg_r with (m * initial - 1); [exact D|]. rewrite Eq. lra.
    + repeat split; intros; lra.
  - intro E. injection E as <- <-. repeat split; intros; lra.
Qed.

Lemma cosh_above : forall x, x <> 0 -> 1 < cosh x.
Proof.
  intros x X. unfold cosh.
  assert (E : exp x = exp (x / 2) * exp (x / 2)) by (rewrite <- exp_plus; f_equal; field).
  assert (E' : exp (- x) = exp (- (x / 2)) * exp (- (x / 2))) by (rewrite <- exp_plus; f_equal; field).
  assert (P : exp (x / 2) * exp (- (x / 2)) = 1) by (rewrite <- exp_plus, Rplus_opp_r; apply exp_0).
  assert (N : exp (x / 2) <> exp (- (x / 2))) by (intro H; apply exp_inv in H; lra).
  rewrite E, E'. set (a := exp (x / 2)) in *. set (b := exp (- (x / 2))) in *. assert (0 < (a - b) * (a - b)) by (apply Rsqr_pos_lt; lra). nra.
Qed.
Lemma sinh_above : forall x, 0 < x -> x < sinh x.
Proof.
  intros x X. destruct (MVT_cor2 sinh cosh 0 x X (fun c _ => derivable_pt_lim_sinh c)) as (c & E & C).
  rewrite sinh_0 in E. pose proof (cosh_above c ltac:(lra)). nra.
Qed.
Lemma sheet_positive : forall r, 0 < r -> 0 < fst (sheet r) /\ 0 < snd (sheet r).
Proof.
  intros r R0. unfold sheet. cbv zeta. cbn [fst snd]. pose proof (sqrt_lt_R0 r R0). set (x := 2 * sqrt r). assert (X : 0 < x) by (unfold x; lra).
  pose proof (sinh_above x X) as Sh. pose proof (cosh_above x ltac:(lra)) as Ch. pose proof (COS_bound x) as Co. pose proof (sin_lt_x x X) as Si.
  assert (D : 0 < x * (cos x + cosh x)) by (apply Rmult_lt_0_compat; lra).
  assert (Sm : - x < sin x).
  { destruct (Rle_dec x PI) as [L|L]; [pose proof (sin_ge_0 x ltac:(lra) L); lra|]. pose proof (SIN_bound x). pose proof PI_RGT_0. pose proof PI2_1. unfold PI2 in *. lra. }
  split; apply Rdiv_lt_0_compat; lra.
Qed.
Lemma gapped_positive : forall mu g initial s, 0 < mu -> 0 < g <= 1 -> 0 < initial -> 0 < fst s -> 0 < snd s ->
  0 < fst (gapped mu g initial s) /\ 0 < snd (gapped mu g initial s).
Proof.
  intros mu g initial s M (G & G1) I Re Im. unfold gapped. cbv zeta. cbn [fst snd].
  assert (Mi : 0 < mu * initial) by (apply Rmult_lt_0_compat; assumption).
  assert (A : 0 < mu * initial * fst s) by (apply Rmult_lt_0_compat; assumption).
  assert (B : 0 < mu * initial * snd s) by (apply Rmult_lt_0_compat; assumption).
  set (a := mu * initial * fst s) in *. set (b := mu * initial * snd s) in *.
  assert (Dr : 0 < g + (1 - g) * a) by (assert (0 <= (1 - g) * a) by (apply Rmult_le_pos; lra); lra).
  assert (Q : 0 < (g + (1 - g) * a) * (g + (1 - g) * a) + (1 - g) * b * ((1 - g) * b)).
  { assert (0 < (g + (1 - g) * a) * (g + (1 - g) * a)) by (apply Rmult_lt_0_compat; assumption). pose proof (Rle_0_sqr ((1 - g) * b)) as Sq. unfold Rsqr in Sq. lra. }
  split; apply Rdiv_lt_0_compat; try exact Q.
  - assert (0 < a * (g + (1 - g) * a)) by (apply Rmult_lt_0_compat; assumption). assert (0 <= b * ((1 - g) * b)) by (assert (0 <= (1 - g) * (b * b)) by (apply Rmult_le_pos; nra); lra). lra.
  - replace (b * (g + (1 - g) * a) - a * ((1 - g) * b)) with (b * g) by ring. apply Rmult_lt_0_compat; assumption.
Qed.
Lemma clamp_range : forall x, 0 <= clamp x 0 (95 / 100) <= 95 / 100.
Proof. intro x. unfold clamp. destruct (Rlt_dec x 0); [lra|]. destruct (Rlt_dec (95 / 100) x); lra. Qed.
Lemma angle_range : forall core slope, 0 < fst core -> 0 < snd core -> 0 < loss_angle core slope < PI / 2.
Proof.
  intros core slope A B. unfold loss_angle. rewrite (Rmax_left (snd core) 0) by lra.
  pose proof (atan_bound (snd core / fst core)). pose proof (clamp_range (- slope)). pose proof PI_RGT_0.
  assert (0 < atan (snd core / fst core)) by (rewrite <- atan_0; apply atan_increasing, Rdiv_lt_0_compat; assumption).
  unfold Rmax. destruct (Rle_dec _ _); split; nra.
Qed.

(** Every point of the derived table is that of a lossy material, at a frequency in
    proportion to the anchor. *)
Theorem C189_lossy : forall f90 f95 anchor initial initial_at e r f re im,
  0 < r -> 0 < initial -> derived f90 f95 anchor initial initial_at e r = (f, (re, im)) ->
  0 < re /\ 0 < im /\ f = r * anchor.
Proof.
  intros f90 f95 anchor initial initial_at e r f re im R0 I. unfold derived.
  destruct (factors f90 f95 initial) as [mu g] eqn:Fa. destruct (C189_factors _ _ _ _ _ Fa) as (M & G & _).
  destruct (sheet_positive r R0) as (S1 & S2). destruct (gapped_positive mu g initial (sheet r) ltac:(lra) G I S1 S2) as (A & B).
  cbv zeta. set (core := gapped mu g initial (sheet r)) in *. destruct (Rlt_dec 0 (measured initial_at e (r * anchor))) as [Mp|Mp].
  - destruct (Rlt_dec 0 (fst core)) as [_|]; [|lra]. intro E. injection E as <- <- <-.
    pose proof (angle_range core (local_slope initial_at e (r * anchor)) A B) as (L1 & L2). pose proof PI_RGT_0.
    split; [apply Rmult_lt_0_compat; [exact Mp | apply cos_gt_0; lra]|]. split; [apply Rmult_lt_0_compat; [exact Mp | apply sin_gt_0; lra] | reflexivity].
  - clearbody core. destruct core as [cr ci]. cbn [fst snd] in A, B. intro E. injection E as <- <- <-. auto.
Qed.
(** Its magnitude is the measured permeability, and its loss angle the larger of the
    one of the sheet and the one of the measured slope. *)
Theorem C189_magnitude : forall f90 f95 anchor initial initial_at e r f re im,
  0 < r -> 0 < initial -> derived f90 f95 anchor initial initial_at e r = (f, (re, im)) ->
  0 < measured initial_at e f ->
  re * re + im * im = measured initial_at e f * measured initial_at e f
  /\ (let n := - local_slope initial_at e f in
      (0 <= n <= 95 / 100 -> n * (PI / 2) <= atan (im / re)) /\ (95 / 100 < n -> 95 / 100 * (PI / 2) <= atan (im / re)))
  /\ (exists mu g, factors f90 f95 initial = (mu, g) /\
        let s := gapped mu g initial (sheet r) in atan (snd s / fst s) <= atan (im / re))
  /\ atan (im / re) < PI / 2.
Proof.
  intros f90 f95 anchor initial initial_at e r f re im R0 I D Mp.
  destruct (C189_lossy _ _ _ _ _ _ _ _ _ _ R0 I D) as (Re & Im & ->). unfold derived in D.
  destruct (factors f90 f95 initial) as [mu g] eqn:Fa. destruct (C189_factors _ _ _ _ _ Fa) as (M & G & _).
  destruct (sheet_positive r R0) as (S1 & S2). destruct (gapped_positive mu g initial (sheet r) ltac:(lra) G I S1 S2) as (A & B).
  cbv zeta in D. set (core := gapped mu g initial (sheet r)) in *. destruct (Rlt_dec 0 (measured initial_at e (r * anchor))) as [_|]; [|contradiction].
  destruct (Rlt_dec 0 (fst core)) as [_|]; [|lra]. set (m := measured initial_at e (r * anchor)) in *. set (sl := local_slope initial_at e (r * anchor)) in *.
  injection D as E1 E2. pose proof (angle_range core sl A B) as (L1 & L2). set (a := loss_angle core sl) in *. pose proof PI_RGT_0 as Pi.
  assert (C : 0 < cos a) by (apply cos_gt_0; lra).
  assert (An : atan (im / re) = a).
  { rewrite <- E1, <- E2. replace (m * sin a / (m * cos a)) with (tan a) by (unfold tan; field; lra). apply atan_tan; lra. }
  rewrite An. split; [|split; [|split; [|exact L2]]].
  - rewrite <- E1, <- E2. pose proof (sin2_cos2 a) as Sc. unfold Rsqr in Sc. transitivity (m * m * (sin a * sin a + cos a * cos a)); [ring | rewrite Sc; ring].
  - cbv zeta. assert (Cl : clamp (- sl) 0 (95 / 100) * PI / 2 <= a) by apply Rmax_r. split.
    + intro N. assert (Ec : clamp (- sl) 0 (95 / 100) = - sl) by (unfold clamp; destruct (Rlt_dec (- sl) 0); [lra|]; destruct (Rlt_dec (95 / 100) (- sl)); lra). rewrite Ec in Cl. lra.
    + intro N. assert (Ec : clamp (- sl) 0 (95 / 100) = 95 / 100) by (unfold clamp; destruct (Rlt_dec (- sl) 0); [lra|]; destruct (Rlt_dec (95 / 100) (- sl)); lra). rewrite Ec in Cl. lra.
  - exists mu, g. split; [reflexivity|]. fold core. unfold a, loss_angle. rewrite (Rmax_left (snd core) 0) by lra. apply Rmax_l.
Qed.

(** Beyond the measured points the permeability never rises again, and it leaves the
    last of them without a step. *)
Theorem C189_tail : forall points l v s initial_at f f',
  ending points = Some (l, v, s) -> 0 < l -> l < f -> f <= f' ->
  In (Some l, v) points
  /\ (forall g w, In (Some g, w) points -> g <= l)
  /\ 0 < v
  /\ measured initial_at (ending points) f <= v
  /\ measured initial_at (ending points) f' <= measured initial_at (ending points) f
  /\ 0 < measured initial_at (ending points) f'
  /\ (v - measured initial_at (ending points) f) * l <= v * (- s) * (f - l).
Proof.
  intros points l v s initial_at f f' E L F F'.
  assert (Perm : forall q, Permutation q (arranged q)).
  { assert (Pl : forall p q, Permutation (p :: q) (place p q)).
    { intros p q. induction q as [|r q IH]; cbn [place]; [reflexivity|]. destruct (Rlt_dec _ _); [|reflexivity]. rewrite perm_swap. apply perm_skip, IH. }
    induction q as [|p q IH]; cbn [arranged]; [reflexivity|]. rewrite <- Pl. apply perm_skip, IH. }
  assert (Sort : forall q, StronglySorted (fun a b => sort_key a <= sort_key b) (arranged q)).
  { assert (Ps : forall p q, StronglySorted (fun a b => sort_key a <= sort_key b) q -> StronglySorted (fun a b => sort_key a <= sort_key b) (place p q)).
    { assert (Pl : forall p q, Permutation (p :: q) (place p q)).
      { intros p q. induction q as [|r q IH]; cbn [place]; [reflexivity|]. destruct (Rlt_dec _ _); [|reflexivity]. rewrite perm_swap. apply perm_skip, IH. }
      intros p q S. induction S as [|r q S IH H]; cbn [place]; [repeat constructor|]. rewrite Forall_forall in H. destruct (Rlt_dec (sort_key r) (sort_key p)) as [Lt|Ge].
      - constructor; [exact IH|]. rewrite Forall_forall. intros x I. apply (Permutation_in _ (Permutation_sym (Pl p q))) in I. destruct I as [<- |I]; [lra | apply H, I].
      - constructor; [constructor; [exact S | rewrite Forall_forall; exact H]|]. rewrite Forall_forall. intros x [<- |I]; [lra|]. specialize (H x I). cbn in H. lra. }
    induction q as [|p q IH]; cbn [arranged]; [constructor | apply Ps, IH]. }
  pose proof E as E0. unfold ending in E0. destruct (rev (arranged points)) as [|[[g|] w] rest] eqn:Rv; try discriminate.
  destruct rest as [|[[g'|] w'] rest]; try discriminate.
  destruct (Rlt_dec 0 w) as [W|]; [|discriminate]. destruct (Rlt_dec 0 w') as [W'|]; [|discriminate]. destruct (Rlt_dec g' g) as [Gg|]; [|discriminate].
  injection E0 as <- <- <-.
  assert (Ar : arranged points = (rev rest ++ [(Some g', w'); (Some g, w)])%list).
  { rewrite <- (rev_involutive (arranged points)), Rv. cbn [rev]. now rewrite <- app_assoc. }
  assert (In_last : In (Some g, w) points).
  { apply (Permutation_in _ (Permutation_sym (Perm points))). rewrite Ar. apply in_app_iff. right. right. left. reflexivity. }
  assert (Greatest : forall q u, In (Some q, u) points -> q <= g).
  { intros q u I. apply (Permutation_in _ (Perm points)) in I. pose proof (Sort points) as S. rewrite Ar in I, S.
    assert (G0 : forall a b, StronglySorted (fun a b => sort_key a <= sort_key b) (a ++ [b])%list -> forall x, In x (a ++ [b])%list -> sort_key x <= sort_key b).
    { clear. induction a as [|y a IH]; intros b S x I.
      - destruct I as [<- |[]]. lra.
      - cbn [app] in *. apply StronglySorted_inv in S. destruct S as (S & H). rewrite Forall_forall in H. destruct I as [<- |I]; [|apply (IH b S x I)]. apply H, in_app_iff. right. left. reflexivity. }
    replace (rev rest ++ [(Some g', w'); (Some g, w)])%list with ((rev rest ++ [(Some g', w')]) ++ [(Some g, w)])%list in I, S by (now rewrite <- app_assoc).
    exact (G0 _ _ S (Some q, u) I). }
  set (s := Rmin (ln (w / w') / ln (g / g')) 0) in *. assert (Sn : s <= 0) by apply Rmin_r.
  assert (Me : forall x, g < x -> measured initial_at (ending points) x = w * Rpower (x / g) s).
  { intros x X. rewrite E. unfold measured, past. destruct (Rlt_dec 0 g); [|lra]. destruct (Rlt_dec g x); [reflexivity | lra]. }
  assert (Rt : forall x, g < x -> 1 < x / g) by (intros x X; apply Rmult_lt_reg_r with g; [exact L|]; unfold Rdiv; rewrite Rmult_assoc, Rinv_l by lra; lra).
  assert (Pw : forall x y, 1 < x -> x <= y -> Rpower y s <= Rpower x s).
  { intros x y X Y. unfold Rpower. assert (Ln : ln x <= ln y) by (destruct Y as [Y| ->]; [left; apply ln_increasing; lra | lra]).
    assert (Le : s * ln y <= s * ln x) by nra. destruct Le as [Le|Le]; [left; apply exp_increasing, Le | rewrite Le; lra]. }
  pose proof (Rt f F) as Rf. rewrite !Me by lra. split; [exact In_last|]. split; [exact Greatest|]. split; [exact W|].
  assert (One : Rpower (f / g) s <= 1).
  { unfold Rpower. rewrite <- exp_0. assert (0 < ln (f / g)) by (rewrite <- ln_1; apply ln_increasing; lra). assert (Le : s * ln (f / g) <= 0) by nra.
    destruct Le as [Le|Le]; [left; apply exp_increasing, Le | rewrite Le; lra]. }
  assert (Pos : forall x, 0 < Rpower x s) by (intro x; apply exp_pos).
  split; [pose proof (Pos (f / g)); nra|]. split.
  - apply Rmult_le_compat_l; [lra|]. apply Pw; [exact Rf|]. apply Rmult_le_compat_r; [left; apply Rinv_0_lt_compat, L | exact F'].
  - split; [apply Rmult_lt_0_compat; [exact W | apply Pos]|].
    (* 1 - (f/g)^s <= -s ln (f/g) <= -s (f/g - 1) *)
    assert (A : 1 + s * ln (f / g) <= Rpower (f / g) s) by (unfold Rpower; destruct (Req_dec (s * ln (f / g)) 0) as [Z|Z]; [rewrite Z, exp_0; lra | left; apply exp_ineq1, Z]).
    assert (B : ln (f / g) <= f / g - 1).
    { assert (0 < ln (f / g)) by (rewrite <- ln_1; apply ln_increasing; lra). pose proof (exp_ineq1 (ln (f / g)) ltac:(lra)) as X. rewrite exp_ln in X by lra. lra. }
    assert (C : 1 - Rpower (f / g) s <= - s * (f / g - 1)) by nra.
    replace ((w - w * Rpower (f / g) s) * g) with (w * g * (1 - Rpower (f / g) s)) by ring.
    replace (w * - s * (f - g)) with (w * g * (- s * (f / g - 1))) by (field; lra).
    apply Rmult_le_compat_l; [apply Rmult_le_pos; lra | exact C].
Qed.

Example C189_witness :
  ending [(Some 1000, 80000); (Some 100000, 8000); (Some 10000, 60000)] <> None
  /\ 1 < fst (factors (Some 2) (Some 1) 100).
Proof.
  split.
  - unfold ending. cbn [arranged place sort_key fst]. destruct (Rlt_dec 10000 100000); [|lra]. cbn [place sort_key fst].
    destruct (Rlt_dec 10000 1000); [lra|]. cbn [rev app]. destruct (Rlt_dec 0 8000); [|lra]. destruct (Rlt_dec 0 60000); [|lra]. destruct (Rlt_dec 10000 100000); [discriminate | lra].
  - unfold factors. destruct (Rlt_dec 0 2); [|lra]. destruct (Rlt_dec 1 2); [|lra]. cbn [fst]. cbv zeta.
    unfold infer, within, drop_table. cbn [fst snd last]. destruct (Rle_dec ((2 - 1) / 2) (31 / 100)); [lra|]. destruct (Rle_dec (755 / 1000) ((2 - 1) / 2)); [lra|].
    cbn [climb fst snd]. destruct (Rle_dec ((2 - 1) / 2) (32 / 100)); [lra|]. destruct (Rle_dec ((2 - 1) / 2) (36 / 100)); [lra|]. destruct (Rle_dec ((2 - 1) / 2) (43 / 100)); [lra|].
    destruct (Rle_dec ((2 - 1) / 2) (55 / 100)) as [_|]; [|lra].
    apply Rlt_le_trans with (Rpower 10 (log10 10)); [rewrite rpower10_log; lra|]. apply rpower10_le.
    pose proof (log10_le 10 25 ltac:(lra) ltac:(lra)). assert (0 <= ((2 - 1) / 2 - 43 / 100) / (55 / 100 - 43 / 100)) by (apply Rmult_le_pos; [lra | left; apply Rinv_0_lt_compat; lra]). nra.
Qed.

(** * C190: the interpolators *)
(** A table made of a list of readings: its points are readings, in order of frequency
    and more than a billionth apart, and every reading is one of them or follows one
    within that distance. *)
Definition apart (a b : R * R) : Prop := fst a + 1 / 1000000000 < fst b.
Definition table_of (readings : list reading) (t : list (R * R)) : Prop :=
  StronglySorted apart t
  /\ (forall f v, In (f, v) t -> In (Some f, v) readings)
  /\ (forall f v, In (Some f, v) readings -> exists f' v', In (f', v') t /\ f' <= f <= f' + 1 / 1000000000)
  /\ (forall v, ~ In (None, v) readings).
(** Within the span of the table the frequency asked for, outside of it the nearest end. *)
Definition nearest (t : list (R * R)) (f g : R) : Prop :=
  In g (map fst t) /\ (forall p, In p t -> f <= fst p) /\ (forall p, In p t -> g <= fst p)
  \/ In g (map fst t) /\ (forall p, In p t -> fst p <= f) /\ (forall p, In p t -> fst p <= g)
  \/ g = f /\ (exists p, In p t /\ fst p <= f) /\ (exists p, In p t /\ f <= fst p).

Lemma put_perm : forall p l, Permutation (p :: l) (put p l).
Proof. intros p l. induction l as [|r l IH]; cbn [put]; [reflexivity|]. destruct (Rlt_dec _ _); [|reflexivity]. rewrite perm_swap. apply perm_skip, IH. Qed.
Lemma lined_perm : forall l, Permutation l (lined l).
Proof. induction l as [|p l IH]; cbn [lined]; [reflexivity|]. rewrite <- put_perm. apply perm_skip, IH. Qed.
Definition below (a b : R * R) : Prop := fst a <= fst b.
Lemma put_sorted : forall p l, StronglySorted below l -> StronglySorted below (put p l).
Proof.
  intros p l S. induction S as [|r l S IH H]; cbn [put]; [repeat constructor|]. rewrite Forall_forall in H. destruct (Rlt_dec (fst r) (fst p)) as [Lt|Ge].
  - constructor; [exact IH|]. rewrite Forall_forall. intros x I. apply (Permutation_in _ (Permutation_sym (put_perm p l))) in I. destruct I as [<- |I]; [unfold below; lra | apply H, I].
  - constructor; [constructor; [exact S | rewrite Forall_forall; exact H]|]. rewrite Forall_forall. intros x [<- |I]; [unfold below; lra|]. specialize (H x I). unfold below in *. lra.
Qed.
Lemma lined_sorted : forall l, StronglySorted below (lined l).
Proof. induction l as [|p l IH]; cbn [lined]; [constructor | apply put_sorted, IH]. Qed.
Lemma thinned_in : forall l b p, In p (thinned b l) -> In p l.
Proof.
  induction l as [|q l IH]; intros b p I; [exact I|]. cbn [thinned] in I. destruct b as [b|].
  - destruct (Rlt_dec _ _); [destruct I as [<- |I]; [left; reflexivity | right; apply (IH _ _ I)] | right; apply (IH _ _ I)].
  - destruct I as [<- |I]; [left; reflexivity | right; apply (IH _ _ I)].
Qed.
Lemma thinned_apart : forall l b, StronglySorted below l -> (forall x p, b = Some x -> In p l -> x <= fst p) ->
  StronglySorted apart (thinned b l) /\ (forall x p, b = Some x -> In p (thinned b l) -> x + 1 / 1000000000 < fst p).
Proof.
  induction l as [|q l IH]; intros b S B; [split; [constructor | intros x p _ []]|]. apply StronglySorted_inv in S. destruct S as (S & H). rewrite Forall_forall in H.
  assert (Q : forall x p, Some (fst q) = Some x -> In p l -> x <= fst p) by (intros x p E I; injection E as <-; apply (H p I)).
  destruct (IH (Some (fst q)) S Q) as (A & C). assert (K : StronglySorted apart (q :: thinned (Some (fst q)) l)).
  { constructor; [exact A|]. rewrite Forall_forall. intros p I. apply (C _ p eq_refl I). }
  cbn [thinned]. destruct b as [b|].
  - pose proof (B b q eq_refl (or_introl eq_refl)) as Bq. rewrite (Rabs_pos_eq (fst q - b)) by lra. destruct (Rlt_dec (1 / 1000000000) (fst q - b)) as [L|L].
    + split; [exact K|]. intros x p E [<- |I]; injection E as <-; [lra|]. pose proof (C _ p eq_refl I). lra.
    + apply IH; [exact S|]. intros x p E I. apply (B x p E). right. exact I.
  - split; [exact K | intros x p E; discriminate].
Qed.
Lemma thinned_near : forall l b p, StronglySorted below l -> (forall x q, b = Some x -> In q l -> x <= fst q) -> In p l ->
  (exists q, In q (thinned b l) /\ fst q <= fst p <= fst q + 1 / 1000000000) \/ (exists x, b = Some x /\ x <= fst p <= x + 1 / 1000000000).
Proof.
  induction l as [|q l IH]; intros b p S B I; [destruct I|]. pose proof S as S0. apply StronglySorted_inv in S. destruct S as (S & H). rewrite Forall_forall in H.
  assert (Q : forall x p, Some (fst q) = Some x -> In p l -> x <= fst p) by (intros x p' E I'; injection E as <-; apply (H p' I')).
  cbn [thinned].
  assert (K : (exists r, In r (q :: thinned (Some (fst q)) l) /\ fst r <= fst p <= fst r + 1 / 1000000000)).
  { destruct I as [<- |I]; [exists q; split; [left; reflexivity | lra]|].
    destruct (IH (Some (fst q)) p S Q I) as [(r & Ir & Hr)|(x & E & Hx)]; [exists r; split; [right; exact Ir | exact Hr]|]. injection E as <-. exists q. split; [left; reflexivity | exact Hx]. }
  destruct b as [b|]; [|left; exact K]. pose proof (B b q eq_refl (or_introl eq_refl)) as Bq. rewrite (Rabs_pos_eq (fst q - b)) by lra.
  destruct (Rlt_dec (1 / 1000000000) (fst q - b)) as [L|L]; [left; exact K|].
  destruct I as [<- |I]; [right; exists b; split; [reflexivity | lra]|]. apply (IH (Some b) p S); [|exact I]. intros x r E Ir. apply (B x r E). right. exact Ir.
Qed.
Lemma frequencies_in : forall l r, frequencies l = Some r -> (forall f v, In (f, v) r <-> In (Some f, v) l) /\ (forall v, ~ In (None, v) l).
Proof.
  induction l as [|[[f|] v] l IH]; intros r E; cbn [frequencies] in E; [injection E as <-; split; [intros; cbn; tauto | intros v []]| |discriminate].
  destruct (frequencies l) as [r'|] eqn:F; [|discriminate]. injection E as <-. destruct (IH r' eq_refl) as (A & B). split.
  - intros g w. cbn [In]. rewrite A. split; (intros [E|I]; [left; injection E as <- <-; reflexivity | right; exact I]).
  - intros w [E|I]; [discriminate | apply (B w I)].
Qed.
Lemma frequencies_none : forall l, frequencies l = None -> exists v, In (None, v) l.
Proof.
  induction l as [|[[f|] v] l IH]; intro E; cbn [frequencies] in E; [discriminate| |exists v; left; reflexivity].
  destruct (frequencies l); [discriminate|]. destruct (IH eq_refl) as (w & I). exists w. right. exact I.
Qed.
Lemma last_is : forall (l : list (R * R)) p, In (last l p) (p :: l).
Proof.
  induction l as [|q l IH]; intro p; [left; reflexivity|]. destruct l as [|r l]; [right; left; reflexivity|].
  change (last (q :: r :: l) p) with (last (r :: l) p). destruct (IH p) as [E|I]; [left; exact E | right; right; exact I].
Qed.
Lemma last_top : forall (l : list (R * R)) p, StronglySorted apart (p :: l) -> forall q, In q (p :: l) -> fst q <= fst (last l p).
Proof.
  induction l as [|r l IH]; intros p S q I; [destruct I as [<- |[]]; cbn; lra|]. pose proof S as S0. apply StronglySorted_inv in S. destruct S as (S & H). rewrite Forall_forall in H.
  assert (E : last (r :: l) p = last l r).
  { clear. revert r p. induction l as [|s l IH]; intros r p; [reflexivity|]. change (last (r :: s :: l) p) with (last (s :: l) p). now rewrite (IH s p), (IH s r). }
  rewrite E. destruct I as [<- |I].
  - pose proof (IH r S r (or_introl eq_refl)). specialize (H r (or_introl eq_refl)). unfold apart in H. lra.
  - apply (IH r S q I).
Qed.
Section Kept.
Variable spline : list (R * R) -> R -> figure.
Lemma build_spec : forall points c, build spline points = Ok c ->
  exists t, t <> [] /\ table_of points t /\ through c = spline t /\ forall f, nearest t f (clamp f (low c) (high c)).
Proof.
  intros points c B. unfold build in B. destruct (frequencies points) as [l|] eqn:F; [|destruct points as [|? [|? ?]]; discriminate].
  destruct (frequencies_in _ _ F) as (In1 & In2).
  destruct (thinned_apart (lined l) None (lined_sorted l) ltac:(intros; discriminate)) as (Ap & _).
  pose proof (fun p => thinned_near (lined l) None p (lined_sorted l) ltac:(intros; discriminate)) as Ne.
  pose proof (thinned_in (lined l) None) as Ti.
  destruct (thinned None (lined l)) as [|p rest]; [discriminate|]. injection B as <-. exists (p :: rest). split; [discriminate|]. split.
  - split; [exact Ap|]. split; [|split; [|exact In2]].
    + intros f v I. apply In1. apply (Permutation_in _ (Permutation_sym (lined_perm l))), Ti, I.
    + intros f v I. apply In1 in I. apply (Permutation_in _ (lined_perm l)) in I. destruct (Ne _ I) as [([f' v'] & Iq & Q)|(x & E & _)]; [|discriminate]. exists f', v'. auto.
  - split; [reflexivity|]. intro f. cbn [low high].
    assert (Lo : forall q, In q (p :: rest) -> fst p <= fst q).
    { intros q [<- |I]; [lra|]. apply StronglySorted_inv in Ap. destruct Ap as (_ & H). rewrite Forall_forall in H. specialize (H q I). unfold apart in H. lra. }
    pose proof (last_top rest p Ap) as Hi. pose proof (last_is rest p) as La.
    unfold clamp, nearest. destruct (Rlt_dec f (fst p)) as [A|A].
    + left. split; [left; reflexivity|]. split; [|exact Lo]. intros q I. specialize (Lo q I). lra.
    + destruct (Rlt_dec (fst (last rest p)) f) as [B|B].
      * right. left. split; [apply (in_map fst), La|]. split; [|exact Hi]. intros q I. specialize (Hi q I). lra.
      * right. right. split; [reflexivity|]. split; [exists p; split; [left; reflexivity | lra] | exists (last rest p); split; [exact La | lra]].
Qed.
Lemma one_or_more : forall x, 1 <= at_least_one x.
Proof. intros [v|]; cbn; [destruct (Rlt_dec 1 v); lra | lra]. Qed.

(** ** Answers do not depend on what was asked before, for materials told apart by name *)
Definition kept (offers : string -> offer) (m : memory) : Prop :=
  (forall n c, find n (reals m) = Some c -> exists re im, offers n = Tables re im /\ (2 <= List.length re)%nat /\ build spline re = Ok c)
  /\ (forall n c, find n (imaginaries m) = Some c -> exists re im, offers n = Tables re im /\ (2 <= List.length re)%nat /\ build spline im = Ok c).
Lemma kept_query : forall offers m n f, kept offers m -> kept offers (fst (query spline m n (offers n) f)).
Proof.
  intros offers m n f (Kr & Ki). unfold query.
  assert (K0 : kept offers m) by (split; assumption).
  assert (Go : kept offers (fst (match offers n with NoPermeability => (m, Throw "MaterialDataMissing") | NotTables => (m, Throw "InvalidInput")
    | Tables re im => if Nat.ltb (List.length re) 2 then (m, Throw "InvalidInput") else
       match (match find n (reals m) with Some c => Ok c | None => build spline re end) with
       | Ok c => let m' := mkMemory (insert n c (reals m)) (imaginaries m) in
          match (match find n (imaginaries m) with Some c' => Ok c' | None => build spline im end) with
          | Ok c' => (mkMemory (reals m') (insert n c' (imaginaries m')), look c c' f)
          | Throw e => (m', Throw e) | UB e => (m', UB e) | OutOfFuel => (m', OutOfFuel) end
       | Throw e => (m, Throw e) | UB e => (m, UB e) | OutOfFuel => (m, OutOfFuel) end end))).
  { destruct (offers n) as [| |re im] eqn:O; try exact K0. destruct (Nat.ltb_spec (List.length re) 2) as [L|L]; [exact K0|].
    destruct (match find n (reals m) with Some c => Ok c | None => build spline re end) as [c|e|e|] eqn:Cr; try exact K0.
    assert (Rc : build spline re = Ok c).
    { destruct (find n (reals m)) as [c0|] eqn:Fr; [|exact Cr]. injection Cr as <-. destruct (Kr n c0 Fr) as (re' & im' & E & _ & Bd). rewrite O in E. injection E as <- <-. exact Bd. }
    assert (K1 : kept offers (mkMemory (insert n c (reals m)) (imaginaries m))).
    { split; [|exact Ki]. intros n' c'. cbn [reals]. rewrite find_insert. destruct (String.eqb_spec n' n) as [-> |D]; [|apply Kr]. intro E. injection E as <-. exists re, im. auto. }
    cbv zeta. destruct (match find n (imaginaries m) with Some c' => Ok c' | None => build spline im end) as [c'|e|e|] eqn:Ci; try exact K1.
    assert (Ic : build spline im = Ok c').
    { destruct (find n (imaginaries m)) as [c0|] eqn:Fr; [|exact Ci]. injection Ci as <-. destruct (Ki n c0 Fr) as (re' & im' & E & _ & Bd). rewrite O in E. injection E as <- <-. exact Bd. }
    cbn [fst reals imaginaries]. split; [exact (proj1 K1)|]. intros n' c0. cbn [imaginaries]. rewrite find_insert. destruct (String.eqb_spec n' n) as [-> |D]; [|apply Ki]. intro E. injection E as <-. exists re, im. auto. }
  destruct (find n (reals m)); [|exact Go]. destruct (find n (imaginaries m)); [exact K0 | exact Go].
Qed.
Lemma kept_answer : forall offers m n f, kept offers m -> snd (query spline m n (offers n) f) = snd (query spline nothing_kept n (offers n) f).
Proof.
  intros offers m n f (Kr & Ki). unfold query, nothing_kept. cbn [reals imaginaries]. change (find n []) with (@None curve). cbv iota.
  destruct (find n (reals m)) as [c|] eqn:Fr; destruct (find n (imaginaries m)) as [c'|] eqn:Fi.
  - destruct (Kr n c Fr) as (re & im & O & L & B). destruct (Ki n c' Fi) as (re' & im' & O' & _ & B'). rewrite O in O'. injection O' as <- <-. rewrite O.
    destruct (Nat.ltb_spec (List.length re) 2); [lia|]. rewrite B, B'. reflexivity.
  - destruct (Kr n c Fr) as (re & im & O & L & B). rewrite O. destruct (Nat.ltb_spec (List.length re) 2); [lia|]. rewrite B. destruct (build spline im); reflexivity.
  - destruct (Ki n c' Fi) as (re & im & O & L & B). rewrite O. destruct (Nat.ltb_spec (List.length re) 2); [lia|]. rewrite B. destruct (build spline re); reflexivity.
  - destruct (offers n) as [| |re im]; try reflexivity. destruct (Nat.ltb (List.length re) 2); [reflexivity|]. destruct (build spline re); try reflexivity. destruct (build spline im); reflexivity.
Qed.
End Kept.

Theorem C190_history : forall spline offers l n f,
  Forall (fun q => snd (fst q) = offers (fst (fst q))) l ->
  snd (query spline (history spline nothing_kept l) n (offers n) f) = snd (query spline nothing_kept n (offers n) f).
Proof.
  intros spline offers l n f H. apply kept_answer.
  assert (K : kept spline offers nothing_kept) by (split; intros n0 c E; discriminate).
  generalize dependent nothing_kept. induction H as [|[[n0 o] f0] l E H IH]; intros m K; [exact K|]. cbn [history]. apply IH. cbn [fst snd] in E. rewrite E. apply kept_query, K.
Qed.
(** Told apart by name only: another material of the name of one asked about before is
    given the curves of that one. *)
Theorem C190_name_refuted : forall spline n o o' f g a,
  snd (query spline nothing_kept n o f) = Ok a ->
  snd (query spline (fst (query spline nothing_kept n o f)) n o' g) = snd (query spline nothing_kept n o g).
Proof.
  intros spline n o o' f g a. unfold query at 1 3 4. unfold nothing_kept. cbn [reals imaginaries]. change (find n []) with (@None curve). cbv iota.
  destruct o as [| |re im]; try discriminate. destruct (Nat.ltb (List.length re) 2); [discriminate|].
  destruct (build spline re) as [c|e|e|]; try discriminate. cbv zeta. destruct (build spline im) as [c'|e|e|]; try discriminate. intros _. cbn [fst snd].
  unfold query. cbn [reals imaginaries]. rewrite !find_insert_same. reflexivity.
Qed.

(** An answer is read off the two tables at the nearest frequency, the real part never
    below that of vacuum. *)
Theorem C190_value : forall spline n o f a b,
  snd (query spline nothing_kept n o f) = Ok (a, b) ->
  exists re im t t' g g', o = Tables re im /\ (2 <= List.length re)%nat
    /\ table_of re t /\ table_of im t' /\ nearest t f g /\ nearest t' f g'
    /\ 1 <= a /\ (forall v, spline t g = Some v -> a = Rmax 1 v) /\ spline t' g' = Some b.
Proof.
  intros spline n o f a b. unfold query, nothing_kept. cbn [reals imaginaries]. change (find n []) with (@None curve). cbv iota.
  destruct o as [| |re im]; try discriminate. destruct (Nat.ltb_spec (List.length re) 2) as [|L]; [discriminate|].
  destruct (build spline re) as [c|e|e|] eqn:B; try discriminate. cbv zeta. destruct (build spline im) as [c'|e|e|] eqn:B'; try discriminate. cbn [snd].
  destruct (build_spec spline re c B) as (t & _ & T & Th & N). destruct (build_spec spline im c' B') as (t' & _ & T' & Th' & N').
  unfold look, read. rewrite Th, Th'. destruct (spline t' (clamp f (low c') (high c'))) as [v|] eqn:V; [|discriminate]. intro E. injection E as <- <-.
  exists re, im, t, t', (clamp f (low c) (high c)), (clamp f (low c') (high c')). split; [reflexivity|]. split; [exact L|]. split; [exact T|]. split; [exact T'|]. split; [apply N|]. split; [apply N'|].
  split; [apply one_or_more|]. split; [|exact V]. intros w W. rewrite W. cbn. unfold Rmax. destruct (Rlt_dec 1 w); destruct (Rle_dec 1 w); lra.
Qed.
(** Nothing is made up for a material without data; points without a frequency and
    single points are refused. *)
Theorem C190_missing : forall spline n o f,
  (o = NoPermeability \/ o = NotTables \/ (exists re im, o = Tables re im /\ ((List.length re < 2)%nat \/ (exists v, In (None, v) re)))) ->
  exists e, query spline nothing_kept n o f = (nothing_kept, Throw e).
Proof.
  intros spline n o f H. unfold query, nothing_kept. cbn [reals imaginaries]. change (find n []) with (@None curve). cbv iota.
  destruct H as [-> |[-> |(re & im & -> & H)]]; try (eexists; reflexivity).
  destruct (Nat.ltb_spec (List.length re) 2) as [L|L]; [eexists; reflexivity|]. destruct H as [H|(v & H)]; [lia|].
  unfold build. destruct (frequencies re) as [l|] eqn:F; [destruct (frequencies_in _ _ F) as (_ & N); destruct (N v H)|].
  destruct re as [|p [|q re]]; cbn in L; try lia. eexists; reflexivity.
Qed.
(** An imaginary table without points is not refused. *)
Theorem C190_empty_refuted : forall spline n re f c, (2 <= List.length re)%nat -> build spline re = Ok c ->
  snd (query spline nothing_kept n (Tables re []) f) = UB "front of an empty vector".
Proof.
  intros spline n re f c L B. unfold query, nothing_kept. cbn [reals imaginaries]. change (find n []) with (@None curve). cbv iota.
  destruct (Nat.ltb_spec (List.length re) 2); [lia|]. rewrite B. reflexivity.
Qed.
(** A real part that is no number is answered as that of vacuum. *)
Theorem C190_nan_refuted : forall spline n re im c c' f v,
  (2 <= List.length re)%nat -> build spline re = Ok c -> build spline im = Ok c' ->
  through c (clamp f (low c) (high c)) = None -> through c' (clamp f (low c') (high c')) = Some v ->
  snd (query spline nothing_kept n (Tables re im) f) = Ok (1, v).
Proof.
  intros spline n re im c c' f v L B B' N V. unfold query, nothing_kept. cbn [reals imaginaries]. change (find n []) with (@None curve). cbv iota.
  destruct (Nat.ltb_spec (List.length re) 2); [lia|]. rewrite B, B'. cbv zeta. cbn [snd]. unfold look, read. rewrite N, V. reflexivity.
Qed.

Lemma strict_unique : forall l l' : list (R * R), StronglySorted below l -> StronglySorted below l' -> Permutation l l' ->
  (forall p q, In p l -> In q l -> fst p = fst q -> p = q) -> l = l'.
Proof.
  induction l as [|p l IH]; intros l' S S' P U; [apply Permutation_nil in P; auto|]. destruct l' as [|p' l']; [apply Permutation_sym, Permutation_nil in P; discriminate|].
  pose proof S as S0. pose proof S' as S0'. apply StronglySorted_inv in S, S'. destruct S as (S & H). destruct S' as (S' & H'). rewrite Forall_forall in H, H'.
  assert (E : p = p').
  { apply U; [left; reflexivity | apply (Permutation_in _ (Permutation_sym P)); left; reflexivity|]. apply Rle_antisym.
    - assert (I : In p' (p :: l)) by (apply (Permutation_in _ (Permutation_sym P)); left; reflexivity). destruct I as [-> |I]; [lra | apply (H p' I)].
    - assert (I : In p (p' :: l')) by (apply (Permutation_in _ P); left; reflexivity). destruct I as [-> |I]; [lra | apply (H' p I)]. }
  subst p'. f_equal. apply IH; [exact S | exact S' | apply (Permutation_cons_inv P)|]. intros x y X Y. apply U; right; assumption.
Qed.
Lemma frequencies_perm : forall l l', Permutation l l' -> match frequencies l, frequencies l' with Some r, Some r' => Permutation r r' | None, None => True | _, _ => False end.
Proof.
  intros l l' P. induction P as [|[[f|] v] l l' P IH|[[f|] v] [[g|] w] l|l l' l'' P IH P' IH'].
  - constructor.
  - cbn [frequencies]. destruct (frequencies l), (frequencies l'); try contradiction; [apply perm_skip, IH | exact I].
  - cbn [frequencies]. exact I.
  - cbn [frequencies]. destruct (frequencies l); [apply perm_swap | exact I].
  - cbn [frequencies]. exact I.
  - cbn [frequencies]. exact I.
  - cbn [frequencies]. exact I.
  - destruct (frequencies l), (frequencies l'), (frequencies l''); try contradiction; [eapply Permutation_trans; eassumption | exact I].
Qed.
Lemma build_order : forall spline l l', Permutation l l' -> (forall f v w, In (Some f, v) l -> In (Some f, w) l -> v = w) -> build spline l = build spline l'.
Proof.
  intros spline l l' P U. unfold build. pose proof (frequencies_perm l l' P) as F. destruct (frequencies l) as [r|] eqn:E; destruct (frequencies l') as [r'|] eqn:E'; try contradiction.
  - replace (lined r') with (lined r); [reflexivity|]. apply strict_unique; try apply lined_sorted.
    + rewrite <- !lined_perm. exact F.
    + destruct (frequencies_in _ _ E) as (A & _). intros [f v] [g w] X Y H. cbn in H. subst g.
      apply (Permutation_in _ (Permutation_sym (lined_perm r))), A in X. apply (Permutation_in _ (Permutation_sym (lined_perm r))), A in Y. now rewrite (U f v w X Y).
  - pose proof (Permutation_length P) as Le. destruct l as [|p [|q l]]; destruct l' as [|p' [|q' l']]; cbn in Le; try lia; reflexivity.
Qed.
(** The order in which a maker lists the points does not matter. *)
Theorem C190_order : forall spline n (re re' im im' : list reading) f,
  Permutation re re' -> Permutation im im' ->
  (forall f v w, In (Some f, v) re -> In (Some f, w) re -> v = w) -> (forall f v w, In (Some f, v) im -> In (Some f, w) im -> v = w) ->
  query spline nothing_kept n (Tables re im) f = query spline nothing_kept n (Tables re' im') f.
Proof.
  intros spline n re re' im im' f P P' U U'. unfold query. cbn [reals imaginaries nothing_kept]. change (find n []) with (@None curve). cbv iota.
  pose proof (Permutation_length P) as Le. destruct (Nat.ltb_spec (List.length re) 2), (Nat.ltb_spec (List.length re') 2); try lia; [reflexivity|].
  rewrite (build_order spline re re' P U), (build_order spline im im' P' U'). reflexivity.
Qed.
(** Beyond either end of both tables the answer stays what it was. *)
Theorem C190_beyond : forall spline n (re im : list reading) f f',
  (forall g v, In (Some g, v) (re ++ im)%list -> f <= g /\ f' <= g) \/ (forall g v, In (Some g, v) (re ++ im)%list -> g <= f /\ g <= f') ->
  query spline nothing_kept n (Tables re im) f = query spline nothing_kept n (Tables re im) f'.
Proof.
  intros spline n re im f f' H. unfold query. cbn [reals imaginaries nothing_kept]. change (find n []) with (@None curve). cbv iota.
  destruct (Nat.ltb (List.length re) 2); [reflexivity|].
  assert (G : forall l c, (forall g v, In (Some g, v) l -> f <= g /\ f' <= g) \/ (forall g v, In (Some g, v) l -> g <= f /\ g <= f') -> build spline l = Ok c ->
     clamp f (low c) (high c) = clamp f' (low c) (high c)).
  { clear. intros l c H B. unfold build in B. destruct (frequencies l) as [r|] eqn:F; [|destruct l as [|? [|? ?]]; discriminate]. destruct (frequencies_in _ _ F) as (A & _).
    pose proof (thinned_in (lined r) None) as Ti. destruct (thinned_apart (lined r) None (lined_sorted r) ltac:(intros; discriminate)) as (Ap & _).
    destruct (thinned None (lined r)) as [|[pf pv] rest]; [discriminate|].
    injection B as <-. cbn [low high fst].
    assert (R0 : forall q, In q ((pf, pv) :: rest) -> In (Some (fst q), snd q) l).
    { intros [a b] I. apply A. apply (Permutation_in _ (Permutation_sym (lined_perm r))), Ti, I. }
    pose proof (last_is rest (pf, pv)) as La. pose proof (last_top rest (pf, pv) Ap (pf, pv) (or_introl eq_refl)) as Hi. cbn [fst] in Hi.
    pose proof (R0 _ (or_introl eq_refl)) as R1. pose proof (R0 _ La) as R2. cbn [fst snd] in R1. unfold clamp.
    destruct H as [H|H]; pose proof (H _ _ R1); pose proof (H _ _ R2); repeat (destruct (Rlt_dec _ _)); lra. }
  destruct (build spline re) as [c|e|e|] eqn:B; try reflexivity. cbv zeta. destruct (build spline im) as [c'|e|e|] eqn:B'; try reflexivity. unfold look, read.
  rewrite (G re c), (G im c'); [reflexivity| |assumption| |assumption]; (destruct H as [H|H]; [left|right]); intros g v I; apply (H g v), in_app_iff; auto.
Qed.
(** A table, a history and a name shared by two materials. *)
Example C190_witness :
  let spline := fun (l : list (R * R)) (f : R) => Some (hd 0 (map snd l) + f) in
  let o := Tables [(Some 2, 7); (Some 1, 5)] [(Some 1, 3)] in
  snd (query spline nothing_kept "N87" o (3 / 2)) = Ok (13 / 2, 4)
  /\ snd (query spline (history spline nothing_kept [("N87"%string, o, 4); ("3C90"%string, NotTables, 1)]) "N87" NoPermeability (3 / 2)) = Ok (13 / 2, 4).
Proof.
  cbv zeta. assert (E : snd (query (fun (l : list (R * R)) (f : R) => Some (hd 0 (map snd l) + f)) nothing_kept "N87" (Tables [(Some 2, 7); (Some 1, 5)] [(Some 1, 3)]) (3 / 2)) = Ok (13 / 2, 4)).
  { unfold query, build. cbn [reals imaginaries nothing_kept find frequencies List.length Nat.ltb Nat.leb lined put fst]. destruct (Rlt_dec 1 2) as [_|]; [|lra]. cbn [thinned fst].
    rewrite (Rabs_pos_eq (2 - 1)) by lra. destruct (Rlt_dec (1 / 1000000000) (2 - 1)) as [_|]; [|lra]. cbn [last snd fst]. unfold look, read, clamp. cbn [through low high hd map snd fst].
    destruct (Rlt_dec (3 / 2) 1); [lra|]. destruct (Rlt_dec 1 (3 / 2)); [|lra]. destruct (Rlt_dec 2 (3 / 2)); [lra|]. cbn [at_least_one]. destruct (Rlt_dec 1 (5 + 3 / 2)); [|lra].
    f_equal. f_equal; lra. }
  split; [exact E|]. cbn [history]. rewrite <- E.
  set (sp := fun (l : list (R * R)) (f : R) => Some (hd 0 (map snd l) + f)) in *. set (o := Tables [(Some 2, 7); (Some 1, 5)] [(Some 1, 3)]) in *.
  assert (S4 : exists a, snd (query sp nothing_kept "N87" o 4) = Ok a).
  { unfold query, build, o. cbn [reals imaginaries nothing_kept find frequencies List.length Nat.ltb Nat.leb lined put fst]. destruct (Rlt_dec 1 2) as [_|]; [|lra]. cbn [thinned fst].
    rewrite (Rabs_pos_eq (2 - 1)) by lra. destruct (Rlt_dec (1 / 1000000000) (2 - 1)) as [_|]; [|lra]. cbn [last snd fst]. unfold look, read. cbn [through sp]. eexists. reflexivity. }
  destruct S4 as (a & S4). set (m := fst (query sp nothing_kept "N87" o 4)).
  assert (M : fst (query sp m "3C90" NotTables 1) = m) by (unfold query; destruct (find "3C90" (reals m)); [destruct (find "3C90" (imaginaries m))|]; reflexivity).
  rewrite M. apply (C190_name_refuted _ _ _ _ _ _ _ S4).
Qed.
(** Within the data the slope is the exponent, when the initial permeability follows
    a power of the frequency. *)
Theorem C189_slope : forall a p e f, 0 < a -> 0 < f -> past e f = None ->
  local_slope (fun x => a * Rpower x p) e f = p.
Proof.
  intros a p e f A F E. unfold local_slope. rewrite E. cbv zeta. assert (S0 : 0 < step) by (unfold step; lra).
  assert (P : forall x, 0 < a * Rpower x p) by (intro x; apply Rmult_lt_0_compat; [exact A|apply exp_pos]).
  destruct (Rlt_dec 0 (a * Rpower (f * step) p)) as [X|X]; [|exfalso; apply X, P].
  destruct (Rlt_dec 0 (a * Rpower (f / step) p)) as [Y|Y]; [|exfalso; apply Y, P].
  assert (L : 0 < ln step) by (rewrite <- ln_1; apply ln_increasing; unfold step; lra).
  replace (a * Rpower (f * step) p / (a * Rpower (f / step) p)) with (exp (p * (2 * ln step))).
  - rewrite ln_exp. field. lra.
  - unfold Rpower. rewrite ln_mult by assumption. unfold Rdiv at 2. rewrite ln_mult, ln_Rinv; try assumption; [|apply Rinv_0_lt_compat, S0].
    replace (p * (ln f + ln step)) with (p * (2 * ln step) + p * (ln f + - ln step)) by ring. rewrite exp_plus. field. split; [apply Rgt_not_eq, exp_pos|lra].
Qed.
Print Assumptions C189_slope.
Print Assumptions C189_infer.
Print Assumptions C189_factors.
Print Assumptions C189_lossy.
Print Assumptions C189_magnitude.
Print Assumptions C189_tail.
Print Assumptions C190_history.
Print Assumptions C190_name_refuted.
Print Assumptions C190_value.
Print Assumptions C190_missing.
Print Assumptions C190_empty_refuted.
Print Assumptions C190_nan_refuted.
Print Assumptions C190_order.
Print Assumptions C190_beyond.
