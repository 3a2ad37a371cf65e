From Coq Require Import ZArith QArith Qround Qabs List String Bool Lia Lqa Arith.
From Verif Require Import Base QAux UtilsNumModel UtilsNumProofs CoilSplitModel.
Import ListNotations.
Open Scope Q_scope.

Definition is_whole (N : Z) (r : Q) (k : Z) : Prop := r == inject_Z k / inject_Z N.
Definition wholes (N : Z) := Forall2 (is_whole N).

Lemma zsum_Zsum : forall l, zsum l = Zsum l.
Proof.
  intros l. unfold zsum.
  enough (H : forall a, fold_left Z.add l a = (a + Zsum l)%Z) by (rewrite H; lia).
  induction l as [|x t IH]; intros a; simpl; [lia|]. rewrite IH. lia.
Qed.

Section WithN.
Variable N : Z.
Hypothesis HN : (0 < N)%Z.

Lemma NQ : 0 < inject_Z N.
Proof. change 0 with (inject_Z 0). now rewrite inj_lt. Qed.

Lemma whole_turns_whole : forall r k, is_whole N r k -> whole_turns N r = k.
Proof.
  intros r k H. unfold is_whole in H. unfold whole_turns. pose proof NQ.
  assert (E : r * inject_Z N == inject_Z k) by (rewrite H; field; lra).
  rewrite (qround_comp _ _ E). apply qround_Z.
Qed.

Lemma wholes_map : forall rem ks, wholes N rem ks -> map (whole_turns N) rem = ks.
Proof.
  induction 1; simpl; [reflexivity|]. rewrite (whole_turns_whole _ _ H), IHForall2. reflexivity.
Qed.

Lemma zero_whole : is_whole N 0 0.
Proof. unfold is_whole. pose proof NQ. change (inject_Z 0) with 0. field. lra. Qed.

Lemma zeros_whole : forall (A : Type) (l : list A), wholes N (map (fun _ => 0) l) (map (fun _ => 0%Z) l).
Proof. induction l; simpl; constructor; [apply zero_whole|assumption]. Qed.

Lemma Zsum_zeros : forall (A : Type) (l : list A), Zsum (map (fun _ => 0%Z) l) = 0%Z.
Proof. induction l; simpl; auto. Qed.

Definition between (t k : Z) : Prop := (0 <= t <= k)%Z.

Lemma zeros_between : forall ks, Forall (fun k => 0 <= k)%Z ks ->
  Forall2 between (map (fun _ => 0%Z) ks) ks.
Proof. induction 1; simpl; constructor; [unfold between; lia|assumption]. Qed.

Lemma wholes_length : forall rem ks, wholes N rem ks -> List.length rem = List.length ks.
Proof. intros. eapply Forall2_length; eassumption. Qed.

Lemma map_const_length : forall (A B C : Type) (c : C) (l : list A) (l' : list B),
  List.length l = List.length l' -> map (fun _ => c) l = map (fun _ => c) l'.
Proof. induction l; destruct l'; simpl; intros; try discriminate; f_equal; auto. Qed.

(** ** Consecutive turns *)
Lemma fill_spec : forall rem ks left,
  wholes N rem ks -> Forall (fun k => 0 <= k)%Z ks -> (0 <= left <= Zsum ks)%Z ->
  exists l ts, fill_consecutive N left rem = Ok l /\ wholes N l ts /\
    Forall2 between ts ks /\ Zsum ts = left.
Proof.
  intros rem ks left Hw. revert left.
  induction Hw as [|r k rem ks Hr Hw IH]; intros left Hk Hl; simpl in *.
  - assert (left = 0%Z) by lia. subst. exists [], []. repeat split; constructor.
  - inversion Hk; subst. destruct (Z.leb_spec left 0).
    + assert (left = 0%Z) by lia. subst left.
      exists (0 :: map (fun _ => 0) rem), (0%Z :: map (fun _ => 0%Z) ks).
      repeat split.
      * constructor; [apply zero_whole|].
        rewrite (map_const_length _ _ _ 0%Z ks rem) by (symmetry; now apply wholes_length).
        apply zeros_whole.
      * constructor; [unfold between; lia|]. now apply zeros_between.
      * simpl. now rewrite Zsum_zeros.
    + rewrite (whole_turns_whole _ _ Hr). destruct (Z.leb_spec k left).
      * destruct (IH (left - k)%Z) as (l & ts & E & A & B & C); [assumption|lia|].
        rewrite E. cbn [bind]. exists (inject_Z k / inject_Z N :: l), (k :: ts).
        repeat split.
        -- constructor; [reflexivity|assumption].
        -- constructor; [unfold between; lia|assumption].
        -- simpl. lia.
      * exists (inject_Z left / inject_Z N :: map (fun _ => 0) rem), (left :: map (fun _ => 0%Z) ks).
        repeat split.
        -- constructor; [reflexivity|].
           rewrite (map_const_length _ _ _ 0%Z ks rem) by (symmetry; now apply wholes_length).
           apply zeros_whole.
        -- constructor; [unfold between; lia|]. now apply zeros_between.
        -- simpl. rewrite Zsum_zeros. lia.
Qed.

Lemma fill_overflow : forall rem ks left,
  wholes N rem ks -> Forall (fun k => 0 <= k)%Z ks -> (Zsum ks < left)%Z -> (0 < left)%Z ->
  exists w, fill_consecutive N left rem = UB w.
Proof.
  intros rem ks left Hw. revert left.
  induction Hw as [|r k rem ks Hr Hw IH]; intros left Hk Hl Hpos; simpl in *.
  - destruct (Z.leb_spec left 0); [lia|]. eauto.
  - inversion Hk; subst. destruct (Z.leb_spec left 0); [lia|].
    rewrite (whole_turns_whole _ _ Hr). destruct (Z.leb_spec k left).
    + assert (0 <= Zsum ks)%Z by now apply Zsum_nonneg.
      destruct (IH (left - k)%Z) as [w E]; [assumption|lia|lia|]. rewrite E. simpl. eauto.
    + assert (0 <= Zsum ks)%Z by now apply Zsum_nonneg. lia.
Qed.

Lemma leading_le : forall rem, (leading_empty rem <= List.length rem)%nat.
Proof. induction rem; simpl; [lia|]. destruct (Qlt_bool 0 a); lia. Qed.

Lemma first_active_le : forall rem, (first_active rem <= List.length rem)%nat.
Proof.
  intros. unfold first_active. destruct (Nat.eqb _ _); [lia|]. apply leading_le.
Qed.

Lemma leading_zero : forall rem ks, wholes N rem ks -> Forall (fun k => 0 <= k)%Z ks ->
  Forall (fun k => k = 0%Z) (firstn (leading_empty rem) ks).
Proof.
  induction 1 as [|r k rem ks Hr Hw IH]; intros Hk; simpl; [constructor|].
  inversion Hk; subst. destruct (Qlt_bool 0 r) eqn:E; qb; [constructor|].
  constructor; [|auto]. unfold is_whole in Hr. pose proof NQ.
  assert (inject_Z k <= 0).
  { assert (inject_Z k / inject_Z N <= 0) by lra. apply Qdiv_le_iff in H0; lra. }
  change 0 with (inject_Z 0) in H0. rewrite inj_le in H0. lia.
Qed.

Lemma first_active_zero : forall rem ks, wholes N rem ks -> Forall (fun k => 0 <= k)%Z ks ->
  Forall (fun k => k = 0%Z) (firstn (first_active rem) ks).
Proof.
  intros. unfold first_active. destruct (Nat.eqb _ _); [constructor|]. now apply leading_zero.
Qed.

Lemma Zsum_all_zero : forall l, Forall (fun k => k = 0%Z) l -> Zsum l = 0%Z.
Proof. induction 1; simpl; lia. Qed.

Lemma Forall_skipn : forall (A : Type) (P : A -> Prop) n l, Forall P l -> Forall P (skipn n l).
Proof.
  induction n; intros l H; simpl; [assumption|]. destruct l; [constructor|].
  inversion H; subst. now apply IHn.
Qed.

Lemma Forall2_skipn : forall (A B : Type) (P : A -> B -> Prop) n l l',
  Forall2 P l l' -> Forall2 P (skipn n l) (skipn n l').
Proof.
  induction n; intros l l' H; simpl; [assumption|].
  destruct H; [constructor|]. now apply IHn.
Qed.

Lemma Zsum_skip : forall n ks, Forall (fun k => k = 0%Z) (firstn n ks) ->
  Zsum (skipn n ks) = Zsum ks.
Proof.
  intros n ks H. rewrite <- (firstn_skipn n ks) at 2. rewrite Zsum_app.
  rewrite (Zsum_all_zero _ H). lia.
Qed.

Lemma turns_placed : forall rem ks phys,
  wholes N rem ks -> Forall (fun k => 0 <= k)%Z ks -> (0 <= phys <= Zsum ks)%Z ->
  exists l ts,
    bind (fill_consecutive N phys (skipn (first_active rem) rem)) (fun l =>
      Ok (phys, (map (fun _ => 0) (firstn (first_active rem) rem) ++ l)%list)) = Ok (phys, l) /\
    wholes N l ts /\ Forall2 between ts ks /\ Zsum ts = phys.
Proof.
  intros rem ks phys Hw Hk Hp.
  pose proof (first_active_zero _ _ Hw Hk) as Z0.
  set (n := first_active rem) in *.
  destruct (fill_spec (skipn n rem) (skipn n ks) phys) as (l & ts & E & A & B & C).
  - now apply Forall2_skipn.
  - now apply Forall_skipn.
  - now rewrite Zsum_skip.
  - rewrite E. cbn [bind].
    exists (map (fun _ => 0) (firstn n rem) ++ l)%list, (map (fun _ => 0%Z) (firstn n ks) ++ ts)%list.
    repeat split.
    + apply Forall2_app; [|assumption].
      rewrite (map_const_length _ _ _ 0%Z (firstn n ks) (firstn n rem)).
      * apply zeros_whole.
      * rewrite !firstn_length. now rewrite (wholes_length _ _ Hw).
    + rewrite <- (firstn_skipn n ks) at 2. apply Forall2_app; [|assumption].
      clear -Z0. induction Z0; simpl; constructor; [unfold between; lia|assumption].
    + rewrite Zsum_app, Zsum_zeros. lia.
Qed.

(** ** Even split *)
Lemma ceil_round_Z : forall z, Qceiling (roundFloat (inject_Z z) 10) = z.
Proof.
  intros. rewrite <- (Qceiling_Z z) at 2. apply Qceiling_comp.
  pose proof (p10_pos 10).
  apply (roundFloat_grid _ 10 (z * 10 ^ 10)).
  rewrite inject_Z_mult. unfold p10. change (Z.of_nat 10) with 10%Z.
  field. change 0 with (inject_Z 0). rewrite inj_eq. lia.
Qed.

Lemma ceil_round_mono : forall x y, x <= y ->
  (Qceiling (roundFloat x 10) <= Qceiling (roundFloat y 10))%Z.
Proof. intros. apply Qceiling_resp_le. now apply roundFloat_mono. Qed.

Lemma ceil_round_le : forall x z, x <= inject_Z z -> (Qceiling (roundFloat x 10) <= z)%Z.
Proof. intros x z H. rewrite <- (ceil_round_Z z). now apply ceil_round_mono. Qed.
Lemma ceil_round_ge : forall x z, inject_Z z <= x -> (z <= Qceiling (roundFloat x 10))%Z.
Proof. intros x z H. rewrite <- (ceil_round_Z z) at 1. now apply ceil_round_mono. Qed.

#[local] Instance roundFloat_comp : Proper (Qeq ==> eq ==> Qeq) roundFloat.
Proof.
  intros x y H d d' <-. unfold roundFloat.
  assert (E : x * p10 d == y * p10 d) by (rewrite H; reflexivity).
  rewrite (qround_comp _ _ E). reflexivity.
Qed.

Lemma ceil_round_comp : forall x y, x == y ->
  Qceiling (roundFloat x 10) = Qceiling (roundFloat y 10).
Proof. intros x y H. apply Qceiling_comp. rewrite H. reflexivity. Qed.

Definition even_add (s : Z) (rel : Q) (k : Z) : Z :=
  let add := Qceiling (roundFloat (inject_Z k / inject_Z s * rel) 10) in
  if Qlt_bool (inject_Z k - inject_Z add) (inject_Z (s - 1))
  then Qceiling (roundFloat (inject_Z k / inject_Z s) 10) else add.

Lemma even_split_add : forall s rel r k, is_whole N r k ->
  fst (even_split s N rel r) = even_add s rel k.
Proof.
  intros s rel r k H. unfold is_whole in H. unfold even_split, even_add. cbn [fst]. pose proof NQ.
  assert (E : inject_Z N * r == inject_Z k) by (rewrite H; field; lra).
  rewrite (ceil_round_comp (inject_Z N * r / inject_Z s * rel) (inject_Z k / inject_Z s * rel))
    by (rewrite E; reflexivity).
  rewrite (ceil_round_comp (inject_Z N * r / inject_Z s) (inject_Z k / inject_Z s))
    by (rewrite E; reflexivity).
  rewrite E. reflexivity.
Qed.

Lemma div_s_le : forall k s, (0 <= k)%Z -> (1 <= s)%Z -> inject_Z k / inject_Z s <= inject_Z k.
Proof.
  intros k s Hk Hs. rewrite <- inj_le in Hk, Hs.
  change (inject_Z 0) with 0 in Hk. change (inject_Z 1) with 1 in Hs.
  apply Qdiv_le_iff; nra.
Qed.

Lemma even_add_bounds : forall s rel k,
  (1 <= s)%Z -> 0 <= rel -> (0 <= k)%Z -> (0 <= even_add s rel k <= k)%Z.
Proof.
  intros s rel k Hs Hrel Hk. unfold even_add.
  assert (Hs' : 0 < inject_Z s) by (change 0 with (inject_Z 0); rewrite inj_lt; lia).
  assert (Hk' : 0 <= inject_Z k) by (change 0 with (inject_Z 0); rewrite inj_le; lia).
  assert (Hd : 0 <= inject_Z k / inject_Z s) by (apply Qle_div_iff; lra).
  destruct (Qlt_bool _ _) eqn:E.
  - split.
    + apply ceil_round_ge. exact Hd.
    + apply ceil_round_le. now apply div_s_le.
  - apply Qlt_bool_false in E. split.
    + apply ceil_round_ge. change (inject_Z 0) with 0. nra.
    + assert (inject_Z 0 <= inject_Z (s - 1)) by (rewrite inj_le; lia).
      change (inject_Z 0) with 0 in H.
      rewrite <- inj_le. lra.
Qed.

Lemma even_add_last : forall rel k, 1 <= rel -> (0 <= k)%Z -> even_add 1 rel k = k.
Proof.
  intros rel k Hrel Hk.
  assert (Hb := even_add_bounds 1 rel k ltac:(lia) ltac:(lra) Hk).
  unfold even_add in *.
  assert (Hk' : 0 <= inject_Z k) by (change 0 with (inject_Z 0); rewrite inj_le; lia).
  destruct (Qlt_bool _ _) eqn:E.
  - transitivity (Qceiling (roundFloat (inject_Z k) 10)); [|apply ceil_round_Z].
    apply ceil_round_comp. change (inject_Z 1) with 1. field.
  - assert (k <= Qceiling (roundFloat (inject_Z k / inject_Z 1 * rel) 10))%Z.
    { apply ceil_round_ge. change (inject_Z 1) with 1.
      assert (Ee : inject_Z k / 1 * rel == inject_Z k * rel) by field. rewrite Ee. nra. }
    lia.
Qed.

Lemma even_split_prop : forall s rel r k, (1 <= s)%Z -> 0 <= rel -> (0 <= k)%Z ->
  is_whole N r k -> is_whole N (snd (even_split s N rel r)) (even_add s rel k).
Proof.
  intros s rel r k Hs Hrel Hk H. pose proof NQ as P.
  pose proof (even_split_add s rel r k H) as E.
  unfold even_split in *. cbn [fst snd] in *. rewrite E.
  pose proof (even_add_bounds s rel k Hs Hrel Hk) as B.
  unfold is_whole in *.
  assert (Le : inject_Z (even_add s rel k) / inject_Z N <= r).
  { rewrite H. apply Qdiv_le_iff; [assumption|].
    assert (inject_Z k / inject_Z N * inject_Z N == inject_Z k) by (field; lra).
    rewrite H0, inj_le. lia. }
  unfold cmin. destruct (Qlt_bool (inject_Z (even_add s rel k) / inject_Z N) r) eqn:F; [reflexivity|]. qb. lra.
Qed.

Lemma even_split_all : forall s rel rem ks, (1 <= s)%Z -> 0 <= rel ->
  Forall (fun k => 0 <= k)%Z ks -> wholes N rem ks ->
  map fst (map (even_split s N rel) rem) = map (even_add s rel) ks /\
  wholes N (map snd (map (even_split s N rel) rem)) (map (even_add s rel) ks).
Proof.
  intros s rel rem ks Hs Hrel Hk Hw. revert Hk.
  induction Hw as [|r k rem ks Hr Hw IH]; intros Hk; simpl; [split; constructor|].
  inversion Hk; subst. destruct (IH H2) as [A B]. split.
  - rewrite A. f_equal. now apply even_split_add.
  - constructor; [|assumption]. now apply even_split_prop.
Qed.

(** ** Round robin *)
Definition capped := Forall2 (fun p a : Z => (0 <= p <= a)%Z).

(* state of the round robin at the beginning of a pass number [n]:
   every parallel holds min(n, avail) *)
Definition level (n : Z) (avail : list Z) : list Z := map (fun a => Z.min n a) avail.

Lemma rr_pass_full : forall avail n placed target,
  Forall (fun a => 0 <= a)%Z avail -> (0 <= n)%Z ->
  (placed + (Zsum (level (n + 1) avail) - Zsum (level n avail)) <= target)%Z ->
  exists b, rr_pass avail (level n avail) placed target =
    (level (n + 1) avail, (placed + (Zsum (level (n + 1) avail) - Zsum (level n avail)))%Z, b) /\
    (b = false -> level (n + 1) avail = level n avail).
Proof.
  induction avail as [|a t IH]; intros n placed target Ha Hn Ht.
  - exists false. simpl in *. split; [|reflexivity]. f_equal. f_equal. lia.
  - inversion Ha; subst. simpl in *.
    assert (Hmono : (Zsum (level n t) <= Zsum (level (n + 1) t))%Z).
    { clear. induction t; simpl; lia. }
    destruct (Z.ltb_spec placed target) as [Hlt|Hge].
    + destruct (Z.ltb_spec (Z.min n a) a) as [Hl|Hl].
      * destruct (IH n (placed + 1)%Z target) as (b & E & Hb); [assumption|assumption|lia|].
        rewrite E. exists true. split; [|discriminate].
        replace (Z.min n a + 1)%Z with (Z.min (n + 1) a) by lia.
        f_equal. f_equal. lia.
      * destruct (IH n placed target) as (b & E & Hb); [assumption|assumption|lia|].
        rewrite E. exists b. split.
        -- replace (Z.min n a) with (Z.min (n + 1) a) by lia. f_equal. f_equal. lia.
        -- intros Hf. rewrite (Hb Hf). f_equal. lia.
    + exists false.
      assert (Z.min (n + 1) a = Z.min n a) by lia.
      assert (Eq : level (n + 1) t = level n t).
      { assert (Zsum (level (n + 1) t) = Zsum (level n t)) by lia.
        clear -H0. induction t; simpl in *; [reflexivity|].
        assert (Zsum (level n t) <= Zsum (level (n + 1) t))%Z by (clear; induction t; simpl; lia).
        f_equal; [lia|]. apply IHt. lia. }
      split; [|intros _; now rewrite H, Eq].
      rewrite H, Eq. f_equal. f_equal. lia.
Qed.

(* last, incomplete pass: a prefix of the parallels advances *)
Lemma rr_pass_partial : forall avail n placed target,
  Forall (fun a => 0 <= a)%Z avail -> (0 <= n)%Z -> (placed < target)%Z ->
  (target < placed + (Zsum (level (n + 1) avail) - Zsum (level n avail)))%Z ->
  exists i, rr_pass avail (level n avail) placed target =
    ((level (n + 1) (firstn i avail) ++ level n (skipn i avail))%list, target, true) /\
    (Zsum (level (n + 1) (firstn i avail) ++ level n (skipn i avail)) - Zsum (level n avail) = target - placed)%Z.
Proof.
  induction avail as [|a t IH]; intros n placed target Ha Hn Hp Ht; simpl in Ht.
  - lia.
  - inversion Ha; subst. simpl.
    destruct (Z.ltb_spec placed target) as [_|]; [|lia].
    destruct (Z.ltb_spec (Z.min n a) a) as [Hl|Hl].
    + destruct (Z.eq_dec (placed + 1) target) as [He|He].
      * exists 1%nat. simpl.
        assert (E : rr_pass t (level n t) (placed + 1) target = (level n t, target, false)).
        { destruct t as [|b u]; simpl; [now rewrite He|].
          rewrite He, Z.ltb_irrefl. reflexivity. }
        rewrite E. replace (Z.min n a + 1)%Z with (Z.min (n + 1) a) by lia.
        split; [reflexivity|]. lia.
      * destruct (IH n (placed + 1)%Z target) as (i & E & Sx); [assumption|assumption|lia|lia|].
        rewrite E. exists (S i). simpl.
        replace (Z.min n a + 1)%Z with (Z.min (n + 1) a) by lia.
        split; [reflexivity|]. lia.
    + destruct (IH n placed target) as (i & E & Sx); [assumption|assumption|lia|lia|].
      rewrite E. exists (S i). simpl.
      replace (Z.min (n + 1) a) with (Z.min n a) by lia.
      split; [reflexivity|]. lia.
Qed.

Lemma level_zero : forall avail, Forall (fun a => 0 <= a)%Z avail ->
  level 0 avail = map (fun _ => 0%Z) avail.
Proof. induction 1; simpl; [reflexivity|]. rewrite IHForall. f_equal. lia. Qed.

Lemma level_le : forall n avail, (Zsum (level n avail) <= Zsum avail)%Z.
Proof. induction avail; simpl; lia. Qed.

Lemma level_step : forall n avail, (Zsum (level n avail) <= Zsum (level (n + 1) avail))%Z.
Proof. induction avail; simpl; lia. Qed.

Lemma level_full : forall n avail, level (n + 1) avail = level n avail ->
  level n avail = avail.
Proof.
  induction avail; simpl; intros H; [reflexivity|]. injection H as H1 H2.
  rewrite (IHavail H2). f_equal. lia.
Qed.

Lemma level_same : forall n avail, Zsum (level (n+1) avail) = Zsum (level n avail) ->
  level (n + 1) avail = level n avail.
Proof.
  induction avail; simpl; intros H; [reflexivity|].
  pose proof (level_step n avail). f_equal; [lia|]. apply IHavail. lia.
Qed.

(* result of the round robin: a prefix at height n+1, the rest at height n *)
Lemma rr_loop_spec : forall fuel avail n target,
  Forall (fun a => 0 <= a)%Z avail -> (0 <= n)%Z ->
  (Zsum (level n avail) <= target)%Z ->
  (target - Zsum (level n avail) < Z.of_nat fuel)%Z ->
  exists i m, rr_loop fuel avail (level n avail) (Zsum (level n avail)) target =
    Ok ((level (m + 1) (firstn i avail) ++ level m (skipn i avail))%list,
        Zsum (level (m + 1) (firstn i avail) ++ level m (skipn i avail))) /\
    (0 <= m)%Z /\
    Zsum (level (m + 1) (firstn i avail) ++ level m (skipn i avail)) = Z.min target (Zsum avail).
Proof.
  induction fuel as [|f IH]; intros avail n target Ha Hn Hle Hf.
  - simpl in Hf. lia.
  - cbn [rr_loop]. destruct (Z.ltb_spec (Zsum (level n avail)) target) as [Hlt|Hge].
    + destruct (Z.le_gt_cases (Zsum (level (n + 1) avail)) target) as [Hc|Hc].
      * destruct (rr_pass_full avail n (Zsum (level n avail)) target Ha Hn) as (b & E & Hb); [lia|].
        rewrite E. replace (Zsum (level n avail) + (Zsum (level (n + 1) avail) - Zsum (level n avail)))%Z
          with (Zsum (level (n + 1) avail)) by lia.
        destruct b.
        -- destruct (Z.eq_dec (Zsum (level (n+1) avail)) (Zsum (level n avail))) as [Es|Ns].
           ++ (* progress reported only if something moved *)
              exfalso. clear -E Es Ha Hn Hlt.
              assert (G : forall av placed, Forall (fun a => 0 <= a)%Z av ->
                        level (n+1) av = level n av ->
                        snd (rr_pass av (level n av) placed target) = false).
              { induction av as [|a t IHt]; intros placed Hav El; simpl in *; [reflexivity|].
                injection El as E1 E2. inversion Hav; subst.
                destruct (Z.ltb_spec placed target); [|reflexivity].
                destruct (Z.ltb_spec (Z.min n a) a); [lia|].
                specialize (IHt placed H2 E2).
                destruct (rr_pass t (level n t) placed target) as [[x y] z]. exact IHt. }
              specialize (G avail (Zsum (level n avail)) Ha (level_same _ _ Es)).
              rewrite E in G. discriminate.
           ++ pose proof (level_step n avail).
              destruct (IH avail (n + 1)%Z target Ha) as (i & m & E' & Hm & S'); [lia|lia|lia|].
              exists i, m. split; [exact E'|]. split; assumption.
        -- specialize (Hb eq_refl). exists 0%nat, n. cbn [firstn skipn level map app].
           rewrite Hb. split; [reflexivity|]. split; [assumption|].
           pose proof (level_full _ _ Hb) as Hfull. fold (level n avail).
           rewrite Hfull in *. lia.
      * destruct (rr_pass_partial avail n (Zsum (level n avail)) target Ha Hn Hlt) as (i & E & Sx); [lia|].
        rewrite E. assert (St : Zsum (level (n + 1) (firstn i avail) ++ level n (skipn i avail)) = target) by lia.
        exists i, n. pose proof (level_le (n+1) avail).
        split; [|split; [assumption|lia]].
        rewrite St. destruct f as [|f].
        -- lia.
        -- cbn [rr_loop]. rewrite Z.ltb_irrefl. reflexivity.
    + exists 0%nat, n. cbn [firstn skipn level map app]. split; [reflexivity|]. split; [assumption|].
      fold (level n avail). pose proof (level_le n avail). lia.
Qed.

Lemma level_between : forall n avail, (0 <= n)%Z -> Forall (fun a => 0 <= a)%Z avail ->
  Forall2 between (level n avail) avail.
Proof.
  intros n avail Hn. induction 1; simpl; constructor; [unfold between; lia|assumption].
Qed.

Lemma rr_result_between : forall i m avail, (0 <= m)%Z -> Forall (fun a => 0 <= a)%Z avail ->
  Forall2 between (level (m + 1) (firstn i avail) ++ level m (skipn i avail)) avail.
Proof.
  intros i m avail Hm Ha. rewrite <- (firstn_skipn i avail) at 3. apply Forall2_app.
  - apply level_between; [lia|]. rewrite <- (firstn_skipn i avail) in Ha. apply Forall_app in Ha. tauto.
  - apply level_between; [lia|]. rewrite <- (firstn_skipn i avail) in Ha. apply Forall_app in Ha. tauto.
Qed.

Lemma wholes_of_Z : forall l, wholes N (map (fun p => inject_Z p / inject_Z N) l) l.
Proof. induction l; simpl; constructor; [reflexivity|assumption]. Qed.

(** ** One slot *)
Lemma slot_none : forall slotIndex slots rem ks style rel,
  (slotIndex < slots)%nat -> wholes N rem ks -> Forall (fun k => 0 <= k)%Z ks -> 0 <= rel ->
  exists phys props ts,
    get_parallels_proportions slotIndex slots N rem style rel None = Ok (phys, props) /\
    wholes N props ts /\ Forall2 between ts ks /\ phys = Zsum ts /\
    (slotIndex = (slots - 1)%nat -> 1 <= rel -> ts = ks).
Proof.
  intros slotIndex slots rem ks style rel Hs Hw Hk Hrel.
  unfold get_parallels_proportions.
  destruct (Nat.leb_spec slots slotIndex); [lia|]. destruct (Z.leb_spec N 0); [lia|]. cbn [orb].
  set (s := (Z.of_nat slots - Z.of_nat slotIndex)%Z). assert (Hs1 : (1 <= s)%Z) by (unfold s; lia).
  assert (Hs' : 0 < inject_Z s) by (change 0 with (inject_Z 0); rewrite inj_lt; lia).
  destruct style.
  - rewrite (wholes_map _ _ Hw), zsum_Zsum.
    set (phys := Z.min (Zsum ks) _).
    assert (T : (0 <= Zsum ks)%Z) by now apply Zsum_nonneg.
    assert (T' : 0 <= inject_Z (Zsum ks)) by (change 0 with (inject_Z 0); rewrite inj_le; lia).
    assert (Hd : 0 <= inject_Z (Zsum ks) / inject_Z s) by (apply Qle_div_iff; lra).
    assert (Hp : (0 <= phys <= Zsum ks)%Z).
    { unfold phys. split; [|lia]. apply Z.min_glb; [assumption|].
      change 0%Z with (Qceiling 0). apply Qceiling_resp_le. nra. }
    destruct (turns_placed rem ks phys Hw Hk Hp) as (l & ts & E & A & B & C).
    exists phys, l, ts. split; [exact E|]. repeat split; try assumption; [now symmetry|].
    intros Hlast Hrel1.
    assert (s = 1)%Z by (unfold s; lia).
    assert (Ep : phys = Zsum ks).
    { unfold phys. rewrite H1. apply Z.min_l.
      rewrite <- (Qceiling_Z (Zsum ks)) at 1. apply Qceiling_resp_le.
      change (inject_Z 1) with 1.
      assert (Ee : inject_Z (Zsum ks) / 1 * rel == inject_Z (Zsum ks) * rel) by field.
      rewrite Ee. nra. }
    rewrite Ep in C. clear -B C Hk.
    induction B as [|t k ts ks Hb B IH]; [reflexivity|]. simpl in C. inversion Hk; subst.
    assert (Zsum ts <= Zsum ks)%Z by (clear -B; induction B; simpl; [lia|unfold between in *; lia]).
    unfold between in Hb. f_equal; [lia|]. apply IH; [assumption|lia].
  - destruct (even_split_all s rel rem ks Hs1 Hrel Hk Hw) as [A B].
    exists (zsum (map fst (map (even_split s N rel) rem))),
           (map snd (map (even_split s N rel) rem)), (map (even_add s rel) ks).
    split; [reflexivity|]. split; [exact B|]. split; [|split].
    + clear -Hk Hs1 Hrel. induction Hk; simpl; constructor; [|assumption].
      unfold between. now apply even_add_bounds.
    + rewrite A. apply zsum_Zsum.
    + intros Hlast Hrel1. assert (s = 1)%Z by (unfold s; lia). rewrite H1.
      clear -Hk Hrel1. induction Hk; simpl; [reflexivity|]. rewrite IHHk. f_equal.
      now apply even_add_last.
Qed.

Lemma slot_forced : forall slotIndex slots rem ks style rel a,
  (slotIndex < slots)%nat -> wholes N rem ks -> Forall (fun k => 0 <= k)%Z ks ->
  (0 <= a <= Zsum ks)%Z ->
  exists props ts,
    get_parallels_proportions slotIndex slots N rem style rel (Some a) = Ok (a, props) /\
    wholes N props ts /\ Forall2 between ts ks /\ Zsum ts = a.
Proof.
  intros slotIndex slots rem ks style rel a Hs Hw Hk Ha.
  unfold get_parallels_proportions.
  destruct (Nat.leb_spec slots slotIndex); [lia|]. destruct (Z.leb_spec N 0); [lia|]. cbn [orb].
  destruct style.
  - destruct (turns_placed rem ks a Hw Hk Ha) as (l & ts & E & A & B & C).
    exists l, ts. auto.
  - rewrite (wholes_map _ _ Hw).
    rewrite (map_const_length _ _ _ 0%Z rem ks) by now apply wholes_length.
    rewrite <- level_zero by assumption.
    destruct (rr_loop_spec (S (Z.to_nat a)) ks 0 a Hk) as (i & m & E & Hm & Sx).
    + lia.
    + rewrite level_zero by assumption. rewrite Zsum_zeros. lia.
    + rewrite level_zero by assumption. rewrite Zsum_zeros. lia.
    + assert (Z0 : Zsum (level 0 ks) = 0%Z) by (rewrite level_zero by assumption; apply Zsum_zeros).
      rewrite Z0 in E. rewrite E. cbn [bind].
      rewrite Sx. rewrite Z.min_l by lia.
      eexists. exists (level (m + 1) (firstn i ks) ++ level m (skipn i ks))%list.
      split; [reflexivity|]. split; [apply wholes_of_Z|]. split; [now apply rr_result_between|].
      rewrite Sx. lia.
Qed.

(** ** The whole loop *)
Lemma sub_wholes : forall rem ks props ts, wholes N rem ks -> wholes N props ts ->
  Forall2 between ts ks ->
  wholes N (map (fun '(a, b) => a - b) (combine rem props)) (map (fun '(k, t) => (k - t)%Z) (combine ks ts)).
Proof.
  intros rem ks props ts Hw. revert props ts.
  induction Hw as [|r k rem ks Hr Hw IH]; intros props ts Hp Hb; simpl.
  - constructor.
  - inversion Hb as [|? ? ? ? Hb1 Hb2]; subst. inversion Hp as [|? ? ? ? Hp1 Hp2]; subst. simpl. constructor.
    + unfold is_whole in *. rewrite Hr, Hp1. unfold Z.sub. rewrite inject_Z_plus, inject_Z_opp.
      pose proof NQ. field. lra.
    + apply IH; assumption.
Qed.

Lemma sub_nonneg : forall ks ts, Forall2 between ts ks ->
  Forall (fun k => 0 <= k)%Z (map (fun '(k, t) => (k - t)%Z) (combine ks ts)).
Proof. induction 1; simpl; constructor; [unfold between in *; lia|assumption]. Qed.

Definition zsub (ks ts : list Z) : list Z := map (fun '(k, t) => (k - t)%Z) (combine ks ts).

Lemma zsub_nth : forall ks ts p, List.length ks = List.length ts ->
  nth p (zsub ks ts) 0%Z = (nth p ks 0 - nth p ts 0)%Z.
Proof.
  unfold zsub. induction ks; destruct ts; simpl; intros; try discriminate; destruct p; auto.
Qed.

Lemma zsub_length : forall ks ts, List.length ks = List.length ts ->
  List.length (zsub ks ts) = List.length ks.
Proof. unfold zsub. intros. rewrite map_length, combine_length. lia. Qed.

Lemma Zsum_zsub : forall ks ts, List.length ks = List.length ts ->
  Zsum (zsub ks ts) = (Zsum ks - Zsum ts)%Z.
Proof.
  unfold zsub. induction ks; destruct ts; simpl; intros; try discriminate; [lia|].
  rewrite IHks by congruence. lia.
Qed.

(* what one slot got, in whole turns *)
Definition slot_got (o : Z * list Q) (ts : list Z) : Prop :=
  wholes N (snd o) ts /\ Forall (fun t => 0 <= t)%Z ts /\ fst o = Zsum ts.

Lemma between_length : forall ts ks, Forall2 between ts ks -> List.length ts = List.length ks.
Proof. intros. eapply Forall2_length; eassumption. Qed.
Lemma between_nonneg : forall ts ks, Forall2 between ts ks -> Forall (fun t => 0 <= t)%Z ts.
Proof. induction 1; constructor; [unfold between in *; lia|assumption]. Qed.

Lemma split_none_spec : forall args slotIndex slots rem ks style,
  (slotIndex + List.length args = slots)%nat ->
  wholes N rem ks -> Forall (fun k => 0 <= k)%Z ks ->
  Forall (fun a => 0 <= fst a /\ snd a = None) args ->
  exists out final tss kf,
    split_slots slotIndex slots N rem style args = Ok (out, final) /\
    Forall2 slot_got out tss /\
    Forall (fun ts => List.length ts = List.length ks) tss /\
    wholes N final kf /\ Forall (fun k => 0 <= k)%Z kf /\ List.length kf = List.length ks /\
    (forall p, (nth p kf 0 + Zsum (map (fun ts => nth p ts 0) tss) = nth p ks 0)%Z) /\
    (forall a0, args <> [] -> 1 <= fst (last args a0) -> Forall (fun k => k = 0%Z) kf).
Proof.
  induction args as [|[rel forced] rest IH]; intros slotIndex slots rem ks style Hlen Hw Hk Hargs.
  - exists [], rem, [], ks. simpl. repeat split; try constructor; try assumption.
    + intros; lia.
    + intros a0 H. congruence.
  - simpl in Hlen. inversion Hargs as [|? ? [Hrel Hn] Hrest]; subst. simpl in Hrel, Hn. subst forced.
    destruct (slot_none slotIndex (slotIndex + S (List.length rest)) rem ks style rel)
      as (phys & props & ts & E & Hp & Hb & Hphys & Hlast); try assumption; [lia|].
    cbn [split_slots]. simpl List.length. rewrite E. cbn [bind].
    destruct (IH (S slotIndex) (slotIndex + S (List.length rest))%nat
                 (map (fun '(a, b) => a - b) (combine rem props)) (zsub ks ts) style)
      as (out & final & tss & kf & E' & Ho & Hl & Hf & Hkf & Hlf & Hc & Hz).
    + lia.
    + now apply sub_wholes.
    + now apply sub_nonneg.
    + assumption.
    + rewrite E'. cbn [bind].
      exists ((phys, props) :: out), final, (ts :: tss), kf.
      pose proof (between_length _ _ Hb) as Hlts.
      rewrite zsub_length in Hl, Hlf by now symmetry.
      split; [reflexivity|]. split.
      { constructor; [|assumption]. split; [assumption|]. split; [eapply between_nonneg; eassumption|assumption]. }
      split; [now constructor|]. split; [assumption|]. split; [assumption|]. split; [assumption|].
      split.
      { intros p. simpl. specialize (Hc p). rewrite zsub_nth in Hc by now symmetry. lia. }
      intros a0 _ Hge. destruct rest as [|b rest'].
      * simpl in Hge. simpl in E'. injection E' as <- <-.
        assert (ts = ks) by (apply Hlast; [cbn [List.length]; lia|assumption]). subst ts.
        assert (zsub_self : Forall (fun k => k = 0%Z) (zsub ks ks)).
        { unfold zsub. clear. induction ks; simpl; constructor; [lia|assumption]. }
        (* final is wholes of both kf and zsub ks ks *)
        assert (Hf' : wholes N (map (fun '(a, b) => a - b) (combine rem props)) (zsub ks ks)) by now apply sub_wholes.
        assert (kf = zsub ks ks) by (rewrite <- (wholes_map _ _ Hf), <- (wholes_map _ _ Hf'); reflexivity).
        now subst kf.
      * apply (Hz a0); [discriminate|exact Hge].
Qed.

Lemma split_forced_spec : forall forced slotIndex slots rem ks style,
  (slotIndex + List.length forced = slots)%nat ->
  wholes N rem ks -> Forall (fun k => 0 <= k)%Z ks ->
  Forall (fun a => 0 <= a)%Z forced -> (Zsum forced <= Zsum ks)%Z ->
  exists out final tss kf,
    split_slots slotIndex slots N rem style (map (fun a => (1, Some a)) forced) = Ok (out, final) /\
    Forall2 slot_got out tss /\ map fst out = forced /\
    Forall (fun ts => List.length ts = List.length ks) tss /\
    wholes N final kf /\ Forall (fun k => 0 <= k)%Z kf /\ List.length kf = List.length ks /\
    (forall p, (nth p kf 0 + Zsum (map (fun ts => nth p ts 0) tss) = nth p ks 0)%Z) /\
    Zsum kf = (Zsum ks - Zsum forced)%Z.
Proof.
  induction forced as [|a rest IH]; intros slotIndex slots rem ks style Hlen Hw Hk Hf0 Hsum.
  - exists [], rem, [], ks. simpl. repeat split; try constructor; try assumption; intros; lia.
  - simpl in Hsum, Hlen. inversion Hf0; subst. cbn [map].
    assert (Hr0 : (0 <= Zsum rest)%Z) by now apply Zsum_nonneg.
    destruct (slot_forced slotIndex (slotIndex + S (List.length rest)) rem ks style 1 a)
      as (props & ts & E & Hp & Hb & Hphys); try assumption; [lia|lia|].
    cbn [split_slots]. simpl List.length. rewrite E. cbn [bind].
    pose proof (between_length _ _ Hb) as Hlts.
    destruct (IH (S slotIndex) (slotIndex + S (List.length rest))%nat
                 (map (fun '(a, b) => a - b) (combine rem props)) (zsub ks ts) style)
      as (out & final & tss & kf & E' & Ho & Hm & Hl & Hf & Hkf & Hlf & Hc & Hz).
    + lia.
    + now apply sub_wholes.
    + now apply sub_nonneg.
    + assumption.
    + rewrite Zsum_zsub by now symmetry. lia.
    + rewrite E'. cbn [bind].
      exists ((a, props) :: out), final, (ts :: tss), kf.
      rewrite zsub_length in Hl, Hlf by now symmetry.
      rewrite Zsum_zsub in Hz by now symmetry.
      split; [reflexivity|]. split.
      { constructor; [|assumption]. split; [assumption|]. split; [eapply between_nonneg; eassumption|now symmetry]. }
      split; [simpl; now rewrite Hm|].
      split; [now constructor|]. split; [assumption|]. split; [assumption|]. split; [assumption|].
      split.
      { intros p. simpl. specialize (Hc p). rewrite zsub_nth in Hc by now symmetry. lia. }
      simpl. lia.
Qed.

(** ** Balance of an even split *)
Definition cdiv (k s : Z) : Z := Qceiling (inject_Z k / inject_Z s).

Lemma cdiv_Z : forall k s, (1 <= s)%Z -> (cdiv k s = (k + s - 1) / s)%Z.
Proof.
  intros k s Hs. unfold cdiv.
  assert (Hs' : 0 < inject_Z s) by (change 0 with (inject_Z 0); rewrite inj_lt; lia).
  pose proof (Z.div_mod (k + s - 1) s ltac:(lia)) as D.
  pose proof (Z.mod_pos_bound (k + s - 1) s ltac:(lia)) as M.
  set (q := ((k + s - 1) / s)%Z) in *.
  apply Qceiling_unique.
  - apply Qdiv_le_iff; [assumption|]. rewrite <- inject_Z_mult, inj_le. nia.
  - apply Qlt_div_iff; [assumption|]. change 1 with (inject_Z 1).
    unfold Qminus. rewrite <- inject_Z_opp, <- inject_Z_plus, <- inject_Z_mult, inj_lt. nia.
Qed.

Lemma ceil_round_cdiv : forall k s, (0 <= k)%Z -> (1 <= s < 2 * 10 ^ 10)%Z ->
  Qceiling (roundFloat (inject_Z k / inject_Z s) 10) = cdiv k s.
Proof.
  intros k s Hk Hs. rewrite cdiv_Z by lia.
  assert (Hs' : 0 < inject_Z s) by (change 0 with (inject_Z 0); rewrite inj_lt; lia).
  pose proof (Z.div_mod (k + s - 1) s ltac:(lia)) as D.
  pose proof (Z.mod_pos_bound (k + s - 1) s ltac:(lia)) as M.
  set (q := ((k + s - 1) / s)%Z) in *.
  apply Z.le_antisymm.
  - apply ceil_round_le. apply Qdiv_le_iff; [assumption|]. rewrite <- inject_Z_mult, inj_le. nia.
  - (* k >= (q-1) s + 1 so k/s >= q-1 + 1/s > q-1 + half a unit of the tenth decimal *)
    assert (K : ((q - 1) * s + 1 <= k)%Z) by nia.
    set (x := inject_Z k / inject_Z s).
    assert (X : inject_Z (q - 1) + 1 / inject_Z s <= x).
    { unfold x. apply Qle_div_iff; [assumption|].
      assert (E : (inject_Z (q - 1) + 1 / inject_Z s) * inject_Z s == inject_Z ((q - 1) * s + 1)).
      { rewrite inject_Z_plus, inject_Z_mult. change (inject_Z 1) with 1. field. lra. }
      rewrite E, inj_le. exact K. }
    pose proof (roundFloat_near x 10) as R. apply Qabs_Qle_condition in R.
    change (p10 10) with (inject_Z (10 ^ 10)) in R.
    assert (H10 : 0 < inject_Z (10 ^ 10)) by reflexivity.
    assert (S1 : (1#2) / inject_Z (10 ^ 10) < 1 / inject_Z s).
    { apply Qlt_div_iff; [assumption|].
      assert (E : (1#2) / inject_Z (10 ^ 10) * inject_Z s == inject_Z s / (2 * inject_Z (10 ^ 10))) by (field; lra).
      rewrite E. apply Qdiv_lt_iff; [lra|].
      change (2 * inject_Z (10 ^ 10)) with (inject_Z (2 * 10 ^ 10)).
      rewrite Qmult_1_l. rewrite inj_lt. lia. }
    assert (G : inject_Z (q - 1) < roundFloat x 10) by lra.
    assert (G' : inject_Z (q - 1) < inject_Z (Qceiling (roundFloat x 10))).
    { eapply Qlt_le_trans; [exact G|apply Qle_ceiling]. }
    rewrite inj_lt in G'. lia.
Qed.

Lemma even_add_1 : forall s k, (0 <= k)%Z -> (1 <= s < 2 * 10 ^ 10)%Z -> even_add s 1 k = cdiv k s.
Proof.
  intros s k Hk Hs. unfold even_add.
  rewrite (ceil_round_comp (inject_Z k / inject_Z s * 1) (inject_Z k / inject_Z s)) by ring.
  destruct (Qlt_bool _ _); now apply ceil_round_cdiv.
Qed.

(* the sequence k0 = k, k_{i+1} = k_i - ceil(k_i / (s - i)) stays between the
   floor and the ceiling of k / s *)
Lemma cdiv_next : forall k s, (0 <= k)%Z -> (2 <= s)%Z ->
  (k / s <= (k - cdiv k s) / (s - 1) /\ cdiv (k - cdiv k s) (s - 1) <= cdiv k s)%Z.
Proof.
  intros k s Hk Hs. rewrite !cdiv_Z by lia.
  set (c := ((k + s - 1) / s)%Z).
  pose proof (Z.div_mod (k + s - 1) s ltac:(lia)) as D.
  pose proof (Z.mod_pos_bound (k + s - 1) s ltac:(lia)) as M. fold c in D.
  pose proof (Z.div_mod k s ltac:(lia)) as D'.
  pose proof (Z.mod_pos_bound k s ltac:(lia)) as M'.
  set (f := (k / s)%Z) in *.
  assert (Hfc : (c = f \/ c = f + 1)%Z) by nia.
  split.
  - apply Z.div_le_lower_bound; [lia|]. destruct Hfc as [Hc|Hc].
    + assert (k mod s = 0)%Z by nia. nia.
    + assert (0 < k mod s)%Z by nia. nia.
  - apply Z.lt_succ_r. apply Z.div_lt_upper_bound; [lia|]. nia.
Qed.

Lemma cdiv_near : forall k s, (1 <= s)%Z -> (k / s <= cdiv k s <= k / s + 1)%Z.
Proof.
  intros k s Hs. rewrite cdiv_Z by lia.
  pose proof (Z.div_mod (k + s - 1) s ltac:(lia)) as D.
  pose proof (Z.mod_pos_bound (k + s - 1) s ltac:(lia)) as M.
  pose proof (Z.div_mod k s ltac:(lia)) as D'.
  pose proof (Z.mod_pos_bound k s ltac:(lia)) as M'.
  nia.
Qed.

Lemma slot_even : forall slotIndex slots rem ks style,
  (slotIndex < slots)%nat -> (Z.of_nat slots < 2 * 10 ^ 10)%Z ->
  wholes N rem ks -> Forall (fun k => 0 <= k)%Z ks ->
  exists phys props ts,
    get_parallels_proportions slotIndex slots N rem style 1 None = Ok (phys, props) /\
    wholes N props ts /\ Forall2 between ts ks /\ phys = Zsum ts /\
    match style with
    | WIND_BY_CONSECUTIVE_TURNS => phys = cdiv (Zsum ks) (Z.of_nat (slots - slotIndex))
    | WIND_BY_CONSECUTIVE_PARALLELS => ts = map (fun k => cdiv k (Z.of_nat (slots - slotIndex))) ks
    end.
Proof.
  intros slotIndex slots rem ks style Hs Hbig Hw Hk.
  destruct (slot_none slotIndex slots rem ks style 1 Hs Hw Hk ltac:(lra))
    as (phys & props & ts & E & Hp & Hb & Hph & _).
  exists phys, props, ts. split; [exact E|]. split; [assumption|]. split; [assumption|].
  split; [assumption|].
  assert (Es : (Z.of_nat slots - Z.of_nat slotIndex = Z.of_nat (slots - slotIndex))%Z) by lia.
  unfold get_parallels_proportions in E.
  destruct (Nat.leb_spec slots slotIndex); [lia|]. destruct (Z.leb_spec N 0); [lia|]. cbn [orb] in E.
  rewrite Es in E. set (s := Z.of_nat (slots - slotIndex)) in *.
  assert (Hs1 : (1 <= s < 2 * 10 ^ 10)%Z) by (unfold s; lia).
  destruct style.
  - rewrite (wholes_map _ _ Hw), zsum_Zsum in E.
    destruct (fill_consecutive _ _ _); try discriminate. cbn [bind] in E. injection E as E _.
    rewrite <- E. unfold cdiv.
    rewrite (Qceiling_comp (inject_Z (Zsum ks) / inject_Z s * 1) (inject_Z (Zsum ks) / inject_Z s)) by ring.
    apply Z.min_r. fold (cdiv (Zsum ks) s). rewrite cdiv_Z by lia.
    assert (0 <= Zsum ks)%Z by now apply Zsum_nonneg.
    apply Z.lt_succ_r. apply Z.div_lt_upper_bound; [lia|]. nia.
  - injection E as E1 E2.
    destruct (even_split_all s 1 rem ks) as [A B]; [lia|lra|assumption|assumption|].
    rewrite E2 in B.
    assert (ts = map (even_add s 1) ks) by (rewrite <- (wholes_map _ _ Hp), <- (wholes_map _ _ B); reflexivity).
    rewrite H1. apply map_ext_in. intros k Hin. rewrite Forall_forall in Hk. apply even_add_1; auto.
Qed.

Lemma nth_map0 : forall (f : Z -> Z) l p, f 0%Z = 0%Z -> nth p (map f l) 0%Z = f (nth p l 0%Z).
Proof. induction l; destruct p; simpl; intros; auto. Qed.

Definition turns_in (p : nat) (o : Z * list Q) : Z := whole_turns N (nth p (snd o) 0).

Lemma wholes_nth : forall l ts p, wholes N l ts -> is_whole N (nth p l 0) (nth p ts 0%Z).
Proof.
  induction l; intros ts p H; inversion H; subst; destruct p; simpl; try apply zero_whole; auto.
Qed.

Lemma split_balanced : forall n slotIndex slots rem ks style out final,
  (slotIndex + n = slots)%nat -> (Z.of_nat slots < 2 * 10 ^ 10)%Z ->
  wholes N rem ks -> Forall (fun k => 0 <= k)%Z ks ->
  split_slots slotIndex slots N rem style (repeat (1, None) n) = Ok (out, final) ->
  match style with
  | WIND_BY_CONSECUTIVE_TURNS =>
      Forall (fun o => Zsum ks / Z.of_nat n <= fst o <= cdiv (Zsum ks) (Z.of_nat n))%Z out
  | WIND_BY_CONSECUTIVE_PARALLELS =>
      Forall (fun o => forall p, nth p ks 0 / Z.of_nat n <= turns_in p o <= cdiv (nth p ks 0%Z) (Z.of_nat n))%Z out
  end.
Proof.
  induction n as [|n IH]; intros slotIndex slots rem ks style out final Hlen Hbig Hw Hk E.
  - simpl in E. injection E as <- <-. destruct style; constructor.
  - destruct (slot_even slotIndex slots rem ks style) as (phys & props & ts & E1 & Hp & Hb & Hph & Hst);
      try assumption; [lia|].
    cbn [repeat split_slots] in E. rewrite E1 in E. cbn [bind] in E.
    destruct (split_slots (S slotIndex) slots N _ style (repeat (1, None) n)) as [[out' fin']| | |] eqn:E2;
      try discriminate. cbn [bind] in E. injection E as <- <-.
    pose proof (between_length _ _ Hb) as Hlts.
    specialize (IH (S slotIndex) slots _ (zsub ks ts) _ _ _ ltac:(lia) Hbig (sub_wholes _ _ _ _ Hw Hp Hb) (sub_nonneg _ _ Hb) E2).
    replace (slots - slotIndex)%nat with (S n) in Hst by lia.
    assert (K0 : forall k s, (0 <= k)%Z -> (1 <= s)%Z -> (k / s <= cdiv k s)%Z) by (intros; apply cdiv_near; lia).
    destruct style.
    + assert (0 <= Zsum ks)%Z by now apply Zsum_nonneg.
      constructor; [cbn [fst]; rewrite Hst; split; [apply K0; lia|lia]|].
      destruct n as [|n'].
      { simpl in E2. injection E2 as <- <-. constructor. }
      rewrite Zsum_zsub in IH by now symmetry. rewrite <- Hph, Hst in IH.
      pose proof (cdiv_next (Zsum ks) (Z.of_nat (S (S n'))) ltac:(lia) ltac:(lia)) as C.
      replace (Z.of_nat (S (S n')) - 1)%Z with (Z.of_nat (S n')) in C by lia.
      eapply Forall_impl; [|exact IH]. cbn beta. intros o Ho. lia.
    + constructor.
      { intros p. unfold turns_in. cbn [snd].
        rewrite (whole_turns_whole _ _ (wholes_nth _ _ p Hp)). rewrite Hst.
        assert (Hkp : (0 <= nth p ks 0)%Z).
        { destruct (nth_in_or_default p ks 0%Z) as [Hi|Hi]; [|lia]. rewrite Forall_forall in Hk. auto. }
        assert (Ec : cdiv 0 (Z.of_nat (S n)) = 0%Z).
        { rewrite cdiv_Z by lia. apply Z.div_small. lia. }
        assert (Et : nth p (map (fun k => cdiv k (Z.of_nat (S n))) ks) 0%Z = cdiv (nth p ks 0%Z) (Z.of_nat (S n))).
        { now apply nth_map0. }
        rewrite Et. clear -K0 Hkp.
        split; [apply K0; lia|apply Z.le_refl]. }
      destruct n as [|n'].
      { simpl in E2. injection E2 as <- <-. constructor. }
      eapply Forall_impl; [|exact IH]. cbn beta. intros o Ho p. specialize (Ho p).
      rewrite zsub_nth in Ho by now symmetry.
      assert (Hkp : (0 <= nth p ks 0)%Z).
      { destruct (nth_in_or_default p ks 0%Z) as [Hi|Hi]; [|lia]. rewrite Forall_forall in Hk. auto. }
      assert (Ec : cdiv 0 (Z.of_nat (S (S n'))) = 0%Z).
      { rewrite cdiv_Z by lia. apply Z.div_small. lia. }
      assert (Et : nth p ts 0%Z = cdiv (nth p ks 0%Z) (Z.of_nat (S (S n')))).
      { rewrite Hst. now apply (nth_map0 (fun k => cdiv k (Z.of_nat (S (S n'))))). }
      rewrite Et in Ho.
      pose proof (cdiv_next (nth p ks 0%Z) (Z.of_nat (S (S n'))) ltac:(lia) ltac:(lia)) as C.
      replace (Z.of_nat (S (S n')) - 1)%Z with (Z.of_nat (S n')) in C by lia.
      lia.
Qed.

End WithN.

(** ** Interleaved windings are wound as each would be alone *)
Definition of_winding {A : Type} (w : nat) (l : list (nat * A)) : list A :=
  map snd (filter (fun x => Nat.eqb (fst x) w) l).

Lemma upd_same : forall (A : Type) (f : nat -> A) w x, upd f w x w = x.
Proof. intros. unfold upd. now rewrite Nat.eqb_refl. Qed.
Lemma upd_other : forall (A : Type) (f : nat -> A) w x v, v <> w -> upd f w x v = f v.
Proof. intros. unfold upd. destruct (Nat.eqb_spec v w); congruence. Qed.

Lemma wind_sections_each : forall coil sections rem cur,
  (forall w, exists out final,
     split_slots (cur w) (sections_of (coil w)) (turns (coil w)) (rem w) (style (coil w))
       (map (fun r => (r, None)) (of_winding w sections)) = Ok (out, final)) ->
  exists out final, wind_sections coil rem cur sections = Ok (out, final) /\
    map fst out = map fst sections /\
    forall w, split_slots (cur w) (sections_of (coil w)) (turns (coil w)) (rem w) (style (coil w))
       (map (fun r => (r, None)) (of_winding w sections)) = Ok (of_winding w out, final w).
Proof.
  intros coil sections. induction sections as [|[w rel] rest IH]; intros rem cur H.
  - exists [], rem. split; [reflexivity|]. split; [reflexivity|]. intros w. reflexivity.
  - pose proof (H w) as (ow & fw & Ew). unfold of_winding in Ew. cbn [filter fst] in Ew.
    rewrite Nat.eqb_refl in Ew. cbn [map snd split_slots] in Ew. cbn [wind_sections].
    destruct (get_parallels_proportions (cur w) _ _ _ _ rel None) as [[phys props]| | |] eqn:E; try discriminate.
    cbn [bind] in *.
    destruct (IH (upd rem w (map (fun '(a, b) => a - b) (combine (rem w) props))) (upd cur w (S (cur w))))
      as (out & final & E' & Hm & He).
    + intros v. destruct (Nat.eq_dec v w) as [->|Hv].
      * rewrite !upd_same. unfold of_winding.
        destruct (split_slots (S (cur w)) _ _ _ _ _) as [[o f]| | |]; try discriminate. eauto.
      * rewrite !upd_other by assumption. destruct (H v) as (o & f & Ev).
        unfold of_winding in Ev. cbn [filter fst] in Ev.
        destruct (Nat.eqb_spec w v); [congruence|]. eauto.
    + exists ((w, (phys, props)) :: out), final.
      rewrite E'. cbn [bind]. split; [reflexivity|]. split; [simpl; now rewrite Hm|].
      intros v. specialize (He v). unfold of_winding in *. cbn [filter fst].
      destruct (Nat.eqb_spec w v) as [->|Hv].
      * rewrite !upd_same in He. cbn [map snd split_slots]. rewrite E. cbn [bind]. rewrite He. reflexivity.
      * rewrite !upd_other in He by auto. exact He.
Qed.

Lemma fresh_wholes : forall N p, (0 < N)%Z -> wholes N (repeat 1 p) (repeat N p).
Proof.
  intros N p HN. pose proof (NQ N HN) as P. induction p; simpl; constructor; [|assumption].
  unfold is_whole. field. lra.
Qed.

Lemma Forall_repeat : forall (A : Type) (P : A -> Prop) x n, P x -> Forall P (repeat x n).
Proof. induction n; simpl; constructor; auto. Qed.

Lemma nth_repeat_lt : forall (A : Type) (x d : A) n p, (p < n)%nat -> nth p (repeat x n) d = x.
Proof. induction n; intros p H; [lia|]. destruct p; simpl; [reflexivity|]. apply IHn. lia. Qed.

Lemma Zsum_repeat : forall x n, Zsum (repeat x n) = (x * Z.of_nat n)%Z.
Proof. induction n; [simpl; lia|]. change (repeat x (S n)) with (x :: repeat x n). cbn [Zsum]. rewrite IHn. lia. Qed.

Lemma roundFloat_zero : forall r, r == 0 -> roundFloat r 9 == 0.
Proof.
  intros r H. unfold roundFloat. rewrite (qround_comp (r * p10 9) (inject_Z 0)).
  - rewrite qround_Z. reflexivity.
  - rewrite H. reflexivity.
Qed.

Lemma zero_wholes : forall N l ks, (0 < N)%Z -> wholes N l ks -> Forall (fun k => k = 0%Z) ks -> Forall (fun r => r == 0) l.
Proof.
  intros N l ks HN H. pose proof (NQ N HN). induction H; intros Hk; inversion Hk; subst; constructor; auto.
  unfold is_whole in H. rewrite H. change (inject_Z 0) with 0. field. lra.
Qed.

Lemma zero_list_checks : forall l, Forall (fun r => r == 0) l ->
  forallb (fun r => Qeq_bool (roundFloat r 9) 0) l = true.
Proof.
  intros l H. apply forallb_forall. intros r Hin. rewrite Forall_forall in H.
  apply Qeq_bool_iff. apply roundFloat_zero. auto.
Qed.

Lemma Qsum_wholes : forall N l ts, (0 < N)%Z -> wholes N l ts -> inject_Z N * Qsum l == inject_Z (Zsum ts).
Proof.
  intros N l ts HN H. pose proof (NQ N HN). induction H; simpl; [ring|].
  rewrite inject_Z_plus, <- IHForall2. unfold is_whole in H. rewrite H. field. lra.
Qed.

Lemma Qsum_column : forall N out tss p, (0 < N)%Z -> Forall2 (slot_got N) out tss ->
  inject_Z N * Qsum (map (fun o => nth p (snd o) 0) out) == inject_Z (Zsum (map (fun ts => nth p ts 0%Z) tss)).
Proof.
  intros N out tss p HN H. pose proof (NQ N HN). induction H as [|o ts out tss Hg _ IH]; simpl; [ring|].
  rewrite inject_Z_plus, <- IH. destruct Hg as (Hw & _).
  pose proof (wholes_nth N HN _ _ p Hw) as E. unfold is_whole in E. rewrite E. field. lra.
Qed.

Lemma nth_level : forall n l p, (0 <= n)%Z -> nth p (level n l) 0%Z = Z.min n (nth p l 0%Z).
Proof. intros. unfold level. rewrite nth_map0; [reflexivity|]. lia. Qed.

Lemma rr_result_nth : forall i m avail p, (0 <= m)%Z ->
  nth p (level (m + 1) (firstn i avail) ++ level m (skipn i avail)) 0%Z = Z.min m (nth p avail 0%Z) \/
  nth p (level (m + 1) (firstn i avail) ++ level m (skipn i avail)) 0%Z = Z.min (m + 1) (nth p avail 0%Z).
Proof.
  induction i; intros m avail p Hm; simpl.
  - left. now apply nth_level.
  - destruct avail as [|a t]; simpl; [left; destruct p; lia|].
    destruct p; simpl; [right; reflexivity|]. apply IHi. assumption.
Qed.

Lemma slot_round_robin : forall N slotIndex slots rem ks rel a, (0 < N)%Z ->
  (slotIndex < slots)%nat -> wholes N rem ks -> Forall (fun k => 0 <= k)%Z ks -> (0 <= a)%Z ->
  exists phys props ts,
    get_parallels_proportions slotIndex slots N rem WIND_BY_CONSECUTIVE_PARALLELS rel (Some a) = Ok (phys, props) /\
    wholes N props ts /\ Forall2 between ts ks /\ phys = Zsum ts /\ phys = Z.min a (Zsum ks) /\
    forall p q, (nth p ts 0 < nth p ks 0 -> nth q ts 0 <= nth p ts 0 + 1)%Z.
Proof.
  intros N slotIndex slots rem ks rel a HN Hs Hw Hk Ha.
  unfold get_parallels_proportions.
  destruct (Nat.leb_spec slots slotIndex); [lia|]. destruct (Z.leb_spec N 0); [lia|]. cbn [orb].
  rewrite (wholes_map N HN _ _ Hw).
  rewrite (map_const_length _ _ _ 0%Z rem ks) by (eapply wholes_length; eassumption).
  rewrite <- level_zero by assumption.
  destruct (rr_loop_spec (S (Z.to_nat a)) ks 0 a Hk) as (i & m & E & Hm & Sx).
  - lia.
  - rewrite level_zero by assumption. rewrite Zsum_zeros. lia.
  - rewrite level_zero by assumption. rewrite Zsum_zeros. lia.
  - assert (Z0 : Zsum (level 0 ks) = 0%Z) by (rewrite level_zero by assumption; apply Zsum_zeros).
    rewrite Z0 in E. rewrite E. cbn [bind].
    eexists. eexists. exists (level (m + 1) (firstn i ks) ++ level m (skipn i ks))%list.
    split; [reflexivity|]. split; [now apply wholes_of_Z|]. split; [now apply rr_result_between|].
    split; [reflexivity|]. split; [assumption|].
    intros p q Hp. destruct (rr_result_nth i m ks p Hm) as [Ep|Ep];
      destruct (rr_result_nth i m ks q Hm) as [Eq|Eq]; rewrite Ep, Eq in *; lia.
Qed.

Lemma zero_ts : forall N (rem : list Q) ts, (0 < N)%Z -> wholes N (map (fun _ => 0) rem) ts ->
  ts = map (fun _ => 0%Z) ts.
Proof.
  intros N rem ts HN. revert ts. induction rem; intros ts Ht; inversion Ht; subst; simpl; [reflexivity|].
  f_equal; [|now apply IHrem]. symmetry.
  rewrite <- (whole_turns_whole N HN _ _ H1). rewrite (whole_turns_whole N HN _ 0%Z (zero_whole N HN)). reflexivity.
Qed.

(* consecutive turns: earlier parallels are exhausted before a later one is touched *)
Lemma fill_in_order : forall N rem ks left l ts, (0 < N)%Z ->
  wholes N rem ks -> Forall (fun k => 0 <= k)%Z ks -> (0 <= left)%Z ->
  fill_consecutive N left rem = Ok l -> wholes N l ts ->
  forall p q, (p < q)%nat -> (0 < nth q ts 0)%Z -> nth p ts 0%Z = nth p ks 0%Z.
Proof.
  intros N rem ks left l ts HN Hw. revert left l ts.
  induction Hw as [|r k rem ks Hr Hw IH]; intros left l ts Hk Hl E Ht p q Hpq Hq.
  - simpl in E. destruct (Z.leb_spec left 0); [|discriminate]. injection E as <-.
    inversion Ht; subst. destruct q; simpl in Hq; lia.
  - inversion Hk; subst. cbn [fill_consecutive] in E.
    destruct (Z.leb_spec left 0).
    + injection E as <-.
      assert (Zs : ts = map (fun _ => 0%Z) ts).
      { apply (zero_ts N (r :: rem)); assumption. }
      rewrite Zs in Hq. rewrite nth_map0 in Hq by reflexivity. lia.
    + rewrite (whole_turns_whole N HN _ _ Hr) in E. destruct (Z.leb_spec k left).
      * destruct (fill_consecutive N (left - k) rem) as [l'| | |] eqn:E'; try discriminate.
        cbn [bind] in E. injection E as <-. inversion Ht as [|? ? ? ts' Ht1 Ht2]; subst.
        assert (y = k).
        { pose proof (whole_turns_whole N HN _ _ Ht1) as A.
          rewrite (whole_turns_whole N HN (inject_Z k / inject_Z N) k) in A by (unfold is_whole; reflexivity). now symmetry. }
        destruct q as [|q]; [lia|]. destruct p as [|p]; simpl in *; [assumption|].
        apply (IH (left - k)%Z l' ts') with (q := q); try assumption; lia.
      * injection E as <-. inversion Ht as [|? ? ? ts' Ht1 Ht2]; subst.
        destruct q as [|q]; [lia|]. simpl in Hq. exfalso.
        assert (Zs : ts' = map (fun _ => 0%Z) ts').
        { apply (zero_ts N rem); assumption. }
        rewrite Zs in Hq. rewrite nth_map0 in Hq by reflexivity. lia.
Qed.
