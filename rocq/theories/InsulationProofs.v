(** Lemmas about the insulation model: interpolation and look-ups, the search
    for the thickness of solid insulation, the fold over the standards. *)
From Coq Require Import ZArith QArith Qround Qabs List String Bool Lia Lqa Sorting.Sorted Sorting.Permutation.
From Verif Require Import Base QAux InsulationModel.
Import ListNotations.
Open Scope Q_scope.

(** ** Tables *)

Definition ascending (t : table) : Prop := StronglySorted (fun r s => fst r < fst s) t.
Definition nondecreasing (t : table) : Prop := StronglySorted (fun r s => snd r <= snd s) t.

Lemma Qle_true : forall a b, Qle_bool a b = true -> a <= b.
Proof. intros a b H. now apply Qle_bool_iff. Qed.
Lemma Qle_false : forall a b, Qle_bool a b = false -> b < a.
Proof.
  intros a b H. apply Qnot_le_lt. intro L. apply Qle_bool_iff in L. congruence.
Qed.
Lemma Qle_yes : forall a b, a <= b -> Qle_bool a b = true.
Proof. intros a b H. now apply Qle_bool_iff. Qed.
Lemma Qle_no : forall a b, b < a -> Qle_bool a b = false.
Proof.
  intros a b H. destruct (Qle_bool a b) eqn:E; [|reflexivity].
  apply Qle_true in E. lra.
Qed.
Lemma Qlt_yes : forall a b, a < b -> Qlt_bool a b = true.
Proof. intros a b H. unfold Qlt_bool. now rewrite Qle_no. Qed.
Lemma Qlt_no : forall a b, b <= a -> Qlt_bool a b = false.
Proof. intros a b H. unfold Qlt_bool. now rewrite Qle_yes. Qed.
Lemma Qlt_true : forall a b, Qlt_bool a b = true -> a < b.
Proof.
  intros a b H. unfold Qlt_bool in H. apply negb_true_iff in H. now apply Qle_false.
Qed.
Lemma Qlt_false : forall a b, Qlt_bool a b = false -> b <= a.
Proof.
  intros a b H. unfold Qlt_bool in H. apply negb_false_iff in H. now apply Qle_true.
Qed.

Ltac dle a b :=
  let E := fresh "E" in
  destruct (Qle_bool a b) eqn:E; [apply Qle_true in E | apply Qle_false in E].
Ltac dlt a b :=
  let E := fresh "E" in
  destruct (Qlt_bool a b) eqn:E; [apply Qlt_true in E | apply Qlt_false in E].

Lemma last_cons_cons : forall (A : Type) (a b : A) l d, last (a :: b :: l) d = last (b :: l) d.
Proof. reflexivity. Qed.

Lemma last_default : forall (A : Type) (l : list A) d e, l <> [] -> last l d = last l e.
Proof.
  induction l as [|a l IH]; intros d e N; [congruence|].
  destruct l as [|b l]; [reflexivity|]. rewrite !last_cons_cons. apply IH. discriminate.
Qed.

Lemma last_In : forall (A : Type) (l : list A) d, l <> [] -> In (last l d) l.
Proof.
  induction l as [|a l IH]; intros d N; [congruence|].
  destruct l as [|b l]; [left; reflexivity|]. rewrite last_cons_cons. right. apply IH. discriminate.
Qed.

(** *** The bracketing rows *)

Lemma bracket_cons : forall r s t x, bracket (r :: s :: t) x =
  if Qle_bool (fst r) x && Qle_bool x (fst s)
  then lerp (snd r) (snd s) ((x - fst r) / (fst s - fst r))
  else bracket (s :: t) x.
Proof. reflexivity. Qed.

Lemma bracket_found : forall t x d,
  (2 <= List.length t)%nat -> fst (hd d t) <= x -> x <= fst (last t d) ->
  exists pre r s post, t = pre ++ r :: s :: post /\ fst r <= x /\ x <= fst s /\
    bracket t x = lerp (snd r) (snd s) ((x - fst r) / (fst s - fst r)).
Proof.
  induction t as [|r t IH]; intros x d L A B; [simpl in L; lia|].
  destruct t as [|s t]; [simpl in L; lia|].
  cbn [hd] in A. rewrite last_cons_cons in B.
  rewrite !(bracket_cons r). rewrite (Qle_yes _ _ A). cbn [andb].
  dle x (fst s).
  - exists [], r, s, t. repeat split; assumption.
  - destruct t as [|u t].
    + cbn [last] in B. lra.
    + destruct (IH x d) as (pre & a & b & post & Eq & P & Q & V).
      * simpl. lia.
      * cbn [hd]. lra.
      * exact B.
      * exists (r :: pre), a, b, post. split; [rewrite Eq; reflexivity|].
        repeat split; assumption.
Qed.

Lemma lerp_between : forall a b t, a <= b -> 0 <= t -> t <= 1 -> a <= lerp a b t /\ lerp a b t <= b.
Proof. intros a b t H P Q. unfold lerp. split; nra. Qed.

Lemma proportion_bounds : forall x0 x1 x, x0 < x1 -> x0 <= x -> x <= x1 ->
  0 <= (x - x0) / (x1 - x0) /\ (x - x0) / (x1 - x0) <= 1.
Proof.
  intros x0 x1 x H P Q. assert (D : 0 < x1 - x0) by lra. split.
  - rewrite (Qle_div_iff _ _ _ D). lra.
  - rewrite (Qdiv_le_iff _ _ _ D). lra.
Qed.

Lemma proportion_mono : forall x0 x1 x y, x0 < x1 -> x <= y ->
  (x - x0) / (x1 - x0) <= (y - x0) / (x1 - x0).
Proof.
  intros x0 x1 x y H P. assert (D : 0 < x1 - x0) by lra.
  rewrite (Qdiv_le_iff _ _ _ D).
  assert (E : (y - x0) / (x1 - x0) * (x1 - x0) == y - x0) by (field; lra).
  rewrite E. lra.
Qed.

Lemma ascending_tail : forall r t, ascending (r :: t) -> ascending t.
Proof. intros r t H. inversion H; assumption. Qed.
Lemma nondecreasing_tail : forall r t, nondecreasing (r :: t) -> nondecreasing t.
Proof. intros r t H. inversion H; assumption. Qed.
Lemma ascending_head : forall r s t, ascending (r :: t) -> In s t -> fst r < fst s.
Proof.
  intros r s t H I. inversion H as [|? ? _ F]; subst.
  rewrite Forall_forall in F. now apply F.
Qed.
Lemma nondecreasing_head : forall r s t, nondecreasing (r :: t) -> In s t -> snd r <= snd s.
Proof.
  intros r s t H I. inversion H as [|? ? _ F]; subst.
  rewrite Forall_forall in F. now apply F.
Qed.

Lemma bracket_lower : forall (t : list row) x (r : row), ascending (r :: t) -> nondecreasing (r :: t) -> t <> [] ->
  fst r <= x -> x <= fst (last (r :: t) r) -> snd r <= bracket (r :: t) x.
Proof.
  induction t as [|s t IH]; intros x r A N NE L U; [congruence|].
  rewrite last_cons_cons in U.
  pose proof (ascending_head _ s _ A (or_introl eq_refl)) as LT.
  pose proof (nondecreasing_head _ s _ N (or_introl eq_refl)) as LE.
  rewrite !(bracket_cons r). rewrite (Qle_yes _ _ L). cbn [andb]. dle x (fst s).
  - destruct (proportion_bounds _ _ _ LT L E) as (P & Q).
    apply (lerp_between _ _ _ LE P Q).
  - destruct t as [|u t]; [cbn [last] in U; lra|].
    assert (U' : x <= fst (last (s :: u :: t) s))
      by (rewrite (last_default _ _ s r); [exact U | discriminate]).
    assert (H : snd s <= bracket (s :: u :: t) x).
    { apply IH; [eapply ascending_tail; exact A | eapply nondecreasing_tail; exact N
                | discriminate | lra | exact U']. }
    lra.
Qed.

Lemma bracket_mono : forall (t : list row) x y (r : row), ascending (r :: t) -> nondecreasing (r :: t) -> t <> [] ->
  fst r <= x -> x <= y -> y <= fst (last (r :: t) r) ->
  bracket (r :: t) x <= bracket (r :: t) y.
Proof.
  induction t as [|s t IH]; intros x y r A N NE L XY U; [congruence|].
  rewrite last_cons_cons in U.
  pose proof (ascending_head _ s _ A (or_introl eq_refl)) as LT.
  pose proof (nondecreasing_head _ s _ N (or_introl eq_refl)) as LE.
  rewrite !(bracket_cons r). rewrite (Qle_yes _ _ L). rewrite (Qle_yes (fst r) y) by lra. cbn [andb].
  dle x (fst s).
  - dle y (fst s).
    + pose proof (proportion_mono (fst r) (fst s) x y LT XY) as P. unfold lerp.
      set (p := (x - fst r) / (fst s - fst r)) in *. set (q := (y - fst r) / (fst s - fst r)) in *.
      clearbody p q. nra.
    + destruct t as [|u t]; [cbn [last] in U; lra|].
      assert (U' : y <= fst (last (s :: u :: t) s))
        by (rewrite (last_default _ _ s r); [exact U | discriminate]).
      assert (H : snd s <= bracket (s :: u :: t) y).
      { apply bracket_lower; [eapply ascending_tail; exact A | eapply nondecreasing_tail; exact N
                             | discriminate | lra | exact U']. }
      destruct (proportion_bounds _ _ _ LT L E) as (P & Q).
      pose proof (proj2 (lerp_between _ _ _ LE P Q)). lra.
  - rewrite (Qle_no y (fst s)) by lra.
    destruct t as [|u t]; [cbn [last] in U; lra|].
    apply IH; [eapply ascending_tail; exact A | eapply nondecreasing_tail; exact N
              | discriminate | lra | exact XY |].
    rewrite (last_default _ _ s r); [exact U | discriminate].
Qed.

(** *** The interpolation *)

Definition usable (t : table) : Prop := (2 <= List.length t)%nat /\ ascending t.

Lemma interp_total : forall t x, t <> [] -> exists y, interp t x = Ok y.
Proof.
  intros [|r t] x N; [congruence|]. unfold interp.
  destruct (Qlt_bool _ x).
  - destruct (Nat.ltb _ 2); eexists; reflexivity.
  - destruct (Qlt_bool x _); eexists; reflexivity.
Qed.

Lemma removelast_app2 : forall (A : Type) (l : list A) a b, removelast (l ++ [a; b]) = l ++ [a].
Proof.
  intros A l a b. change [a; b] with ([a] ++ [b]). rewrite app_assoc. apply removelast_last.
Qed.

Lemma two_last : forall (t : table), (2 <= List.length t)%nat ->
  exists l a b, t = l ++ [a; b].
Proof.
  intros t L. destruct (rev t) as [|b u] eqn:E.
  - apply (f_equal (@List.length _)) in E. rewrite rev_length in E. simpl in E. lia.
  - destruct u as [|a u].
    + apply (f_equal (@List.length _)) in E. rewrite rev_length in E. simpl in E. lia.
    + exists (rev u), a, b. rewrite <- (rev_involutive t), E. simpl.
      rewrite <- app_assoc. reflexivity.
Qed.

Lemma ascending_app_r : forall l m, ascending (l ++ m) -> ascending m.
Proof. induction l as [|a l IH]; intros m H; [exact H|]. apply IH. eapply ascending_tail. exact H. Qed.
Lemma nondecreasing_app_r : forall l m, nondecreasing (l ++ m) -> nondecreasing m.
Proof. induction l as [|a l IH]; intros m H; [exact H|]. apply IH. eapply nondecreasing_tail. exact H. Qed.

Lemma last_app2 : forall (A : Type) (l : list A) a b d, last (l ++ [a; b]) d = b.
Proof.
  intros A l a b d. change [a; b] with ([a] ++ [b]). rewrite app_assoc. apply last_last.
Qed.

(** Above the last row. *)
Lemma interp_above : forall (l : list row) (a b : row) x, fst b < x ->
  interp (l ++ [a; b]) x = Ok ((x - fst b) * ((snd b - snd a) / (fst b - fst a)) + snd b).
Proof.
  intros l a b x H. unfold interp.
  destruct (l ++ [a; b]) as [|f u] eqn:E; [destruct l; discriminate|]. rewrite <- E.
  rewrite last_app2, (Qlt_yes _ _ H), removelast_app2, last_last.
  destruct (Nat.ltb_spec (List.length (l ++ [a; b])) 2) as [K|K]; [|reflexivity].
  rewrite app_length in K. simpl in K. lia.
Qed.

Lemma interp_inside : forall (r : row) (t : list row) x, fst r <= x -> x <= fst (last (r :: t) r) ->
  interp (r :: t) x = Ok (bracket (r :: t) x).
Proof.
  intros r t x L U. unfold interp. rewrite (Qlt_no _ _ U), (Qlt_no _ _ L). reflexivity.
Qed.

Lemma interp_below : forall (r : row) (t : list row) x, x < fst r -> fst r <= fst (last (r :: t) r) ->
  interp (r :: t) x = Ok (snd r).
Proof.
  intros r t x L U. unfold interp.
  rewrite (Qlt_no (fst (last (r :: t) r)) x) by lra. rewrite (Qlt_yes _ _ L). reflexivity.
Qed.

Lemma ascending_last : forall (r : row) (t : list row), ascending (r :: t) -> fst r <= fst (last (r :: t) r).
Proof.
  intros r t A. destruct t as [|s t]; [apply Qle_refl|].
  rewrite last_cons_cons.
  pose proof (last_In _ (s :: t) r ltac:(discriminate)) as I.
  pose proof (ascending_head _ _ _ A I). lra.
Qed.

Lemma nondecreasing_last : forall (r : row) (t : list row), nondecreasing (r :: t) -> snd r <= snd (last (r :: t) r).
Proof.
  intros r t A. destruct t as [|s t]; [apply Qle_refl|].
  rewrite last_cons_cons.
  pose proof (last_In _ (s :: t) r ltac:(discriminate)) as I.
  exact (nondecreasing_head _ _ _ A I).
Qed.

Lemma bracket_upper : forall (t : list row) x (r : row), ascending (r :: t) -> nondecreasing (r :: t) -> t <> [] ->
  fst r <= x -> x <= fst (last (r :: t) r) -> bracket (r :: t) x <= snd (last (r :: t) r).
Proof.
  induction t as [|s t IH]; intros x r A N NE L U; [congruence|].
  rewrite last_cons_cons in *.
  pose proof (ascending_head _ s _ A (or_introl eq_refl)) as LT.
  pose proof (nondecreasing_head _ s _ N (or_introl eq_refl)) as LE.
  pose proof (nondecreasing_tail _ _ N) as N'. pose proof (ascending_tail _ _ A) as A'.
  rewrite !(bracket_cons r). rewrite (Qle_yes _ _ L). cbn [andb]. dle x (fst s).
  - destruct (proportion_bounds _ _ _ LT L E) as (P & Q).
    pose proof (proj2 (lerp_between _ _ _ LE P Q)).
    pose proof (nondecreasing_last _ _ N') as W.
    rewrite (last_default _ _ s r) in W by discriminate. lra.
  - destruct t as [|u t]; [cbn [last] in U; lra|].
    rewrite (last_default _ (s :: u :: t) r s) by discriminate.
    apply IH; [exact A' | exact N' | discriminate | lra |].
    rewrite (last_default _ _ s r); [exact U | discriminate].
Qed.

Lemma last_cons_app2 : forall (A : Type) (r : A) t l a b,
  r :: t = l ++ [a; b] -> last (r :: t) r = b.
Proof. intros A r t l a b ->. apply last_app2. Qed.

Lemma slope_nonneg : forall a b : row, fst a < fst b -> snd a <= snd b ->
  0 <= (snd b - snd a) / (fst b - fst a).
Proof.
  intros a b H K. assert (D : 0 < fst b - fst a) by lra.
  rewrite (Qle_div_iff _ _ _ D). lra.
Qed.

Lemma interp_mono : forall t x y vx vy, usable t -> nondecreasing t -> x <= y ->
  interp t x = Ok vx -> interp t y = Ok vy -> vx <= vy.
Proof.
  intros t x y vx vy (L & A) N XY HX HY.
  destruct (two_last t L) as (l & a & b & E).
  assert (AB : fst a < fst b).
  { rewrite E in A. apply ascending_app_r in A. apply (ascending_head _ _ _ A). left. reflexivity. }
  assert (SB : snd a <= snd b).
  { rewrite E in N. apply nondecreasing_app_r in N. apply (nondecreasing_head _ _ _ N). left. reflexivity. }
  pose proof (slope_nonneg a b AB SB) as SL.
  destruct t as [|r t]; [simpl in L; lia|].
  pose proof (last_cons_app2 _ _ _ _ _ _ E) as LB.
  pose proof (ascending_last _ _ A) as FL. pose proof (nondecreasing_last _ _ N) as SLs.
  assert (NE : t <> []) by (destruct t; [simpl in L; lia | discriminate]).
  rewrite LB in FL, SLs.
  assert (ABOVE : forall z, fst b < z ->
     interp (r :: t) z = Ok ((z - fst b) * ((snd b - snd a) / (fst b - fst a)) + snd b)).
  { intros z Hz. rewrite E. apply interp_above. exact Hz. }
  set (k := (snd b - snd a) / (fst b - fst a)) in *. clearbody k.
  assert (IN : forall z, fst r <= z -> z <= fst b -> interp (r :: t) z = Ok (bracket (r :: t) z)).
  { intros z P Q. apply interp_inside; [exact P | rewrite LB; exact Q]. }
  assert (BE : forall z, z < fst r -> interp (r :: t) z = Ok (snd r)).
  { intros z P. apply interp_below; [exact P | rewrite LB; exact FL]. }
  destruct (Qlt_le_dec (fst b) x) as [HX1|HX1].
  { rewrite (ABOVE x HX1) in HX. rewrite (ABOVE y) in HY by lra.
    injection HX as <-. injection HY as <-. nra. }
  destruct (Qlt_le_dec (fst b) y) as [HY1|HY1].
  { rewrite (ABOVE y HY1) in HY. injection HY as <-.
    assert (T : snd b <= (y - fst b) * k + snd b) by nra.
    destruct (Qlt_le_dec x (fst r)) as [HX2|HX2].
    - rewrite (BE x HX2) in HX. injection HX as <-. lra.
    - rewrite (IN x HX2 HX1) in HX. injection HX as <-.
      pose proof (bracket_upper t x r A N NE HX2) as BU. rewrite LB in BU. specialize (BU HX1).
      eapply Qle_trans; [exact BU | exact T]. }
  destruct (Qlt_le_dec y (fst r)) as [HY2|HY2].
  { rewrite (BE x) in HX by lra. rewrite (BE y HY2) in HY.
    injection HX as <-. injection HY as <-. apply Qle_refl. }
  rewrite (IN y HY2 HY1) in HY. injection HY as <-.
  destruct (Qlt_le_dec x (fst r)) as [HX2|HX2].
  - rewrite (BE x HX2) in HX. injection HX as <-.
    apply bracket_lower; try assumption. rewrite LB. exact HY1.
  - rewrite (IN x HX2 HX1) in HX. injection HX as <-.
    apply bracket_mono; try assumption. rewrite LB. exact HY1.
Qed.

Lemma interp_floor : forall (r : row) (t : list row) x y, usable (r :: t) -> nondecreasing (r :: t) ->
  interp (r :: t) x = Ok y -> snd r <= y.
Proof.
  intros r t x y U N H. pose proof U as (L & A).
  destruct (Qlt_le_dec x (fst r)) as [B|B].
  - rewrite (interp_below r t x B (ascending_last _ _ A)) in H. injection H as <-. apply Qle_refl.
  - destruct (interp_total (r :: t) (fst r - 1)) as (z & Hz); [discriminate|].
    assert (Bz : fst r - 1 < fst r) by lra.
    pose proof (interp_below r t (fst r - 1) Bz (ascending_last _ _ A)) as E.
    rewrite Hz in E. injection E as ->.
    apply (interp_mono (r :: t) (fst r - 1) x (snd r) y U N); [lra | exact Hz | exact H].
Qed.

(** *** The look-ups *)

Lemma lookup_le_spec : forall t x y, lookup_le t x = Some y ->
  exists pre r post, t = pre ++ r :: post /\ y = snd r /\ x <= fst r /\
    Forall (fun s => fst s < x) pre.
Proof.
  induction t as [|r t IH]; intros x y H; [discriminate|]. cbn [lookup_le] in H. dle x (fst r).
  - injection H as <-. exists [], r, t. repeat split; [assumption | constructor].
  - destruct (IH _ _ H) as (pre & s & post & -> & B & C & D).
    exists (r :: pre), s, post. repeat split; try assumption. constructor; assumption.
Qed.

Lemma lookup_le_mono : forall t x y vx vy, nondecreasing t -> x <= y ->
  lookup_le t x = Some vx -> lookup_le t y = Some vy -> vx <= vy.
Proof.
  induction t as [|r t IH]; intros x y vx vy N XY HX HY; [discriminate|].
  cbn [lookup_le] in *. dle x (fst r); dle y (fst r).
  - injection HX as <-. injection HY as <-. apply Qle_refl.
  - injection HX as <-. destruct (lookup_le_spec _ _ _ HY) as (pre & s & post & -> & -> & _ & _).
    apply (nondecreasing_head _ _ _ N). apply in_or_app. right. left. reflexivity.
  - lra.
  - exact (IH x y vx vy (nondecreasing_tail _ _ N) XY HX HY).
Qed.

Lemma lookup_lt_spec : forall t x y, lookup_lt t x = Some y ->
  exists pre r post, t = pre ++ r :: post /\ y = snd r /\ x < fst r /\
    Forall (fun s => fst s <= x) pre.
Proof.
  induction t as [|r t IH]; intros x y H; [discriminate|]. cbn [lookup_lt] in H. dlt x (fst r).
  - injection H as <-. exists [], r, t. repeat split; [assumption | constructor].
  - destruct (IH _ _ H) as (pre & s & post & -> & B & C & D).
    exists (r :: pre), s, post. repeat split; try assumption. constructor; assumption.
Qed.

Lemma lookup_lt_mono : forall t x y vx vy, nondecreasing t -> x <= y ->
  lookup_lt t x = Some vx -> lookup_lt t y = Some vy -> vx <= vy.
Proof.
  induction t as [|r t IH]; intros x y vx vy N XY HX HY; [discriminate|].
  cbn [lookup_lt] in *. dlt x (fst r); dlt y (fst r).
  - injection HX as <-. injection HY as <-. apply Qle_refl.
  - injection HX as <-. destruct (lookup_lt_spec _ _ _ HY) as (pre & s & post & -> & -> & _ & _).
    apply (nondecreasing_head _ _ _ N). apply in_or_app. right. left. reflexivity.
  - lra.
  - exact (IH x y vx vy (nondecreasing_tail _ _ N) XY HX HY).
Qed.

Lemma lookup_next_In : forall t x y b, lookup_next t x = Some (y, b) -> exists r, In r t /\ y = snd r.
Proof.
  induction t as [|r t IH]; intros x y b H; [discriminate|]. cbn [lookup_next] in H.
  destruct (Qle_bool x (fst r)).
  - destruct t as [|s t].
    + injection H as <- _. exists r. split; [left; reflexivity | reflexivity].
    + injection H as <- _. exists s. split; [right; left; reflexivity | reflexivity].
  - destruct (IH _ _ _ H) as (s & I & E). exists s. split; [right; exact I | exact E].
Qed.

(** The step up: the next row is not below, and the flag only goes on. *)
Lemma lookup_next_mono : forall t x y vx vy bx by_, nondecreasing t -> x <= y ->
  lookup_next t x = Some (vx, bx) -> lookup_next t y = Some (vy, by_) ->
  vx <= vy /\ (bx = true -> by_ = true /\ vx = vy).
Proof.
  induction t as [|r t IH]; intros x y vx vy bx by_ N XY HX HY; [discriminate|].
  cbn [lookup_next] in *. dle x (fst r); dle y (fst r); [| | lra |].
  - rewrite HX in HY. injection HY as <- <-. split; [apply Qle_refl | auto].
  - destruct t as [|s t]; [discriminate HY|]. injection HX as <- <-.
    split; [|discriminate].
    destruct (lookup_next_In _ _ _ _ HY) as (u & [I|I] & ->).
    + subst. apply Qle_refl.
    + apply nondecreasing_tail in N. exact (nondecreasing_head _ _ _ N I).
  - apply (IH x y); try assumption. eapply nondecreasing_tail. exact N.
Qed.

(** ** The field strength *)

(** The largest voltage [k] micrometres withstand. *)
Definition limit (k : Z) : Q :=
  if (k <? 30)%Z then 10 * inject_Z k
  else if (k <=? 750)%Z then 250 + (1667 # 1000) * inject_Z k
  else 2 * inject_Z k.

Lemma valid_limit : forall k v, (0 < k)%Z ->
  electric_field_strength_is_valid (inject_Z k * (1 # 1000000)) v = Qlt_bool v (limit k).
Proof.
  intros k v P. unfold electric_field_strength_is_valid, limit.
  assert (PQ : 1 <= inject_Z k) by (change 1 with (inject_Z 1); rewrite <- Zle_Qle; lia).
  set (q := inject_Z k) in *.
  assert (PD : 0 < q * (1 # 1000000)) by lra.
  replace (Qeq_bool (q * (1 # 1000000)) 0) with false.
  2: { symmetry. apply not_true_is_false. intro H. apply Qeq_bool_iff in H. lra. }
  assert (SAME : forall a b c d : Q, (a < b <-> c < d) -> Qlt_bool a b = Qlt_bool c d).
  { intros a b c d I. dlt c d.
    - apply Qlt_yes. tauto.
    - apply Qlt_no. apply Qnot_lt_le. intro L. apply I in L. lra. }
  destruct (k <? 30)%Z eqn:K1.
  - apply Z.ltb_lt in K1.
    assert (Q1 : q <= 29) by (unfold q; change 29 with (inject_Z 29); rewrite <- Zle_Qle; lia).
    rewrite (Qlt_yes (q * (1 # 1000000)) (30 # 1000000)) by lra.
    apply SAME. rewrite (Qdiv_lt_iff _ _ _ PD). split; lra.
  - apply Z.ltb_ge in K1.
    assert (Q1 : 30 <= q) by (unfold q; change 30 with (inject_Z 30); rewrite <- Zle_Qle; lia).
    rewrite (Qlt_no (q * (1 # 1000000)) (30 # 1000000)) by lra.
    destruct (k <=? 750)%Z eqn:K2.
    + apply Z.leb_le in K2.
      assert (Q2 : q <= 750) by (unfold q; change 750 with (inject_Z 750); rewrite <- Zle_Qle; lia).
      rewrite (Qlt_no (75 # 100000) (q * (1 # 1000000))) by lra.
      apply SAME. rewrite (Qdiv_lt_iff _ _ _ PD).
      assert (E : ((25 # 100) / (q * (1 # 1000000) * 1000) + (1667 # 1000)) * 1000000 * (q * (1 # 1000000))
                  == 250 + (1667 # 1000) * q) by (field; lra).
      rewrite E. reflexivity.
    + apply Z.leb_gt in K2.
      assert (Q2 : 751 <= q) by (unfold q; change 751 with (inject_Z 751); rewrite <- Zle_Qle; lia).
      rewrite (Qlt_yes (75 # 100000) (q * (1 # 1000000))) by lra.
      apply SAME. rewrite (Qdiv_lt_iff _ _ _ PD). split; lra.
Qed.

Lemma valid_zero : forall v, electric_field_strength_is_valid (inject_Z 0 * (1 # 1000000)) v = false.
Proof. reflexivity. Qed.

Lemma limit_mono : forall j k, (0 <= j <= k)%Z -> limit j <= limit k.
Proof.
  intros j k H. unfold limit.
  assert (Q1 : inject_Z j <= inject_Z k) by (rewrite <- Zle_Qle; lia).
  destruct (j <? 30)%Z eqn:A; destruct (k <? 30)%Z eqn:B; try lra.
  - apply Z.ltb_lt in A. apply Z.ltb_ge in B.
    assert (inject_Z j <= 29) by (change 29 with (inject_Z 29); rewrite <- Zle_Qle; lia).
    assert (30 <= inject_Z k) by (change 30 with (inject_Z 30); rewrite <- Zle_Qle; lia).
    destruct (k <=? 750)%Z eqn:C; [lra|]. apply Z.leb_gt in C.
    assert (751 <= inject_Z k) by (change 751 with (inject_Z 751); rewrite <- Zle_Qle; lia). lra.
  - apply Z.ltb_lt in B. apply Z.ltb_ge in A. lia.
  - apply Z.ltb_ge in A. apply Z.ltb_ge in B.
    destruct (j <=? 750)%Z eqn:C; destruct (k <=? 750)%Z eqn:D; try lra.
    + apply Z.leb_le in C. apply Z.leb_gt in D.
      assert (inject_Z j <= 750) by (change 750 with (inject_Z 750); rewrite <- Zle_Qle; lia).
      assert (751 <= inject_Z k) by (change 751 with (inject_Z 751); rewrite <- Zle_Qle; lia). lra.
    + apply Z.leb_gt in C. apply Z.leb_le in D. lia.
Qed.

Lemma dti_search_spec : forall fuel k v, (0 <= k)%Z ->
  (exists m, (k <= m)%Z /\ (m - k <= Z.of_nat fuel)%Z /\
     electric_field_strength_is_valid (inject_Z m * (1 # 1000000)) v = true) ->
  exists m, (k <= m)%Z /\ dti_search fuel k v = Ok (inject_Z m * (1 # 1000000)) /\
    electric_field_strength_is_valid (inject_Z m * (1 # 1000000)) v = true /\
    forall j, (k <= j < m)%Z -> electric_field_strength_is_valid (inject_Z j * (1 # 1000000)) v = false.
Proof.
  induction fuel as [|fuel IH]; intros k v P (m & KM & MF & VM).
  - assert (m = k) by lia. subst m. exists k. cbn [dti_search]. rewrite VM.
    repeat split; [lia | intros; lia].
  - cbn [dti_search].
    destruct (electric_field_strength_is_valid (inject_Z k * (1 # 1000000)) v) eqn:E.
    + exists k. repeat split; [lia | exact E | intros; lia].
    + assert (m <> k) by (intro; subst; congruence).
      destruct (IH (k + 1)%Z v) as (n & A & B & C & D); [lia | exists m; repeat split; [lia | lia | exact VM] |].
      exists n. repeat split; [lia | exact B | exact C |].
      intros j J. destruct (Z.eq_dec j k) as [->|NE]; [exact E|]. apply D. lia.
Qed.

Lemma dti_over_30kHz_spec : forall v, exists m, (0 < m)%Z /\
  dti_over_30kHz v = Ok (inject_Z m * (1 # 1000000)) /\
  v < limit m /\ forall j, (0 < j < m)%Z -> limit j <= v.
Proof.
  intro v. unfold dti_over_30kHz.
  destruct (dti_search_spec (Z.to_nat (Qfloor v) + 800) 0 v) as (m & A & B & C & D); [lia | |].
  - exists (Z.max 0 (Qfloor v) + 800)%Z. split; [lia|]. split; [lia|].
    rewrite valid_limit by lia. apply Qlt_yes.
    unfold limit. rewrite (proj2 (Z.ltb_ge _ _)) by lia. rewrite (proj2 (Z.leb_gt _ _)) by lia.
    pose proof (proj2 (Qfloor_bounds v)).
    assert (inject_Z (Qfloor v) + 800 <= inject_Z (Z.max 0 (Qfloor v) + 800)).
    { rewrite inject_Z_plus. change (inject_Z 800) with 800.
      assert (inject_Z (Qfloor v) <= inject_Z (Z.max 0 (Qfloor v))) by (rewrite <- Zle_Qle; lia). lra. }
    assert (800 <= inject_Z (Z.max 0 (Qfloor v) + 800))
      by (change 800 with (inject_Z 800); rewrite <- Zle_Qle; lia).
    lra.
  - assert (M : (m <> 0)%Z) by (intro; subst; rewrite valid_zero in C; discriminate).
    exists m. split; [lia|]. split; [exact B|]. split.
    + rewrite valid_limit in C by lia. now apply Qlt_true.
    + intros j J. specialize (D j ltac:(lia)). rewrite valid_limit in D by lia. now apply Qlt_false.
Qed.

(** ** The fold over the standards *)

Lemma fold_standards_ok : forall f l acc w, fold_standards f acc l = Ok w ->
  acc <= w /\
  (forall s, In s l -> exists x, f s = Ok x /\ x <= w) /\
  (w == acc \/ exists s x, In s l /\ f s = Ok x /\ w == x).
Proof.
  intros f. induction l as [|s l IH]; intros acc w H; cbn [fold_standards] in H.
  - injection H as <-. repeat split; [apply Qle_refl | intros s [] | left; reflexivity].
  - destruct (f s) as [x| | |] eqn:E; try discriminate. cbn [bind] in H.
    destruct (IH _ _ H) as (A & B & C).
    pose proof (cmax_ge_l acc x). pose proof (cmax_ge_r acc x).
    repeat split.
    + lra.
    + intros u [<-|I]; [exists x; split; [exact E | lra] | apply B; exact I].
    + destruct C as [C|(u & y & I & F & C)].
      * destruct (cmax_case acc x) as [M|M]; rewrite M in C.
        -- left. exact C.
        -- right. exists s, x. repeat split; [left; reflexivity | exact E | exact C].
      * right. exists u, y. repeat split; [right; exact I | exact F | exact C].
Qed.

Lemma fold_standards_total : forall f l acc,
  (forall s, In s l -> exists x, f s = Ok x) -> exists w, fold_standards f acc l = Ok w.
Proof.
  intros f. induction l as [|s l IH]; intros acc H; [eexists; reflexivity|].
  cbn [fold_standards]. destruct (H s (or_introl eq_refl)) as (x & ->). cbn [bind].
  apply IH. intros u I. apply H. right. exact I.
Qed.
