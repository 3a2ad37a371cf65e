(** Properties of interleaving patterns, section sizes, inter-section insulation
    and windings wound together. *)
From Coq Require Import ZArith QArith Qround Qabs List String Bool Arith Lia Lqa Permutation Sorted.
From Verif Require Import Base QAux CoilPatternModel CoilPatternProofs.
Import ListNotations.
Open Scope nat_scope.

(** ** C05 *)

(** The sizes of the sections of one winding. *)
Definition sizes_of (w : nat) (l : list (nat * Q)) : list Q :=
  map snd (filter (fun s => Nat.eqb (fst s) w) l).

(** Sizes are rounded to nine decimals, so sums are exact up to half a
    nanometre per section. *)
Theorem C05_sections_follow_the_pattern : forall windings space shares pattern repetitions,
  (forall w, In w pattern -> w < windings /\ w < List.length shares /\ (nth w shares 0 <= 1)%Q) ->
  0 < repetitions ->
  exists l, get_ordered_sections windings space shares pattern repetitions = Ok l /\
    map fst l = List.concat (repeat pattern repetitions) /\
    (forall w x y, In (w, x) l -> In (w, y) l -> x = y) /\
    (forall w, In w pattern ->
       (Qabs (Qsum (sizes_of w l) - space * nth w shares 0) <=
        inject_Z (Z.of_nat (List.length (sizes_of w l))) * (5#10000000000))%Q).
Proof.
  intros windings space shares pattern r H Hr.
  exists (map (fun w => (w, section_size space shares pattern r w)) (List.concat (repeat pattern r))).
  split.
  { apply ordered_ok. intros w Hw. destruct (H w Hw) as (A & B & C). repeat split; auto.
    apply Qle_trans with (roundFloat 1 6); [|discriminate].
    unfold roundFloat. pose proof (p10_pos 6) as P.
    rewrite (Qdiv_le_iff _ _ _ P).
    assert (E : (inject_Z (qround (1 * p10 6)) / p10 6 * p10 6 == inject_Z (qround (1 * p10 6)))%Q) by (field; lra).
    rewrite E. rewrite <- Zle_Qle. apply qround_mono. apply Qmult_le_compat_r; auto. lra. }
  split.
  { rewrite map_map. simpl. apply map_id. }
  split.
  { intros w x y Hx Hy. apply in_map_pair in Hx, Hy. congruence. }
  intros w Hw. unfold sizes_of.
  rewrite filter_fst_map, repeat_length, Qsum_repeat. apply winding_total; auto.
Qed.

(** All sections together use the space when the shares of the windings in the
    pattern add up to one. *)
Theorem C05_sections_use_the_space : forall windings space shares pattern repetitions l,
  (forall w, In w pattern -> w < windings /\ w < List.length shares /\ (nth w shares 0 <= 1)%Q) ->
  0 < repetitions ->
  (Qsum (map (fun w => nth w shares 0) (nodup Nat.eq_dec pattern)) == 1)%Q ->
  get_ordered_sections windings space shares pattern repetitions = Ok l ->
  (Qabs (Qsum (map snd l) - space) <= inject_Z (Z.of_nat (List.length l)) * (5#10000000000))%Q.
Proof.
  intros windings space shares pattern r l H Hr HS HL.
  destruct (C05_sections_follow_the_pattern windings space shares pattern r H Hr) as (l' & E & HM & _).
  rewrite E in HL. injection HL as ->.
  rewrite ordered_ok in E.
  2:{ intros w Hw. destruct (H w Hw) as (A & B & C). repeat split; auto.
    apply Qle_trans with (roundFloat 1 6); [|discriminate].
    unfold roundFloat. pose proof (p10_pos 6) as P.
    rewrite (Qdiv_le_iff _ _ _ P).
    assert (E2 : (inject_Z (qround (1 * p10 6)) / p10 6 * p10 6 == inject_Z (qround (1 * p10 6)))%Q) by (field; lra).
    rewrite E2. rewrite <- Zle_Qle. apply qround_mono. apply Qmult_le_compat_r; auto. lra. }
  injection E as <-. clear HM.
  rewrite map_map, map_length.
  change (fun x : nat => snd (x, section_size space shares pattern r x)) with (section_size space shares pattern r).
  set (all := List.concat (repeat pattern r)).
  set (keys := nodup Nat.eq_dec pattern) in *.
  assert (HK : forall x, In x all -> In x keys).
  { intros x Hx. apply nodup_In. eapply in_concat_repeat; eauto. }
  rewrite (Qsum_by_key (section_size space shares pattern r) all keys (NoDup_nodup _ _) HK).
  assert (E1 : (inject_Z (Z.of_nat (List.length all)) * (5#10000000000) ==
    Qsum (map (fun w => inject_Z (Z.of_nat (count_occ Nat.eq_dec all w)) * (5#10000000000)) keys))%Q).
  { rewrite <- (Qsum_by_key (fun _ => 5#10000000000) all keys (NoDup_nodup _ _) HK).
    clear. induction all as [|x t IH]; [reflexivity|]. cbn [List.length map Qsum].
    rewrite <- IH, Nat2Z.inj_succ. unfold Z.succ. rewrite inject_Z_plus. ring. }
  assert (E2 : (space == Qsum (map (fun w => space * nth w shares 0) keys))%Q).
  { rewrite <- (map_map (fun w => nth w shares 0%Q) (fun x => space * x)%Q), Qsum_scale, HS. ring. }
  rewrite E1.
  match goal with |- (Qabs (?X - space) <= _)%Q =>
    assert (E3 : (X - space == X - Qsum (map (fun w => space * nth w shares 0) keys))%Q)
      by (apply Qplus_comp; [reflexivity|apply Qopp_comp; exact E2]) end.
  rewrite E3. apply Qsum_abs_diff.
  intros w Hw. apply winding_total; auto. unfold keys in Hw. now apply nodup_In in Hw.
Qed.

(** Requests that make no sense are refused. *)
Theorem C05_unknown_winding_refused : forall windings space shares pattern repetitions w,
  In w pattern -> windings <= w ->
  get_ordered_sections windings space shares pattern repetitions =
    Throw "Winding index does not exist in winding".
Proof.
  intros windings space shares pattern r w Hw Hb. unfold get_ordered_sections.
  replace (existsb _ pattern) with true; auto. symmetry.
  apply existsb_exists. exists w. split; auto. now apply Nat.leb_le.
Qed.

Theorem C05_share_above_one_refused : forall windings space shares pattern repetitions l w,
  In w pattern -> 0 < repetitions -> (1.000001 <= nth w shares 0)%Q -> w < List.length shares ->
  get_ordered_sections windings space shares pattern repetitions <> Ok l.
Proof.
  intros windings space shares pattern r l w Hw Hr Hs HL E. unfold get_ordered_sections in E.
  destruct (existsb _ pattern); [discriminate|].
  apply map_outcome_inv in E.
  assert (I : In w (List.concat (repeat pattern r))).
  { destruct r; [lia|]. simpl. apply in_or_app. now left. }
  clear - E I Hs HL. induction E as [|a b la lb E _ IH]; [destruct I|].
  destruct I as [->|I]; [|auto].
  unfold ordered_section in E. rewrite (nth_error_nth' shares 0%Q HL) in E.
  destruct (Qlt_bool 1 (roundFloat (nth w shares 0%Q) 6)) eqn:E2; [discriminate|]. qb.
  assert (R : (roundFloat 1.000001 6 <= roundFloat (nth w shares 0) 6)%Q).
  { unfold roundFloat. pose proof (p10_pos 6) as P. rewrite (Qdiv_le_iff _ _ _ P).
    assert (E3 : forall z, (z / p10 6 * p10 6 == z)%Q) by (intros; field; lra).
    rewrite E3, <- Zle_Qle. apply qround_mono. apply Qmult_le_compat_r; auto. lra. }
  assert (R1 : (1 < roundFloat 1.000001 6)%Q) by reflexivity. lra.
Qed.

Example C05_witness :
  get_ordered_sections 2 (10#1) [1#4; 3#4]%Q [0; 1] 2 = Ok
    [(0, roundFloat (125#100) 9); (1, roundFloat (375#100) 9);
     (0, roundFloat (125#100) 9); (1, roundFloat (375#100) 9)].
Proof. vm_compute. reflexivity. Qed.

(** ** C06 *)

(** What a list of sections with insulation between them looks like: for every
    two consecutive conduction sections, one insulation section of the thickness
    the table gives for the pair, or none if the table has none. *)
Inductive insulated (table : nat -> nat -> option Q) : list section_entry -> list (nat * Q) -> Prop :=
| ins_one w x : insulated table [(CONDUCTION, (Some w, x))] [(w, x)]
| ins_gap w x w' x' d rest l : table w w' = Some d ->
    insulated table rest ((w', x') :: l) ->
    insulated table ((CONDUCTION, (Some w, x)) :: (INSULATION, (None, d)) :: rest) ((w, x) :: (w', x') :: l)
| ins_none w x w' x' rest l : table w w' = None ->
    insulated table rest ((w', x') :: l) ->
    insulated table ((CONDUCTION, (Some w, x)) :: rest) ((w, x) :: (w', x') :: l).

(** Thickness of the insulation between section i and the next, 0 when none. *)
Definition thickness_after (table : nat -> nat -> option Q) (l : list (nat * Q)) (i : nat) : Q :=
  if S i <? List.length l then
    match table (fst (nth i l (0, 0%Q))) (fst (nth (S i) l (0, 0%Q))) with Some d => d | None => 0%Q end
  else 0%Q.
Definition thickness_before (table : nat -> nat -> option Q) (l : list (nat * Q)) (i : nat) : Q :=
  match i with O => 0%Q | S j => thickness_after table l j end.

Lemma gap_thickness table l i : gap table l i = thickness_after table l i.
Proof.
  unfold gap, thickness_after. destruct (Nat.ltb_spec (S i) (List.length l)).
  - rewrite (nth_error_nth' l (0, 0%Q)) by lia. rewrite (nth_error_nth' l (0, 0%Q)) by lia. reflexivity.
  - destruct (nth_error l i); auto.
    destruct (nth_error l (S i)) eqn:E; auto.
    assert (S i < List.length l) by (apply nth_error_Some; congruence). lia.
Qed.

Lemma interpose_insulated table r : forall f,
  insulated table ((CONDUCTION, (Some (fst f), snd f)) :: interpose table (fst f) r) (f :: r).
Proof.
  induction r as [|g t IH]; intros [w x]; simpl.
  - constructor.
  - destruct g as [w' x']. simpl. destruct (table w w') eqn:E.
    + apply ins_gap; auto. apply (IH (w', x')).
    + apply ins_none; auto. apply (IH (w', x')).
Qed.

Theorem C06_insulation_is_carved_out : forall table wrap sections,
  sections <> [] ->
  exists body around cut,
    add_insulation_to_sections table wrap sections = Ok (body ++ around) /\
    (wrap = false -> around = []) /\
    (forall e, In e around -> fst e = INSULATION /\ List.length around = 1) /\
    insulated table body cut /\
    map fst cut = map fst sections /\
    (forall i, i < List.length sections ->
       (snd (nth i cut (O, 0)) == snd (nth i sections (O, 0)) -
          thickness_before table sections i / 2 - thickness_after table sections i / 2)%Q) /\
    (Qsum (map (fun e => snd (snd e)) body) == Qsum (map snd sections))%Q.
Proof.
  intros table wrap [|f rest] Hne; [congruence|]. clear Hne.
  destruct (carve_shape table rest f) as (f' & r' & E & H1 & H2).
  unfold add_insulation_to_sections. rewrite E.
  eexists ((CONDUCTION, (Some (fst f'), snd f')) :: interpose table (fst f') r'), _, (f' :: r').
  split; [reflexivity|].
  split; [now intros ->|].
  split.
  { intros e He. destruct wrap; [|destruct He].
    destruct (table _ _); [|destruct He]. destruct He as [<-|[]]. auto. }
  split; [apply interpose_insulated|].
  split; [simpl; now rewrite H1, H2|].
  split.
  - intros i Hi. rewrite <- E.
    pose proof (carve_sizes table rest f i) as C. unfold size_at in C.
    rewrite C by (simpl in Hi; lia).
    unfold thickness_before. destruct i; rewrite <- ?gap_thickness; reflexivity.
  - cbn [map Qsum]. cbn [snd]. rewrite H1.
    pose proof (insert_total table rest f f' r' E) as T. unfold entry_size in T. exact T.
Qed.

(** Around a toroid (or between overlapping sections of it) the last and the
    first section are insulated as well, if the table says so. *)
Theorem C06_wrap_around : forall table sections d,
  sections <> [] ->
  table (fst (last sections (0, 0%Q))) (fst (hd (0, 0%Q) sections)) = Some d ->
  exists body, add_insulation_to_sections table true sections = Ok (body ++ [(INSULATION, (None, d))]) /\
               add_insulation_to_sections table false sections = Ok body.
Proof.
  intros table [|f rest] d Hne Hd; [congruence|].
  destruct (carve_shape table rest f) as (f' & r' & E & H1 & H2).
  unfold add_insulation_to_sections. rewrite E. cbn [hd] in Hd.
  assert (L : forall (x y : nat * Q) l, last (f :: l) x = last (f :: l) y).
  { intros x y l. revert f Hd E H1 Hne. clear. intros f _ _ _ _. revert f.
    induction l as [|g t IH]; intros f; auto. change (last (g :: t) x = last (g :: t) y). apply IH. }
  rewrite (L f (0, 0%Q) rest), Hd.
  eexists. rewrite app_nil_r. split; [|reflexivity]. simpl. reflexivity.
Qed.

Example C06_witness :
  let table := fun a b => if negb (Nat.eqb a b) then Some 1%Q else None in
  add_insulation_to_sections table true [(0, 4%Q); (1, 6%Q); (1, 2%Q)] =
  Ok [(CONDUCTION, (Some 0, (4 - 1 / 2)%Q)); (INSULATION, (None, 1%Q));
      (CONDUCTION, (Some 1, (6 - 1 / 2)%Q)); (CONDUCTION, (Some 1, 2%Q)); (INSULATION, (None, 1%Q))].
Proof. reflexivity. Qed.

(** ** C07 *)

(** [requirement] gives the isolation side of every winding. *)
Theorem C07_patterns_are_legal : forall windings requirement toroidal realWinding,
  0 < windings -> List.length requirement = windings ->
  (toroidal = true -> List.length (nodup Nat.eq_dec requirement) <= 7) ->
  exists patterns, get_patterns windings requirement toroidal realWinding = Ok patterns /\
    patterns <> [] /\ List.length patterns <= 6 /\ NoDup patterns /\
    forall p, In p patterns -> Permutation p (seq 0 windings).
Proof.
  intros W R tor real HW HL HT.
  destruct (get_patterns_legal W R tor real HW HL HT) as (ps & E & A & B & C & D).
  exists ps. rewrite Forall_forall in D. auto.
Qed.

(** A toroid whose windings use eight isolation sides or more reads beyond its
    list of patterns. *)
Theorem C07_toroid_with_eight_sides_refuted : forall n requirement realWinding, 8 <= n -> n <= 12 ->
  requirement = seq 0 n ->
  exists why, get_patterns n requirement true realWinding = UB why.
Proof.
  intros n R real H8 H12 ->.
  assert (C : n = 8 \/ n = 9 \/ n = 10 \/ n = 11 \/ n = 12) by lia.
  assert (P : forall k, 4 <= k -> 6 <= pattern_bound k).
  { intros k Hk. unfold pattern_bound.
    assert (24 <= fact k) by (change 24 with (fact 4); now apply fact_le).
    assert (12 <= fact k / 2) by (apply Nat.div_le_lower_bound; lia). lia. }
  assert (G : forall m, 4 <= m -> m = n -> List.length (sides_used (seq 0 m)) = m ->
     exists why, get_patterns m (seq 0 m) true real = UB why).
  { intros m Hm Emn E. unfold get_patterns. rewrite E.
    destruct (side_patterns_legal m (seq 0 m)) as [HS HSl]; [lia|apply seq_length|].
    rewrite E in HSl, HS.
    set (ps := side_patterns _ _ _ _ _) in *.
    assert (L6 : List.length ps = 6) by (rewrite HSl; specialize (P m ltac:(lia)); lia).
    unfold secondary_orderings. rewrite L6.
    replace (Nat.ltb 6 maximum_coil_pattern) with false by reflexivity. rewrite andb_false_r.
    unfold toroidal_cut. rewrite L6.
    destruct (Nat.ltb_spec 6 (Nat.max 1 (m - 1))); [|lia]. eexists. reflexivity. }
  destruct C as [E|[E|[E|[E|E]]]]; subst n; apply G; try lia; reflexivity.
Qed.

(** With more isolation sides than windings the same pattern comes more than
    once. *)
Theorem C07_surplus_sides_refuted : exists windings requirement patterns,
  windings < List.length requirement /\
  get_patterns windings requirement false false = Ok patterns /\ ~ NoDup patterns.
Proof.
  exists 1, [0; 1; 2]. eexists. split; [simpl; lia|]. split; [reflexivity|].
  intros N. inversion N as [|? ? H _]; subst. apply H. now left.
Qed.

Example C07_witness : get_patterns 3 [4; 7; 10] false false =
  Ok [[0; 1; 2]; [0; 2; 1]; [1; 0; 2]] /\
  get_patterns 3 [4; 7; 7] true true = Ok [[0; 1; 2]; [2; 1; 0]] /\
  List.length (nodup Nat.eq_dec [4; 7; 7]) = 2.
Proof. repeat split. Qed.

(** ** C47 *)

(** A pattern visits the sides in the given order: it is made of one non-empty
    block of windings per side. *)
Definition visits (requirement pattern sides : list nat) : Prop :=
  exists blocks, pattern = List.concat blocks /\
    Forall2 (fun block side => block <> [] /\ Forall (fun w => nth w requirement 0 = side) block) blocks sides.

Lemma block_of W R x : List.length R = W -> In x R ->
  filter (fun w => Nat.eqb (nth w R 0) x) (seq 0 W) <> [] /\
  Forall (fun w => nth w R 0 = x) (filter (fun w => Nat.eqb (nth w R 0) x) (seq 0 W)).
Proof.
  intros HL Hx. split.
  - pose proof (side_count_pos W R x HL Hx) as P. unfold side_count in P.
    destruct (filter _ _); [simpl in P; lia|discriminate].
  - apply Forall_forall. intros w Hw. apply filter_In in Hw. now apply Nat.eqb_eq.
Qed.

Lemma side_pattern_visits W R s : List.length R = W -> (forall x, In x s -> In x R) ->
  visits R (side_pattern W R s) s.
Proof.
  intros HL HI. exists (map (fun x => filter (fun w => Nat.eqb (nth w R 0) x) (seq 0 W)) s). split.
  - unfold side_pattern. now rewrite flat_map_concat_map.
  - induction s as [|x t IH]; simpl; constructor.
    + apply block_of; auto. apply HI. now left.
    + apply IH. intros; apply HI; now right.
Qed.

Lemma visits_rev R p s : visits R p s -> visits R (rev p) (rev s).
Proof.
  intros (bs & -> & F). exists (rev (map (@rev nat) bs)). split.
  - clear F. induction bs as [|b t IH]; simpl; auto.
    rewrite rev_app_distr, IH, concat_app. simpl. now rewrite app_nil_r.
  - assert (F' : Forall2 (fun block side => block <> [] /\ Forall (fun w => nth w R 0 = side) block)
                  (map (@rev nat) bs) s).
    { induction F as [|b x bs s [A B] F IH]; simpl; constructor; auto. split.
      - intros C. apply A. rewrite <- (rev_involutive b), C. reflexivity.
      - apply Forall_rev. exact B. }
    clear F. induction F' as [|b x bs' s' A F IH]; simpl; [constructor|].
    apply Forall2_app; auto.
Qed.

Lemma replace_none f a rest : Forall (fun w => f w = false) a ->
  forall repl, replace_secondaries f (a ++ rest) repl = a ++ replace_secondaries f rest repl.
Proof. induction 1 as [|x t E F IH]; intros repl; simpl; auto. now rewrite E, IH. Qed.
Lemma replace_all f a : Forall (fun w => f w = true) a ->
  forall repl, List.length repl = List.length a -> replace_secondaries f a repl = repl.
Proof.
  induction 1 as [|x t E F IH]; intros repl HL; simpl; [destruct repl; [auto|discriminate]|].
  rewrite E. destruct repl as [|r rs]; [discriminate|]. f_equal. apply IH. simpl in HL. lia.
Qed.

Lemma filter_all {A} (f : A -> bool) l : Forall (fun x => f x = true) l -> filter f l = l.
Proof. induction 1 as [|x t E F IH]; simpl; auto. now rewrite E, IH. Qed.
Lemma filter_no {A} (f : A -> bool) l : Forall (fun x => f x = false) l -> filter f l = [].
Proof. induction 1 as [|x t E F IH]; simpl; auto. now rewrite E, IH. Qed.

Lemma add_if_new_In ps p : In p (add_if_new ps p) /\ forall q, In q ps -> In q (add_if_new ps p).
Proof.
  unfold add_if_new. destruct (existsb (pattern_eqb p) ps) eqn:E.
  - apply existsb_exists in E. destruct E as (q & Hq & Eq). unfold pattern_eqb in Eq.
    destruct (list_eq_dec Nat.eq_dec p q); [subst; auto|discriminate].
  - split; [apply in_or_app; right; now left|]. intros q Hq. apply in_or_app. now left.
Qed.

Lemma secondary_orderings_keeps W R ps p : In p ps -> In p (secondary_orderings W R ps).
Proof.
  intros H. unfold secondary_orderings. cbv zeta.
  repeat match goal with |- context [if ?b then _ else _] => destruct b end;
    repeat (apply add_if_new_In); auto.
Qed.

Lemma add_reversals_keeps todo : forall ps p, In p ps -> In p (add_reversals todo ps).
Proof.
  induction todo; intros ps p H; simpl; auto. destruct (_ <? _); auto.
  apply IHtodo. now apply add_if_new_In.
Qed.

(** The order in which sides are first used. *)
Lemma sides_used_hd x R : hd 0 (sides_used (x :: R)) = x.
Proof.
  unfold sides_used. cbn [sides_used_from existsb app].
  assert (G : forall l seen y, hd 0 (sides_used_from (y :: seen) l) = y).
  { induction l as [|z t IH]; intros seen y; cbn [sides_used_from hd]; auto.
    destruct (existsb (Nat.eqb z) (y :: seen)); [apply IH|]. apply (IH (seen ++ [z])). }
  apply G.
Qed.

Lemma next_perm_3 a b c : a < b -> b < c ->
  next_permutation [a; b; c] = [a; c; b] /\ next_permutation [a; c; b] = [b; a; c] /\
  next_permutation [b; a; c] = [b; c; a].
Proof.
  intros H1 H2. unfold next_permutation. cbn [rev app next_permutation_from].
  repeat split.
  - destruct (Nat.ltb_spec b c); [|lia]. cbn [swap_with_last_greater].
    destruct (Nat.ltb_spec b c); [|lia]. reflexivity.
  - destruct (Nat.ltb_spec c b); [lia|]. destruct (Nat.ltb_spec a c); [|lia].
    cbn [swap_with_last_greater]. destruct (Nat.ltb_spec a c); [|lia]. destruct (Nat.ltb_spec a b); [|lia].
    reflexivity.
  - destruct (Nat.ltb_spec a c); [|lia]. cbn [swap_with_last_greater].
    destruct (Nat.ltb_spec a c); [|lia]. reflexivity.
Qed.

Lemma three_orders (a b c : nat) q : Permutation q [a; b; c] ->
  q = [a; b; c] \/ q = [a; c; b] \/ q = [b; a; c] \/ q = [b; c; a] \/ q = [c; a; b] \/ q = [c; b; a].
Proof.
  intros H. pose proof (Permutation_length H) as L. destruct q as [|x [|y [|z [|]]]]; try discriminate.
  assert (Hx : In x [a; b; c]) by (apply (Permutation_in _ H); now left).
  simpl in Hx. destruct Hx as [<-|[<-|[<-|[]]]].
  - apply Permutation_cons_inv, Permutation_sym in H.
    destruct (Permutation_length_2_inv H) as [E|E]; injection E as -> ->; auto.
  - assert (H2 : Permutation (b :: [y; z]) (b :: [a; c])) by (rewrite H; constructor).
    apply Permutation_cons_inv, Permutation_sym in H2.
    destruct (Permutation_length_2_inv H2) as [E|E]; injection E as -> ->; auto.
  - assert (H2 : Permutation (c :: [y; z]) (c :: [a; b])).
    { rewrite H. apply Permutation_sym. apply (Permutation_cons_append [a; b] c). }
    apply Permutation_cons_inv, Permutation_sym in H2.
    destruct (Permutation_length_2_inv H2) as [E|E]; injection E as -> ->; auto 10.
Qed.

Lemma filter_seq_shift f W : 0 < W -> f 0 = false -> filter f (seq 1 (W - 1)) = filter f (seq 0 W).
Proof.
  intros H E. destruct W; [lia|]. simpl. rewrite E, Nat.sub_0_r. reflexivity.
Qed.

Theorem C47_three_sides_cover_every_order : forall windings requirement realWinding patterns order,
  List.length requirement = windings ->
  List.length (nodup Nat.eq_dec requirement) = 3 ->
  (forall x, In x requirement -> nth 0 requirement 0 <= x) ->
  get_patterns windings requirement false realWinding = Ok patterns ->
  Permutation order (nodup Nat.eq_dec requirement) ->
  exists p, In p patterns /\ (visits requirement p order \/ visits requirement p (rev order)).
Proof.
  intros W R real ps order HL H3 Hmin HG HO.
  rewrite <- sides_used_length in H3.
  destruct (sides_used R) as [|a [|b [|c [|]]]] eqn:ES; try discriminate. clear H3.
  assert (HP : Permutation order [a; b; c]).
  { etransitivity; [exact HO|]. rewrite <- ES. apply NoDup_Permutation.
    - apply NoDup_nodup.
    - apply sides_used_NoDup.
    - intros x. now rewrite nodup_In, sides_used_In. }
  destruct R as [|r0 R']; [discriminate|]. set (R := r0 :: R') in *.
  assert (Ha : a = r0). { pose proof (sides_used_hd r0 R') as H. fold R in H. rewrite ES in H. exact H. }
  assert (HN : NoDup [a; b; c]) by (rewrite <- ES; apply sides_used_NoDup).
  assert (HI : forall x, In x [a; b; c] -> In x R) by (intros x Hx; apply sides_used_In; now rewrite ES).
  assert (Hab : a < b).
  { assert (a <= b) by (subst a; apply (Hmin b); apply HI; simpl; auto).
    inversion HN as [|? ? N _]; subst. simpl in N. assert (b <> r0) by (intros ->; tauto). lia. }
  assert (Hac : a < c).
  { assert (a <= c) by (subst a; apply (Hmin c); apply HI; simpl; auto).
    inversion HN as [|? ? N _]; subst. simpl in N. assert (c <> r0) by (intros ->; tauto). lia. }
  assert (Hbc : b <> c).
  { inversion HN as [|? ? _ N2]; subst. inversion N2 as [|? ? N3 _]; subst. simpl in N3. intros ->. tauto. }
  assert (HW : 0 < W) by (subst W; simpl; lia).
  unfold get_patterns in HG. rewrite ES in HG. cbn [List.length bind] in HG.
  change (pattern_bound 3) with 3 in HG.
  rewrite side_patterns_eq in HG by lia. change (Nat.min 3 (6 - 0)) with 3 in HG.
  cbn [seq map iterate] in HG.
  injection HG as HG.
  assert (V : forall s, Permutation s [a; b; c] -> visits R (side_pattern W R s) s).
  { intros s Hs. apply side_pattern_visits; auto. intros x Hx. apply HI. now apply (Permutation_in _ Hs). }
  assert (K : forall q, In q [side_pattern W R [a; b; c]; side_pattern W R (next_permutation [a; b; c]);
      side_pattern W R (next_permutation (next_permutation [a; b; c]))] -> In q ps).
  { intros q Hq. rewrite <- HG. destruct real; [apply add_reversals_keeps|];
      apply secondary_orderings_keeps; exact Hq. }
  assert (Pacb : Permutation [a; c; b] [a; b; c]) by (constructor; apply perm_swap).
  assert (Pbac : Permutation [b; a; c] [a; b; c]) by apply perm_swap.
  assert (Pcab : Permutation [c; a; b] [a; b; c]) by (transitivity [a; c; b]; [apply perm_swap|auto]).
  (* the three orders up to reversal: abc, acb, bac *)
  assert (Q : (exists p, In p ps /\ (visits R p [a; b; c] \/ visits R p [c; b; a])) /\
              (exists p, In p ps /\ (visits R p [a; c; b] \/ visits R p [b; c; a])) /\
              (exists p, In p ps /\ (visits R p [b; a; c] \/ visits R p [c; a; b]))).
  { destruct (Nat.lt_ge_cases b c) as [Hlt|Hge].
    - destruct (next_perm_3 a b c Hab Hlt) as (E1 & E2 & _). rewrite E1, E2 in K.
      split; [|split].
      + exists (side_pattern W R [a; b; c]). split; [apply K; simpl; auto|]. left. auto.
      + exists (side_pattern W R [a; c; b]). split; [apply K; simpl; auto|]. left. auto.
      + exists (side_pattern W R [b; a; c]). split; [apply K; simpl; auto|]. left. auto.
    - assert (Hcb : c < b) by lia.
      destruct (next_perm_3 a c b Hac Hcb) as (_ & E2 & E3). rewrite E2, E3 in K.
      split; [|split].
      + exists (side_pattern W R [a; b; c]). split; [apply K; simpl; auto|]. left. auto.
      + (* reversed secondaries *)
        set (A := filter (fun w => Nat.eqb (nth w R 0) a) (seq 0 W)).
        set (B := filter (fun w => Nat.eqb (nth w R 0) b) (seq 0 W)).
        set (C := filter (fun w => Nat.eqb (nth w R 0) c) (seq 0 W)).
        assert (HA : A <> [] /\ Forall (fun w => nth w R 0 = a) A) by (apply block_of; auto; apply HI; simpl; auto).
        assert (HB : B <> [] /\ Forall (fun w => nth w R 0 = b) B) by (apply block_of; auto; apply HI; simpl; auto).
        assert (HC : C <> [] /\ Forall (fun w => nth w R 0 = c) C) by (apply block_of; auto; apply HI; simpl; auto).
        destruct HA as [HA1 HA2], HB as [HB1 HB2], HC as [HC1 HC2].
        exists (A ++ rev C ++ rev B). split.
        * rewrite <- HG. 
          assert (In (A ++ rev C ++ rev B) (secondary_orderings W R
                  [side_pattern W R [a; b; c]; side_pattern W R (next_permutation [a; b; c]);
                   side_pattern W R (next_permutation (next_permutation [a; b; c]))])).
          { unfold secondary_orderings.
            assert (ESec : secondary_windings W R = filter (fun w => negb (Nat.eqb (nth w R 0) (nth 0 R 0))) (seq 0 W)).
            { unfold secondary_windings. apply filter_seq_shift; auto. now rewrite Nat.eqb_refl. }
            set (sec := secondary_windings W R) in *.
            set (is_sec := fun w => existsb (Nat.eqb w) sec).
            assert (IS : forall w, w < W -> is_sec w = negb (Nat.eqb (nth w R 0) a)).
            { intros w Hw. unfold is_sec. destruct (negb (nth w R 0 =? a)) eqn:E.
              - apply existsb_eqb_In. rewrite ESec. apply filter_In. split; [apply in_seq; lia|].
                change (nth 0 R 0) with r0. rewrite <- Ha. exact E.
              - apply existsb_eqb_not_In. rewrite ESec. intros I. apply filter_In in I. destruct I as [_ I].
                change (nth 0 R 0) with r0 in I. rewrite <- Ha in I. congruence. }
            assert (lt_of : forall x w, In w (filter (fun w => Nat.eqb (nth w R 0) x) (seq 0 W)) -> w < W).
            { intros x w I. apply filter_In in I. destruct I as [I _]. apply in_seq in I. lia. }
            assert (FA : Forall (fun w => is_sec w = false) A).
            { apply Forall_forall. intros w Hw. rewrite IS by (eapply lt_of; eauto).
              rewrite Forall_forall in HA2. rewrite (HA2 w Hw), Nat.eqb_refl. reflexivity. }
            assert (FB : Forall (fun w => is_sec w = true) B).
            { apply Forall_forall. intros w Hw. rewrite IS by (eapply lt_of; eauto).
              rewrite Forall_forall in HB2. rewrite (HB2 w Hw). destruct (Nat.eqb_spec b a); [lia|reflexivity]. }
            assert (FC : Forall (fun w => is_sec w = true) C).
            { apply Forall_forall. intros w Hw. rewrite IS by (eapply lt_of; eauto).
              rewrite Forall_forall in HC2. rewrite (HC2 w Hw). destruct (Nat.eqb_spec c a); [lia|reflexivity]. }
            assert (Ebase : side_pattern W R [a; b; c] = A ++ B ++ C).
            { unfold side_pattern. simpl. fold A B C. now rewrite app_nil_r. }
            assert (Esec : filter is_sec (A ++ B ++ C) = B ++ C).
            { rewrite !filter_app, (filter_no _ A FA), (filter_all _ B FB), (filter_all _ C FC). reflexivity. }
            assert (HBl : 1 <= List.length B) by (destruct B; [congruence|simpl; lia]).
            assert (HCl : 1 <= List.length C) by (destruct C; [congruence|simpl; lia]).
            assert (HAl : 1 <= List.length A) by (destruct A; [congruence|simpl; lia]).
            assert (HPm : Permutation (A ++ B ++ C) (seq 0 W)).
            { rewrite <- Ebase. apply side_pattern_perm; auto.
              intros w Hw. rewrite <- ES. apply sides_used_In, nth_In. lia. }
            assert (HWl : 3 <= W).
            { apply Permutation_length in HPm. rewrite !app_length, seq_length in HPm. lia. }
            assert (Hsecl : 2 <= List.length sec).
            { assert (P : Permutation (filter is_sec (A ++ B ++ C)) (filter is_sec (seq 0 W))).
              { clear - HPm. induction HPm; simpl; auto.
                - destruct (is_sec x); auto.
                - destruct (is_sec x), (is_sec y); auto. apply perm_swap.
                - etransitivity; eauto. }
              rewrite Esec in P. apply Permutation_length in P. rewrite app_length in P.
              assert (E : filter is_sec (seq 0 W) = sec).
              { rewrite ESec. apply filter_ext_in. intros w Hw. apply in_seq in Hw.
                rewrite IS by lia. change (nth 0 R 0) with r0. now rewrite <- Ha. }
              rewrite E in P. lia. }
            destruct (Nat.leb_spec 3 W); [|lia].
            replace (List.length [side_pattern W R [a; b; c]; side_pattern W R (next_permutation [a; b; c]);
                   side_pattern W R (next_permutation (next_permutation [a; b; c]))] <? maximum_coil_pattern)
              with true by reflexivity.
            cbn [andb]. fold is_sec. cbn [hd]. rewrite Ebase, Esec.
            destruct (Nat.leb_spec 2 (List.length sec)); [|lia]. cbn [andb].
            rewrite app_length. destruct (Nat.leb_spec 2 (List.length B + List.length C)); [|lia].
            assert (ER : replace_secondaries is_sec (A ++ B ++ C) (rev (B ++ C)) = A ++ rev C ++ rev B).
            { rewrite replace_none by auto. f_equal. rewrite rev_app_distr. apply replace_all.
              - apply Forall_app. auto.
              - rewrite !app_length, !rev_length. lia. }
            rewrite ER.
            match goal with |- In _ (if ?b then add_if_new ?x _ else ?y) => destruct b end;
              [apply (proj2 (add_if_new_In _ _))|]; apply (proj1 (add_if_new_In _ _)). }
          destruct real; [apply add_reversals_keeps|]; assumption.
        * left. exists [A; rev C; rev B]. split; [simpl; now rewrite app_nil_r|].
          repeat constructor; auto.
          -- intros E. apply HC1. rewrite <- (rev_involutive C), E. reflexivity.
          -- now apply Forall_rev.
          -- intros E. apply HB1. rewrite <- (rev_involutive B), E. reflexivity.
          -- now apply Forall_rev.
      + exists (side_pattern W R [c; a; b]). split; [apply K; simpl; auto|]. right. auto. }
  destruct Q as (Q1 & Q2 & Q3).
  destruct (three_orders a b c order HP) as [->|[->|[->|[->|[->| ->]]]]]; cbn [rev app].
  - exact Q1.
  - exact Q2.
  - exact Q3.
  - destruct Q2 as (p & I & [V1|V1]); exists p; auto.
  - destruct Q3 as (p & I & [V1|V1]); exists p; auto.
  - destruct Q1 as (p & I & [V1|V1]); exists p; auto.
Qed.

Example C47_witness : List.length (nodup Nat.eq_dec [4; 7; 5; 7]) = 3 /\
  get_patterns 4 [4; 7; 5; 7] false false =
    Ok [[0; 1; 3; 2]; [2; 0; 1; 3]; [2; 1; 3; 0]; [0; 2; 3; 1]].
Proof. split; reflexivity. Qed.

(** The order is lost when the first winding is on another side than the first
    one in the enumeration: here no pattern has the secondary (7) between the
    other two sides. *)
Theorem C47_first_winding_not_on_lowest_side_refuted : exists requirement patterns,
  List.length (nodup Nat.eq_dec requirement) = 3 /\
  get_patterns (List.length requirement) requirement false false = Ok patterns /\
  forall p, In p patterns -> sides_used (map (fun w => nth w requirement 0) p) <> [4; 7; 10] /\
                             sides_used (map (fun w => nth w requirement 0) p) <> [10; 7; 4].
Proof.
  exists [7; 4; 10; 10]. eexists. split; [reflexivity|]. split; [reflexivity|].
  intros p Hp. repeat destruct Hp as [<-|Hp]; try destruct Hp; split; vm_compute; discriminate.
Qed.

(** ** C08 *)

(** How often a winding is mentioned when the pattern is repeated. *)
Definition mentions (pattern : list nat) (repetitions w : nat) : nat :=
  count_occ Nat.eq_dec (List.concat (repeat pattern repetitions)) w.

Theorem C08_never_more_sections_than_turns : forall phys pattern repetitions,
  NoDup pattern -> (forall w, In w pattern -> w < List.length phys /\ 0 < nth w phys 0) ->
  0 < repetitions ->
  exists pattern' repetitions',
    check_pattern_and_repetitions_integrity phys pattern repetitions = Ok (pattern', repetitions') /\
    (forall w, In w pattern -> mentions pattern' repetitions' w = Nat.min repetitions (nth w phys 0)) /\
    (forall w, In w pattern -> 1 <= mentions pattern' repetitions' w <= nth w phys 0) /\
    (forall w, ~ In w pattern -> mentions pattern' repetitions' w = 0) /\
    ((forall n, In n phys -> repetitions <= n) -> pattern' = pattern /\ repetitions' = repetitions).
Proof.
  intros phys pattern r HN HP Hr. unfold check_pattern_and_repetitions_integrity.
  destruct (existsb (fun n => n <? r) phys) eqn:E.
  - assert (EF : forallb (fun w => w <? List.length phys) pattern = true).
    { apply forallb_forall. intros w Hw. apply Nat.ltb_lt. now apply HP. }
    rewrite EF. cbn [orb].
    eexists _, _. split; [reflexivity|].
    assert (M : forall w, mentions (flat_map (fun repetition => filter (fun w => repetition <=? nth w phys 0) pattern)
                    (seq 1 r)) 1 w = count_occ Nat.eq_dec pattern w * Nat.min r (nth w phys 0)).
    { intros w. unfold mentions. simpl. rewrite app_nil_r, count_passes. simpl. now rewrite Nat.sub_0_r. }
    assert (M1 : forall w, In w pattern -> count_occ Nat.eq_dec pattern w = 1).
    { intros w Hw. now apply NoDup_count_occ'. }
    repeat split.
    + intros w Hw. rewrite M, M1 by auto. lia.
    + intros. rewrite M, M1 by auto. destruct (HP w H). lia.
    + intros. rewrite M, M1 by auto. destruct (HP w H). lia.
    + intros w Hw. rewrite M. apply (count_occ_not_In Nat.eq_dec) in Hw. now rewrite Hw.
    + exfalso. apply existsb_exists in E. destruct E as (n & Hn & E). apply Nat.ltb_lt in E.
      specialize (H n Hn). lia.
    + exfalso. apply existsb_exists in E. destruct E as (n & Hn & E). apply Nat.ltb_lt in E.
      specialize (H n Hn). lia.
  - eexists _, _. split; [reflexivity|].
    assert (M : forall w, mentions pattern r w = count_occ Nat.eq_dec pattern w * r).
    { intros w. unfold mentions. apply count_concat_repeat. }
    assert (M1 : forall w, In w pattern -> count_occ Nat.eq_dec pattern w = 1).
    { intros w Hw. now apply NoDup_count_occ'. }
    assert (G : forall w, In w pattern -> r <= nth w phys 0).
    { intros w Hw. destruct (HP w Hw) as [A B].
      destruct (Nat.lt_ge_cases (nth w phys 0) r) as [L|]; auto. exfalso.
      assert (existsb (fun n => n <? r) phys = true); [|congruence].
      apply existsb_exists. exists (nth w phys 0). split; [now apply nth_In|now apply Nat.ltb_lt]. }
    repeat split; auto.
    + intros w Hw. rewrite M, M1 by auto. specialize (G w Hw). lia.
    + rewrite M, M1 by auto. lia.
    + rewrite M, M1 by auto. specialize (G w H). lia.
    + intros w Hw. rewrite M. apply (count_occ_not_In Nat.eq_dec) in Hw. now rewrite Hw.
Qed.

Example C08_witness : check_pattern_and_repetitions_integrity [1; 5] [0; 1] 3 = Ok ([0; 1; 1; 1], 1).
Proof. reflexivity. Qed.

(** A pattern that already mentions a winding more often than it has turns is
    not corrected. *)
Theorem C08_repeated_winding_refuted : exists phys pattern repetitions pattern' repetitions' w,
  In w pattern /\ check_pattern_and_repetitions_integrity phys pattern repetitions = Ok (pattern', repetitions') /\
  nth w phys 0 < mentions pattern' repetitions' w.
Proof.
  exists [1; 5], [0; 1; 0], 1, [0; 1; 0], 1, 0. repeat split.
  - now left.
  - unfold mentions. simpl. lia.
Qed.

(** ** C09 *)

Theorem C09_grouping_is_a_partition : forall coil,
  (forall w, In w coil -> forall n, In n (wound_with w) -> In n (map name coil)) ->
  exists groups, create_virtualization_map coil = Ok groups /\
    Permutation (List.concat groups) (seq 0 (List.length coil)) /\
    Forall (fun g => g <> []) groups.
Proof.
  intros coil HW. unfold create_virtualization_map, virtual_indexes.
  destruct (assign_total coil (List.length coil)) with (inv := @nil nat) (next := 0) as (inv & E).
  - intros w Hw n Hn. apply (HW (nth w coil dummy_winding)); auto. now apply nth_In.
  - simpl. lia.
  - rewrite E. cbn [bind].
    destruct (assign_good coil _ [] 0 inv (good_inv_nil coil) E) as (next & G & L).
    exists (virtualization_map inv). split; [reflexivity|]. split.
    + pose proof (groups_partition inv) as P. simpl in L. now rewrite L in P.
    + eapply groups_nonempty; eauto.
Qed.

(** Two windings are declared to be wound together. *)
Definition together (coil : list winding) (i j : nat) : Prop :=
  i = j \/ In (name (nth j coil dummy_winding)) (wound_with (nth i coil dummy_winding)).

(** When every winding lists all its companions, the groups are exactly the sets
    of companions. *)
Theorem C09_groups_are_the_companions : forall coil groups,
  NoDup (map name coil) ->
  (forall i, i < List.length coil -> forall n, In n (wound_with (nth i coil dummy_winding)) -> In n (map name coil)) ->
  (forall i j, i < List.length coil -> j < List.length coil -> together coil i j -> together coil j i) ->
  (forall i j k, i < List.length coil -> j < List.length coil -> k < List.length coil ->
     together coil i j -> together coil j k -> together coil i k) ->
  create_virtualization_map coil = Ok groups ->
  forall i j, i < List.length coil -> j < List.length coil ->
    ((exists g, In g groups /\ In i g /\ In j g) <-> together coil i j).
Proof.
  intros coil groups HN HW HS HT HG i j Hi Hj.
  unfold create_virtualization_map in HG. destruct (virtual_indexes coil) as [inv| | |] eqn:E; try discriminate.
  cbn [bind] in HG. injection HG as <-.
  destruct (assign_good coil _ [] 0 inv (good_inv_nil coil) E) as (next & (G1 & G2 & G3 & G4) & L).
  simpl in L.
  assert (MIN : forall w, w < List.length coil -> exists m, get_winding_group_minimum_index coil w = Ok m /\
     m < List.length coil /\ together coil w m /\ (forall u, u < List.length coil -> together coil w u -> m <= u) /\
     nth w inv 0 = nth m inv 0).
  { intros w Hw. destruct (G3 w ltac:(lia)) as (m & Em & EE).
    exists m. split; auto. pose proof (group_min_le _ _ _ Em) as Hm. split; [lia|].
    unfold get_winding_group_minimum_index in Em. rewrite (nth_error_nth' coil dummy_winding Hw) in Em.
    apply minimum_index_spec in Em. destruct Em as (A & B & C). repeat split; auto.
    - destruct B as [->|(n & Hn & En)]; [now left|]. right.
      apply index_by_name_bound in En. destruct En as [En1 En2].
      rewrite Nat.sub_0_r in En2. now rewrite En2.
    - intros u Hu [<-|Hin]; auto. eapply C; [exact Hin|].
      unfold get_winding_index_by_name. now rewrite index_by_name_unique. }
  assert (SAME : nth i inv 0 = nth j inv 0 <-> together coil i j).
  { destruct (MIN i Hi) as (mi & Ei & Li & Ti & Mi & Ni).
    destruct (MIN j Hj) as (mj & Ej & Lj & Tj & Mj & Nj).
    assert (SELF : forall w m, w < List.length coil -> m < List.length coil ->
       get_winding_group_minimum_index coil w = Ok m -> together coil w m ->
       (forall u, u < List.length coil -> together coil w u -> m <= u) ->
       get_winding_group_minimum_index coil m = Ok m).
    { intros w m Hw Hm _ T M. destruct (MIN m Hm) as (mm & Em & Lm & Tm & Mm & _).
      rewrite Em. f_equal. assert (m <= mm) by (apply M; auto; eapply HT; eauto).
      assert (mm <= m) by (apply Mm; auto; now left). lia. }
    split.
    - intros EQ. assert (mi = mj).
      { destruct (Nat.lt_trichotomy mi mj) as [L1|[->|L1]]; auto; exfalso.
        - apply (G4 mj mj) with (u := mi); auto; try lia.
          eapply SELF with (w := j); eauto.
        - apply (G4 mi mi) with (u := mj); auto; try lia.
          eapply SELF with (w := i); eauto. }
      subst mj. apply (HT i mi j); auto.
    - intros T. assert (mi = mj).
      { assert (mi <= mj) by (apply Mi; auto; eapply (HT i j mj); eauto).
        assert (mj <= mi) by (apply Mj; auto; eapply (HT j i mi); eauto). lia. }
      subst mj. congruence. }
  rewrite <- SAME. split.
  - intros (g & Hg & Ii & Ij). unfold virtualization_map in Hg. apply in_map_iff in Hg.
    destruct Hg as (v & <- & _). apply members_In in Ii, Ij. lia.
  - intros EQ. exists (members inv (nth i inv 0)). split.
    + unfold virtualization_map. apply in_map, in_seq. split; [lia|]. apply max_bound, nth_In. lia.
    + split; apply members_In; split; auto; lia.
Qed.

(** When the lists are not transitively complete, companions end up in different
    groups even though they name each other. *)
Definition chain : list winding :=
  let w n l := {| name := n; number_turns := 4; number_parallels := 1; isolation_side := 0; wire := 0;
                  wound_with := l |} in
  [w "A" ["C"]; w "B" ["C"]; w "C" ["A"; "B"]]%string.

Theorem C09_chain_of_companions_refuted : exists coil groups i j,
  create_virtualization_map coil = Ok groups /\
  together coil i j /\ together coil j i /\
  ~ exists g, In g groups /\ In i g /\ In j g.
Proof.
  exists chain. eexists. exists 1, 2. split; [reflexivity|].
  split; [right; simpl; tauto|]. split; [right; simpl; tauto|].
  intros (g & [<-|[<-|[]]] & H1 & H2); simpl in H1, H2; lia.
Qed.

(** The virtual winding of a group has the turns of its members. *)
Theorem C09_virtual_winding_has_all_turns : forall coil group n p,
  (forall i, In i group -> 0 < number_parallels (nth i coil dummy_winding)) ->
  virtual_winding coil group = Ok (n, p) ->
  n = fold_right Nat.add 0 (map (fun i => number_turns (nth i coil dummy_winding)) group) /\
  (forall i, In i group -> number_parallels (nth i coil dummy_winding) = p) /\
  n * p = fold_right Nat.add 0
    (map (fun i => number_turns (nth i coil dummy_winding) * number_parallels (nth i coil dummy_winding)) group).
Proof.
  intros coil group n p HP H. unfold virtual_winding in H.
  destruct (merge_windings _ _) as [[[[n' p'] s'] x']| | |] eqn:E; try discriminate.
  cbn [bind] in H. injection H as -> ->.
  apply merge_spec in E.
  - destruct E as (A & _ & C). rewrite map_map in A. simpl in A.
    assert (C' : forall i, In i group -> number_parallels (nth i coil dummy_winding) = p).
    { intros i Hi. rewrite Forall_forall in C. apply C. apply in_map_iff. eauto. }
    repeat split; auto. rewrite A. clear - C'.
    induction group as [|i t IH]; simpl; auto.
    rewrite Nat.mul_add_distr_r, IH by (intros; apply C'; now right).
    rewrite (C' i) by now left. reflexivity.
  - apply Forall_map, Forall_forall. exact HP.
Qed.

(** Windings that agree can always be merged; windings that do not are refused. *)
Theorem C09_equal_windings_can_be_merged : forall coil group p side x,
  0 < p ->
  (forall i, In i group -> number_parallels (nth i coil dummy_winding) = p /\
     isolation_side (nth i coil dummy_winding) = side /\ wire (nth i coil dummy_winding) = x) ->
  group <> [] ->
  exists n, virtual_winding coil group = Ok (n, p).
Proof.
  intros coil [|i t] p side x Hp H Hne; [congruence|]. unfold virtual_winding. simpl.
  destruct (H i (or_introl eq_refl)) as (-> & -> & ->).
  destruct (merge_total (map (fun i => nth i coil dummy_winding) t) p side x
              (number_turns (nth i coil dummy_winding))) as (n & E); auto.
  - apply Forall_map, Forall_forall. intros j Hj. apply H. now right.
  - exists n. simpl in E. rewrite E. reflexivity.
Qed.

Theorem C09_different_parallels_refused : forall coil i j n p,
  0 < number_parallels (nth i coil dummy_winding) ->
  0 < number_parallels (nth j coil dummy_winding) ->
  number_parallels (nth i coil dummy_winding) <> number_parallels (nth j coil dummy_winding) ->
  forall group, In i group -> In j group ->
  (forall k, In k group -> 0 < number_parallels (nth k coil dummy_winding)) ->
  virtual_winding coil group <> Ok (n, p).
Proof.
  intros coil i j n p Hi Hj Hne group Ii Ij HP E.
  destruct (C09_virtual_winding_has_all_turns coil group n p HP E) as (_ & C & _).
  apply Hne. rewrite (C i Ii), (C j Ij). reflexivity.
Qed.

(** Turns of the virtual winding go back to the members: each keeps its place, and
    every parallel of every member gets exactly its turns. An entry of the result
    is (turn, member of the group, parallel). *)
Theorem C09_every_member_gets_its_turns : forall (T : Type) group (turns : list T),
  (forall w, In w group -> 0 < number_turns w /\ 0 < number_parallels w) ->
  List.length turns = fold_right Nat.add 0 (map (fun w => number_turns w * number_parallels w) group) ->
  exists out, devirtualize_turns group turns = Ok out /\
    map (fun e => fst (fst e)) out = turns /\
    (forall t m q, In (t, m, q) out -> m < List.length group /\
        q < number_parallels (nth m group dummy_winding)) /\
    forall m q, m < List.length group -> q < number_parallels (nth m group dummy_winding) ->
      List.length (filter (fun e => (snd (fst e) =? m) && (snd e =? q)) out) =
      number_turns (nth m group dummy_winding).
Proof.
  intros T group turns HP HL.
  destruct (devirtualize_spec group turns HP (eq_sym HL)) as (out & E & M & F & G).
  exists out. split; [exact E|]. split; [exact M|]. split; [|exact G].
  intros t m q I. rewrite Forall_forall in F. apply (F (t, m, q) I).
Qed.

Theorem C09_wrong_number_of_turns_refused : forall (T : Type) group (turns : list T) out,
  List.length turns <> fold_right Nat.add 0 (map (fun w => number_turns w * number_parallels w) group) ->
  devirtualize_turns group turns <> Ok out.
Proof.
  intros T group turns out H. unfold devirtualize_turns. cbv zeta.
  destruct (Nat.eqb_spec (fold_right Nat.add 0 (map physical group)) (List.length turns)) as [e|].
  - exfalso. apply H. now rewrite <- e.
  - discriminate.
Qed.

Definition bifilar : list winding :=
  let w n k l := {| name := n; number_turns := k; number_parallels := 2; isolation_side := 0; wire := 0;
                  wound_with := l |} in
  [w "A" 2 ["C"]; w "B" 3 []; w "C" 1 ["A"]]%string.
Example C09_witness :
  create_virtualization_map bifilar = Ok [[0; 2]; [1]] /\
  virtual_winding bifilar [0; 2] = Ok (3, 2) /\
  devirtualize_turns [nth 0 bifilar dummy_winding; nth 2 bifilar dummy_winding] (seq 0 6) =
    Ok [(0, 0, 0); (1, 0, 0); (2, 1, 0); (3, 0, 1); (4, 0, 1); (5, 1, 1)].
Proof. repeat split. Qed.

(** ** C11 *)

Lemma fold_plus l : forall a, (fold_left Qplus l a == a + Qsum l)%Q.
Proof. induction l as [|x t IH]; intros a; simpl; [ring|]. rewrite IH. ring. Qed.

Lemma winding_area_nonneg w : let '(wd, h, n, p) := w in (0 <= wd)%Q -> (0 <= h)%Q -> (0 <= n)%Z -> (0 <= p)%Z ->
  (0 <= winding_area w)%Q.
Proof.
  destruct w as [[[wd h] n] p]. intros H1 H2 H3 H4. unfold winding_area.
  assert (0 <= inject_Z n)%Q by (change 0%Q with (inject_Z 0); now rewrite <- Zle_Qle).
  assert (0 <= inject_Z p)%Q by (change 0%Q with (inject_Z 0); now rewrite <- Zle_Qle).
  repeat apply Qmult_le_0_compat; auto.
Qed.

Theorem C11_shares_partition_the_window : forall windings,
  (forall wd h n p, In (wd, h, n, p) windings -> 0 <= wd /\ 0 <= h /\ (0 <= n)%Z /\ (0 <= p)%Z)%Q ->
  (exists wd h n p, In (wd, h, n, p) windings /\ 0 < wd /\ 0 < h /\ (0 < n)%Z /\ (0 < p)%Z)%Q ->
  List.length (get_proportion_per_winding windings) = List.length windings /\
  (forall s, In s (get_proportion_per_winding windings) -> (0 <= s <= 1)%Q) /\
  (Qsum (get_proportion_per_winding windings) == 1)%Q /\
  (forall i j, i < List.length windings -> j < List.length windings ->
     let area k := match nth k windings (0, 0, 0%Z, 0%Z)%Q with (wd, h, n, p) =>
                     (wd * h * inject_Z n * inject_Z p)%Q end in
     (nth i (get_proportion_per_winding windings) 0 * area j ==
      nth j (get_proportion_per_winding windings) 0 * area i)%Q).
Proof.
  intros ws HP (wd0 & h0 & n0 & p0 & Hin & P1 & P2 & P3 & P4).
  unfold get_proportion_per_winding.
  set (areas := map winding_area ws).
  assert (HA : Forall (fun a => (0 <= a)%Q) areas).
  { apply Forall_map, Forall_forall. intros [[[wd h] n] p] Hw. destruct (HP _ _ _ _ Hw) as (A & B & C & D).
    apply (winding_area_nonneg (wd, h, n, p)); auto. }
  assert (HT : (0 < Qsum areas)%Q).
  { assert (Ia : In (winding_area (wd0, h0, n0, p0)) areas) by (now apply in_map).
    assert (Pa : (0 < winding_area (wd0, h0, n0, p0))%Q).
    { unfold winding_area.
      assert (0 < inject_Z n0)%Q by (change 0%Q with (inject_Z 0); now rewrite <- Zlt_Qlt).
      assert (0 < inject_Z p0)%Q by (change 0%Q with (inject_Z 0); now rewrite <- Zlt_Qlt).
      repeat apply Qmult_lt_0_compat; auto. }
    clear - HA Ia Pa. induction HA as [|a t Ha HA IH]; [destruct Ia|]. simpl.
    pose proof (Qsum_nonneg t HA). destruct Ia as [->|Ia]; [lra|]. specialize (IH Ia). lra. }
  assert (ET : (fold_left Qplus areas 0 == Qsum areas)%Q) by (rewrite fold_plus; ring).
  set (total := fold_left Qplus areas 0%Q) in *.
  assert (HT' : (0 < total)%Q) by (rewrite ET; auto).
  split; [unfold areas; now rewrite !map_length|]. split; [|split].
  - intros s Hs. apply in_map_iff in Hs. destruct Hs as (a & <- & Ia).
    assert (Ha : (0 <= a)%Q) by (rewrite Forall_forall in HA; auto).
    assert (HL : (a <= Qsum areas)%Q).
    { clear - HA Ia. induction HA as [|b t Hb HA IH]; [destruct Ia|]. simpl.
      pose proof (Qsum_nonneg t HA). destruct Ia as [->|Ia]; [lra|]. specialize (IH Ia). lra. }
    split.
    + rewrite (Qle_div_iff _ _ _ HT'). lra.
    + rewrite (Qdiv_le_iff _ _ _ HT'). lra.
  - assert (E : (Qsum (map (fun a => a / total) areas) == Qsum (map (fun a => / total * a) areas))%Q).
    { apply Qsum_ext. clearbody areas total. clear. induction areas as [|a t IH]; simpl; [constructor|]. constructor; [|exact IH]. unfold Qdiv. apply Qmult_comm. }
    rewrite E, Qsum_scale, <- ET. field. lra.
  - intros i j Hi Hj. cbv zeta.
    assert (N : forall k, k < List.length ws -> (nth k (map (fun a => a / total) areas) 0 ==
       match nth k ws (0, 0, 0%Z, 0%Z)%Q with (wd, h, n, p) => wd * h * inject_Z n * inject_Z p end / total)%Q).
    { intros k Hk. rewrite (nth_indep _ 0%Q ((fun a => a / total) (winding_area (0, 0, 0%Z, 0%Z)))%Q)
        by (unfold areas; now rewrite !map_length).
      rewrite (map_nth (fun a => a / total)%Q). unfold areas. rewrite map_nth.
      destruct (nth k ws _) as [[[wd h] n] p]. reflexivity. }
    rewrite (N i Hi), (N j Hj). field. lra.
Qed.

Example C11_witness : exists l, get_proportion_per_winding [(1#2, 1#2, 4%Z, 1%Z); (1#1, 1#1, 1%Z, 3%Z)]%Q = l /\
  Forall2 Qeq l [1#4; 3#4]%Q.
Proof. eexists. split; [reflexivity|]. repeat constructor. Qed.

(** ** C42 *)

Definition no_equal_neighbours (l : list nat) : Prop :=
  forall i, S i < List.length l -> nth i l 0 <> nth (S i) l 0.

(** [c] is [l] with some elements repeated next to themselves. *)
Inductive stutters : list nat -> list nat -> Prop :=
| st_nil : stutters [] []
| st_keep x c l : stutters c l -> stutters (x :: c) (x :: l)
| st_again x c l : stutters (x :: c) (x :: l) -> stutters (x :: c) (x :: x :: l).

Lemma compress_from_hd b l : forall x t, compress_from b l = x :: t -> x <> b.
Proof.
  revert b. induction l as [|w l IH]; intros b x t H; simpl in H; [discriminate|].
  destruct (Nat.eqb_spec b w); [eauto|]. injection H as <- <-. auto.
Qed.

Lemma compress_from_nodup b l : no_equal_neighbours (b :: compress_from b l).
Proof.
  revert b. induction l as [|w l IH]; intros b; simpl.
  - intros i Hi. simpl in Hi. lia.
  - destruct (Nat.eqb_spec b w); [apply IH|].
    intros [|i] Hi; simpl; auto. apply (IH w i). simpl in *. lia.
Qed.

Lemma compress_from_stutters b l : stutters (b :: compress_from b l) (b :: l).
Proof.
  revert b. induction l as [|w l IH]; intros b; simpl.
  - repeat constructor.
  - destruct (Nat.eqb_spec b w) as [->|].
    + apply st_again, IH.
    + apply st_keep, IH.
Qed.

Lemma compress_from_id b l : no_equal_neighbours (b :: l) -> compress_from b l = l.
Proof.
  revert b. induction l as [|w l IH]; intros b H; simpl; auto.
  destruct (Nat.eqb_spec b w) as [->|].
  - exfalso. apply (H 0); simpl; [lia|auto].
  - f_equal. apply IH. intros i Hi. apply (H (S i)). simpl in *. lia.
Qed.

Lemma stutters_In c l : stutters c l -> forall w, In w c <-> In w l.
Proof.
  induction 1 as [|x c l _ IH|x c l _ IH]; intros w.
  - tauto.
  - simpl. rewrite IH. tauto.
  - rewrite (IH w). simpl. tauto.
Qed.

Theorem C42_compression : forall pattern,
  no_equal_neighbours (compress_pattern pattern) /\
  stutters (compress_pattern pattern) pattern /\
  compress_pattern (compress_pattern pattern) = compress_pattern pattern /\
  (no_equal_neighbours pattern -> compress_pattern pattern = pattern) /\
  (forall w, In w (compress_pattern pattern) <-> In w pattern).
Proof.
  intros [|w l]; simpl.
  - repeat split; auto; try (intros ? Hi; simpl in Hi; lia); try constructor; tauto.
  - assert (N := compress_from_nodup w l). assert (St := compress_from_stutters w l).
    repeat split; auto.
    + f_equal. now apply compress_from_id.
    + intros H. f_equal. now apply compress_from_id.
    + intros H. apply (stutters_In _ _ St). exact H.
    + intros H. apply (stutters_In _ _ St). exact H.
Qed.

(** Only one list without equal neighbours stutters to a given one, so the
    compressed pattern is determined by the first two properties. *)
Theorem C42_compression_is_determined : forall pattern c,
  no_equal_neighbours c -> stutters c pattern -> c = compress_pattern pattern.
Proof.
  intros p c HN HS. induction HS as [|x c l HS IH|x c l HS IH]; auto.
  - assert (HN' : no_equal_neighbours c) by (intros i Hi; apply (HN (S i)); simpl; lia).
    specialize (IH HN'). subst c. destruct l as [|y l]; auto. simpl in *.
    destruct (Nat.eqb_spec x y) as [->|]; auto.
    exfalso. apply (HN 0); simpl; [lia|auto].
  - specialize (IH HN). simpl in *. rewrite Nat.eqb_refl. exact IH.
Qed.

Example C42_witness : compress_pattern [0; 0; 1; 1; 0; 2; 2] = [0; 1; 0; 2].
Proof. reflexivity. Qed.

(** Grouping the windings of a pattern replaces every winding by its group and
    removes adjacent repetitions. *)
Theorem C09_virtual_pattern : forall coil inv pattern,
  virtual_indexes coil = Ok inv ->
  (forall w, In w pattern -> w < List.length coil) ->
  exists grouped full, virtualize_pattern coil inv pattern = Ok grouped /\
    Forall2 (fun w v => In w (nth v (virtualization_map inv) [])) pattern full /\
    stutters grouped full /\ no_equal_neighbours grouped.
Proof.
  intros coil inv pattern E HP.
  destruct (assign_good coil _ [] 0 inv (good_inv_nil coil) E) as (next & (G1 & G2 & G3 & G4) & L).
  simpl in L.
  unfold virtualize_pattern.
  rewrite (map_outcome_ok _ (fun w => nth w inv 0)).
  - cbn [bind]. exists (compress_pattern (map (fun w => nth w inv 0) pattern)), (map (fun w => nth w inv 0) pattern).
    split; [reflexivity|].
    destruct (C42_compression (map (fun w => nth w inv 0) pattern)) as (A & B & _).
    split; [|auto].
    clear A B. induction pattern as [|w t IH]; simpl; constructor.
    + assert (Hw : w < List.length inv) by (rewrite L; apply HP; now left).
      unfold virtualization_map.
      rewrite (nth_indep _ [] (members inv 0)) by (rewrite map_length, seq_length; now apply max_bound, nth_In).
      rewrite map_nth, seq_nth by (now apply max_bound, nth_In). apply members_In. auto.
    + apply IH. intros; apply HP; now right.
  - intros w Hw. destruct (G3 w) as (m & Em & EE); [rewrite L; auto|].
    rewrite Em. cbn [bind]. pose proof (group_min_le _ _ _ Em). specialize (HP w Hw).
    rewrite (nth_error_nth' inv 0) by lia. now rewrite EE.
Qed.

(** No share is lost by grouping. *)
Theorem C09_shares_are_kept : forall coil groups shares,
  create_virtualization_map coil = Ok groups -> List.length shares = List.length coil ->
  (Qsum (virtualize_proportions groups shares) == Qsum shares)%Q /\
  List.length (virtualize_proportions groups shares) = List.length groups /\
  forall v, v < List.length groups ->
    (nth v (virtualize_proportions groups shares) 0 == Qsum (map (fun w => nth w shares 0) (nth v groups [])))%Q.
Proof.
  intros coil groups shares E HL. unfold virtualize_proportions. split; [|split].
  - unfold create_virtualization_map in E. destruct (virtual_indexes coil) as [inv| | |] eqn:EI; try discriminate.
    cbn [bind] in E. injection E as <-.
    destruct (assign_good coil _ [] 0 inv (good_inv_nil coil) EI) as (next & _ & L). simpl in L.
    pose proof (groups_partition inv) as P. rewrite L, <- HL in P.
    set (groups := virtualization_map inv) in *. clearbody groups.
    assert (A : (Qsum (map (fun ms => fold_left Qplus (map (fun w => nth w shares 0) ms) 0) groups) ==
                 Qsum (map (fun w => nth w shares 0) (List.concat groups)))%Q).
    { clear. induction groups as [|g t IH]; simpl; [reflexivity|].
      rewrite map_app, Qsum_app, IH, fold_plus. ring. }
    rewrite A.
    assert (B : forall a b, Permutation a b -> (Qsum (map (fun w => nth w shares 0%Q) a) ==
                  Qsum (map (fun w => nth w shares 0%Q) b))%Q).
    { clear. induction 1; simpl; try ring.
      - now rewrite IHPermutation.
      - now rewrite IHPermutation1. }
    rewrite (B _ _ P). clear.
    assert (G : forall l, map (fun w => nth w l 0%Q) (seq 0 (List.length l)) = l).
    { induction l as [|x t IH]; simpl; auto. f_equal. rewrite <- seq_shift, map_map. exact IH. }
    now rewrite G.
  - apply map_length.
  - intros v Hv. rewrite (nth_indep _ 0%Q (fold_left Qplus (map (fun w => nth w shares 0%Q) []) 0%Q))
      by now rewrite map_length.
    rewrite (map_nth (fun ms => fold_left Qplus (map (fun w => nth w shares 0%Q) ms) 0%Q)).
    rewrite fold_plus. ring.
Qed.

Print Assumptions C05_sections_follow_the_pattern.
Print Assumptions C05_sections_use_the_space.
Print Assumptions C06_insulation_is_carved_out.
Print Assumptions C07_patterns_are_legal.
Print Assumptions C47_three_sides_cover_every_order.
Print Assumptions C08_never_more_sections_than_turns.
Print Assumptions C09_grouping_is_a_partition.
Print Assumptions C09_groups_are_the_companions.
Print Assumptions C09_every_member_gets_its_turns.
Print Assumptions C11_shares_partition_the_window.
Print Assumptions C42_compression.
