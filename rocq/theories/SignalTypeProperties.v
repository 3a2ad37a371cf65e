(** C207, C208: which winding a column belongs to, and whether it is a voltage or a
    current. *)
From Coq Require Import List Bool Ascii String ZArith QArith Qabs Arith Lia Sorted Permutation Lra Lqa.
From Verif Require Import Base QAux CsvModel SignalModel.
Import ListNotations.
Local Open Scope nat_scope.

(** * C207: windings *)
(** A column that is not a time. *)
Definition is_signal (c : column) : bool := match can_be_time (cdata c) with Ok true => false | _ => true end.
(** The number or label in the name of a column. *)
Definition bears (c : column) (i : Z) : Prop := exists b, name_index (cname c) = Ok (i, b).
Definition labelled (c : column) : bool := match name_index (cname c) with Ok (_, b) => b | _ => false end.

Definition raw (c : column) : Z := match name_index (cname c) with Ok (i, _) => i | _ => 0%Z end.
Definition readable (cs : list column) : Prop :=
  Forall (fun c => (exists b, can_be_time (cdata c) = Ok b) /\ (is_signal c = true -> exists x, name_index (cname c) = Ok x)) cs.
Lemma indexed_spec : forall cs l n, indexed cs = Ok (l, n) ->
  readable cs /\ l = map (fun c => (c, raw c)) (filter is_signal cs) /\ n = List.length (filter labelled (filter is_signal cs)).
Proof.
  induction cs as [|c cs IH]; intros l n H; cbn [indexed] in H.
  - injection H as <- <-. split; [constructor|]. split; reflexivity.
  - destruct (can_be_time (cdata c)) as [t|w|w|] eqn:T; cbn [bind] in H; try discriminate. destruct t.
    + destruct (IH l n H) as (A & B & C). cbn [filter]. assert (E : is_signal c = false) by (unfold is_signal; now rewrite T). rewrite E. split; [|split; assumption].
      constructor; [|exact A]. split; [eauto|]. rewrite E. discriminate.
    + destruct (name_index (cname c)) as [(i, b)|w|w|] eqn:N; cbn [bind] in H; try discriminate. destruct (indexed cs) as [(l', n')|w|w|]; cbn [bind] in H; try discriminate.
      destruct (IH l' n' eq_refl) as (A & B & C). cbn [fst snd] in H. injection H as <- <-. cbn [filter]. assert (E : is_signal c = true) by (unfold is_signal; now rewrite T). rewrite E.
      split; [constructor; [split; eauto|exact A]|]. cbn [map filter]. unfold raw at 1, labelled at 1. rewrite N. split; [now rewrite B|]. destruct b; cbn [List.length]; rewrite C; reflexivity.
Qed.
Lemma indexed_ok : forall cs, readable cs ->
  indexed cs = Ok (map (fun c => (c, raw c)) (filter is_signal cs), List.length (filter labelled (filter is_signal cs))).
Proof.
  intros cs R. induction R as [|c cs ((t & T) & N) R IH]; [reflexivity|]. cbn [indexed filter]. rewrite T. cbn [bind].
  assert (E : is_signal c = negb t) by (unfold is_signal; rewrite T; now destruct t). rewrite E in *. destruct t; cbn [negb] in *; [exact IH|].
  destruct (N eq_refl) as ((i, b) & F). rewrite F. cbn [bind]. rewrite IH. cbn [bind fst snd map filter].
  assert (F1 : raw c = i) by (unfold raw; now rewrite F). assert (F2 : labelled c = b) by (unfold labelled; now rewrite F). rewrite F1, F2. destruct b; reflexivity.
Qed.

Lemma insert_in : forall v l x, In x (insert v l) <-> x = v \/ In x l.
Proof.
  induction l as [|y l IH]; intro x; cbn [insert]; [cbn; intuition|]. destruct (v <? y)%Z; [cbn; intuition|]. destruct (Z.eqb_spec v y) as [->|N]; [cbn; intuition|].
  cbn [In]. rewrite IH. intuition.
Qed.
Lemma insert_sorted : forall v l, StronglySorted Z.lt l -> StronglySorted Z.lt (insert v l).
Proof.
  intros v l S. induction S as [|y l S IH F]; [repeat constructor|]. cbn [insert]. destruct (Z.ltb_spec v y).
  - constructor; [constructor; assumption|]. constructor; [exact H|]. eapply Forall_impl; [|exact F]. intros z Hz. cbn in *. lia.
  - destruct (Z.eqb_spec v y) as [->|N]; [constructor; assumption|]. constructor; [exact IH|]. apply Forall_forall. intros z Hz. apply insert_in in Hz. destruct Hz as [->|Hz]; [lia|]. rewrite Forall_forall in F. apply F, Hz.
Qed.
Lemma unique_spec : forall l, StronglySorted Z.lt (sorted_unique l) /\ forall x, In x (sorted_unique l) <-> In x l.
Proof.
  induction l as [|v l (A & B)]; [split; [constructor|reflexivity]|]. cbn [sorted_unique fold_right]. split; [apply insert_sorted, A|]. intro x. rewrite insert_in. rewrite B. cbn [In]. intuition.
Qed.
Lemma sorted_same : forall l l', StronglySorted Z.lt l -> StronglySorted Z.lt l' -> (forall x, In x l <-> In x l') -> l = l'.
Proof.
  intros l l' S. revert l'. induction S as [|x l S IH F]; intros l' S' E.
  - destruct l' as [|y l']; [reflexivity|]. exfalso. apply (E y). left. reflexivity.
  - destruct S' as [|y l' S' F']; [exfalso; apply (E x); left; reflexivity|]. rewrite Forall_forall in F, F'.
    assert (x = y). { destruct (proj1 (E x) (or_introl eq_refl)) as [|A]; [auto|]. destruct (proj2 (E y) (or_introl eq_refl)) as [|B]; [auto|]. specialize (F _ B). specialize (F' _ A). lia. }
    subst y. f_equal. apply IH; [exact S'|]. intro z. split; intro H.
    + destruct (proj1 (E z) (or_intror H)) as [<-|]; [specialize (F _ H); lia|assumption].
    + destruct (proj2 (E z) (or_intror H)) as [<-|]; [specialize (F' _ H); lia|assumption].
Qed.
Lemma sorted_nodup : forall l, StronglySorted Z.lt l -> NoDup l.
Proof. intros l S. induction S as [|x l S IH F]; constructor; [|exact IH]. intro H. rewrite Forall_forall in F. specialize (F _ H). lia. Qed.
Lemma sorted_positions : forall l a b i j, StronglySorted Z.lt l -> nth_error l a = Some i -> nth_error l b = Some j -> (a < b <-> (i < j)%Z).
Proof.
  assert (G : forall l a b i j, StronglySorted Z.lt l -> nth_error l a = Some i -> nth_error l b = Some j -> a < b -> (i < j)%Z).
  { intros l a b i j S. revert a b. induction S as [|x l S IH F]; intros a b A B L; [destruct a; discriminate|]. destruct b as [|b]; [lia|]. destruct a as [|a]; cbn [nth_error] in *.
    - injection A as <-. rewrite Forall_forall in F. apply F, (nth_error_In _ _ B).
    - apply (IH a b A B). lia. }
  intros l a b i j S A B. split; [apply (G l a b i j S A B)|]. intro L. destruct (Nat.lt_trichotomy a b) as [|[->|H]]; [assumption| |].
  - rewrite A in B. injection B as <-. lia.
  - specialize (G l b a j i S B A H). lia.
Qed.
Lemma regroup_in : forall U l k0 c k, In (c, k) (regroup k0 U l) <-> exists m i, k = k0 + m /\ nth_error U m = Some i /\ In (c, i) l.
Proof.
  induction U as [|i U IH]; intros l k0 c k; cbn [regroup].
  - split; [intros []|]. intros (m & i & _ & H & _). destruct m; discriminate.
  - rewrite in_app_iff, in_map_iff, IH. split.
    + intros [((c', i') & E & H)|(m & j & -> & A & B)].
      * apply filter_In in H. destruct H as (H & Z). cbn [fst snd] in *. injection E as -> <-. apply Z.eqb_eq in Z. subst i'. exists 0, i. split; [lia|]. split; [reflexivity|exact H].
      * exists (S m), j. split; [lia|]. split; assumption.
    + intros (m & j & -> & A & B). destruct m as [|m]; cbn [nth_error] in A.
      * injection A as <-. left. exists (c, i). split; [cbn [fst]; f_equal; lia|]. apply filter_In. split; [exact B|]. apply Z.eqb_refl.
      * right. exists m, j. split; [lia|]. split; assumption.
Qed.
Lemma regroup_sorted : forall U l k0, StronglySorted (fun a b : column * nat => snd a <= snd b) (regroup k0 U l).
Proof.
  induction U as [|i U IH]; intros l k0; cbn [regroup]; [constructor|].
  induction (filter (fun c => Z.eqb (snd c) i) l) as [|x f IHf]; cbn [map app]; [apply IH|]. constructor; [exact IHf|]. apply Forall_forall. intros (c, k) H. cbn [snd]. apply in_app_iff in H. destruct H as [H|H].
  - apply in_map_iff in H. destruct H as (y & E & _). injection E as _ <-. lia.
  - apply regroup_in in H. destruct H as (m & j & -> & _). lia.
Qed.
Lemma regroup_columns : forall U l k0, map fst (regroup k0 U l) = map fst (List.concat (map (fun i => filter (fun c => Z.eqb (snd c) i) l) U)).
Proof. induction U as [|i U IH]; intros l k0; [reflexivity|]. cbn [regroup map List.concat]. rewrite !map_app, IH, map_map. reflexivity. Qed.
Lemma grouped_perm : forall U (l : list (column * Z)), NoDup U -> (forall c, In c l -> In (snd c) U) ->
  Permutation (List.concat (map (fun i => filter (fun c => Z.eqb (snd c) i) l) U)) l.
Proof.
  intros U l N. induction l as [|c l IH]; intro H.
  - clear. induction U as [|i U IH]; [constructor|]. exact IH.
  - specialize (IH (fun x Hx => H x (or_intror Hx))). etransitivity; [|apply perm_skip, IH]. clear IH. specialize (H c (or_introl eq_refl)). clear -N H.
    induction U as [|i U IHU]; [destruct H|]. inversion N as [|? ? N1 N2]; subst. cbn [map List.concat filter]. destruct (Z.eqb_spec (snd c) i) as [E|E].
    + cbn [app]. constructor. apply Permutation_app_head. replace (map (fun i0 => if (snd c =? i0)%Z then c :: filter (fun c0 => (snd c0 =? i0)%Z) l else filter (fun c0 => (snd c0 =? i0)%Z) l) U) with (map (fun i0 => filter (fun c0 => (snd c0 =? i0)%Z) l) U); [reflexivity|].
      apply map_ext_in. intros j J. destruct (Z.eqb_spec (snd c) j); [exfalso; apply N1; congruence|reflexivity].
    + destruct H as [H|H]; [congruence|]. rewrite (IHU N2 H). rewrite Permutation_middle. reflexivity.
Qed.
Lemma grouped_filter : forall U (l : list (column * Z)) j, NoDup U -> In j U ->
  filter (fun c => Z.eqb (snd c) j) (List.concat (map (fun i => filter (fun c => Z.eqb (snd c) i) l) U)) = filter (fun c => Z.eqb (snd c) j) l.
Proof.
  assert (D : forall (l : list (column * Z)) i j, filter (fun c => Z.eqb (snd c) j) (filter (fun c => Z.eqb (snd c) i) l) = if Z.eqb i j then filter (fun c => Z.eqb (snd c) j) l else []).
  { intros l i j. induction l as [|c l IH]; [now destruct (Z.eqb i j)|]. cbn [filter]. destruct (Z.eqb_spec (snd c) i) as [E|E]; cbn [filter]; rewrite IH; destruct (Z.eqb_spec i j) as [F|F]; destruct (Z.eqb_spec (snd c) j) as [G|G]; try reflexivity; congruence. }
  intros U l j N. induction U as [|i U IH]; intro H; [destruct H|]. inversion N as [|? ? N1 N2]; subst. cbn [map List.concat]. rewrite filter_app, D. destruct (Z.eqb_spec i j) as [->|E].
  - replace (filter _ (List.concat _)) with (@nil (column * Z)); [apply app_nil_r|]. symmetry. clear -N1 D. induction U as [|k U IH]; [reflexivity|]. cbn [map List.concat]. rewrite filter_app, D. destruct (Z.eqb_spec k j) as [->|]; [exfalso; apply N1; left; reflexivity|]. apply IH. intro H. apply N1. right. exact H.
  - destruct H as [H|H]; [contradiction|]. apply IH; assumption.
Qed.

(** Every signal is kept once and no time is; windings are numbered from zero without
    gaps, in the order of the numbers in the names; the columns come out by winding. *)
Theorem C207_windings : forall number cs out enough, winding_indexes number cs = Ok (out, enough) ->
  Permutation (map fst out) (filter is_signal cs) /\
  (forall c k c' k' i i', In (c, k) out -> In (c', k') out -> bears c i -> bears c' i' -> (k < k' <-> (i < i')%Z)) /\
  (forall c k j, In (c, k) out -> j < k -> exists c', In (c', j) out) /\
  StronglySorted (fun a b => snd a <= snd b) out /\
  (enough = true <-> number <= List.length (filter labelled (filter is_signal cs))).
Proof.
  intros number cs out enough H. unfold winding_indexes in H. destruct (indexed cs) as [(l, n)|w|w|] eqn:E; cbn [bind] in H; try discriminate. cbn [fst snd] in H.
  destruct (indexed_spec cs l n E) as (R & L & N). injection H as <- <-. destruct (unique_spec (map snd l)) as (S & I0). set (U := sorted_unique (map snd l)) in *.
  split; [|split; [|split; [|split; [apply regroup_sorted|rewrite Nat.leb_le, N; reflexivity]]]].
  - rewrite regroup_columns. rewrite (Permutation_map fst (grouped_perm U l (sorted_nodup U S) (fun c Hc => proj2 (I0 (snd c)) (in_map snd l c Hc)))). rewrite L, map_map, map_id. reflexivity.
  - intros c k c' k' i i' A B (b & C) (b' & D). apply regroup_in in A. destruct A as (m & j & -> & A1 & A2). apply regroup_in in B. destruct B as (m' & j' & -> & B1 & B2).
    rewrite L in A2, B2. apply in_map_iff in A2, B2. destruct A2 as (x & E1 & _), B2 as (x' & E2 & _). injection E1 as -> <-. injection E2 as -> <-.
    unfold raw in A1, B1. rewrite C in A1. rewrite D in B1. rewrite <- (sorted_positions U m m' i i' S A1 B1). lia.
  - intros c k j A J. apply regroup_in in A. destruct A as (m & i & -> & A1 & _). cbn [Nat.add] in *. destruct (nth_error U j) as [i'|] eqn:G.
    + pose proof (nth_error_In _ _ G) as K. apply I0, in_map_iff in K. destruct K as ((c', i'') & <- & K). exists c'. apply regroup_in. exists j, i''. auto.
    + exfalso. apply nth_error_None in G. assert (m < List.length U) by (apply nth_error_Some; congruence). lia.
Qed.
(** Asking again changes nothing: the columns that are left are numbered the same. *)
Theorem C207_again : forall number cs out enough, winding_indexes number cs = Ok (out, enough) ->
  winding_indexes number (map fst out) = Ok (out, enough).
Proof.
  intros number cs out enough H. destruct (C207_windings number cs out enough H) as (P & _ & _ & _ & EN). unfold winding_indexes in *. destruct (indexed cs) as [(l, n)|w|w|] eqn:E; cbn [bind] in H; try discriminate. cbn [fst snd] in H.
  destruct (indexed_spec cs l n E) as (R & L & N). injection H as H1 H2.
  assert (F : filter is_signal (map fst out) = map fst out).
  { assert (G : forall m, (forall x, In x m -> is_signal x = true) -> filter is_signal m = m).
    { induction m as [|x m IH]; intro Q; [reflexivity|]. cbn [filter]. rewrite (Q x (or_introl eq_refl)). f_equal. apply IH. intros y Y. apply Q. right. exact Y. }
    apply G. intros x X. apply (Permutation_in x P) in X. apply filter_In in X. apply X. }
  assert (R' : readable (map fst out)).
  { unfold readable in *. rewrite Forall_forall in *. intros x X. apply R. apply (Permutation_in x P) in X. apply filter_In in X. apply X. }
  rewrite (indexed_ok _ R'), F. cbn [bind fst snd]. destruct (unique_spec (map snd l)) as (S & I0).
  assert (LC : map (fun c => (c, raw c)) (map fst out) = List.concat (map (fun i => filter (fun c => Z.eqb (snd c) i) l) (sorted_unique (map snd l)))).
  { rewrite <- H1, regroup_columns, map_map. transitivity (map (fun x : column * Z => x) (List.concat (map (fun i => filter (fun c => Z.eqb (snd c) i) l) (sorted_unique (map snd l))))); [|apply map_id].
    apply map_ext_in. intros (c, i) X. apply in_concat in X. destruct X as (y & Y & X). apply in_map_iff in Y. destruct Y as (j & <- & _). apply filter_In in X. destruct X as (X & _). rewrite L in X. apply in_map_iff in X. destruct X as (x & E1 & _). injection E1 as <- <-. reflexivity. }
  rewrite LC. set (G := List.concat _) in *. assert (PG : Permutation G l) by (apply grouped_perm; [apply sorted_nodup, S|intros c Hc; apply I0, in_map, Hc]).
  assert (UU : sorted_unique (map snd G) = sorted_unique (map snd l)).
  { apply sorted_same; [apply unique_spec|exact S|]. intro x. rewrite (proj2 (unique_spec (map snd G)) x), I0. rewrite (Permutation_map snd PG). reflexivity. }
  rewrite UU. f_equal. f_equal.
  - rewrite <- H1. assert (D : forall V k0, (forall i, In i V -> In i (sorted_unique (map snd l))) -> regroup k0 V G = regroup k0 V l).
    { induction V as [|i V IH]; intros k0 K; [reflexivity|]. cbn [regroup]. rewrite (IH (Datatypes.S k0)) by (intros j J; apply K; right; exact J). f_equal. f_equal. unfold G. apply grouped_filter; [apply sorted_nodup, S|apply K; left; reflexivity]. }
    apply D. auto.
  - rewrite <- H2. rewrite N. f_equal. assert (PF : Permutation (filter labelled (map fst out)) (filter labelled (filter is_signal cs))).
    { clear -P. induction P as [|x a b P IH|x y a|a b c P1 IH1 P2 IH2]; cbn [filter].
      - constructor.
      - destruct (labelled x); [constructor|]; exact IH.
      - destruct (labelled x), (labelled y); try reflexivity. apply perm_swap.
      - now rewrite IH1. }
    apply Permutation_length, PF.
Qed.
Definition V (s : string) (d : list Q) : column := mkColumn (list_ascii_of_string s) d.
Example C207_witness : winding_indexes 2 [V "time" [0; 1]; V "V(n7)" [1; 0]; V "I(L2)" [2; 0]; V "V(n2)" [3; 0]]%Q =
  Ok ([(V "I(L2)" [2; 0]%Q, 0); (V "V(n2)" [3; 0]%Q, 0); (V "V(n7)" [1; 0]%Q, 1)], true) /\ bears (V "V(n7)" [1; 0]%Q) 7.
Proof. split; [vm_compute; reflexivity|]. exists true. reflexivity. Qed.

(** The number of a name is the last it holds. *)
Definition digits_value (s : text) : Z := fold_left (fun v c => (10 * v + Z.of_nat (nat_of_ascii c - 48))%Z) s 0%Z.
Lemma numbers_digits : forall ds v s, forallb is_digit ds = true -> numbers (Some v) (ds ++ s) = numbers (Some (fold_left (fun v c => (10 * v + Z.of_nat (nat_of_ascii c - 48))%Z) ds v)) s.
Proof. induction ds as [|c ds IH]; intros v s H; [reflexivity|]. cbn [forallb] in H. apply andb_true_iff in H. destruct H as (A & B). cbn [app numbers fold_left]. rewrite A. apply IH, B. Qed.
Lemma numbers_plain : forall s, forallb (fun c => negb (is_digit c)) s = true -> numbers None s = [].
Proof. induction s as [|c s IH]; intro H; [reflexivity|]. cbn [forallb] in H. apply andb_true_iff in H. destruct H as (A & B). cbn [numbers]. apply negb_true_iff in A. rewrite A. apply IH, B. Qed.
Lemma numbers_tail : forall v s, forallb (fun c => negb (is_digit c)) s = true -> numbers (Some v) s = [v].
Proof. intros v s H. destruct s as [|c s]; [reflexivity|]. cbn [forallb] in H. apply andb_true_iff in H. destruct H as (A & B). cbn [numbers]. apply negb_true_iff in A. rewrite A. now rewrite numbers_plain. Qed.
Lemma numbers_prefix : forall p run s c, is_digit c = false -> exists l, numbers run (p ++ c :: s) = l ++ numbers None s.
Proof.
  induction p as [|x p IH]; intros run s c C; cbn [app numbers].
  - rewrite C. destruct run as [v|]; [exists [v]|exists []]; reflexivity.
  - destruct (is_digit x); [apply IH, C|]. destruct (IH None s c C) as (l & E). destruct run as [v|]; rewrite E; [exists (v :: l)|exists l]; reflexivity.
Qed.
Theorem C207_number : forall p c ds s, is_digit c = false -> ds <> [] -> forallb is_digit ds = true -> forallb (fun x => negb (is_digit x)) s = true ->
  (digits_value ds <= 2147483647)%Z ->
  name_index (p ++ c :: ds ++ s) = Ok (digits_value ds, true) \/ (exists w, name_index (p ++ c :: ds ++ s) = Throw w).
Proof.
  intros p c ds s C N D S L. destruct (numbers_prefix p None (ds ++ s) c C) as (l & E). destruct ds as [|d ds]; [contradiction|].
  cbn [forallb] in D. apply andb_true_iff in D. destruct D as (D1 & D2).
  assert (F : numbers None ((d :: ds) ++ s) = [digits_value (d :: ds)]).
  { cbn [app numbers]. rewrite D1. rewrite numbers_digits by exact D2. rewrite numbers_tail by exact S. reflexivity. }
  unfold name_index. rewrite E, F. destruct (forallb stoi_fits (l ++ [digits_value (d :: ds)])); [left|right; eauto].
  rewrite last_last. destruct l; reflexivity.
Qed.
(** Without a number the labels decide, the longer ones first; without a label the
    column goes with the first. *)
Theorem C207_label : forall s, forallb (fun x => negb (is_digit x)) s = true ->
  exists i b, name_index s = Ok (i, b) /\
    (b = false -> i = 0%Z /\ Forall (fun p => contains (fst p) s = false) winding_labels) /\
    (b = true -> exists l1 l l2, winding_labels = l1 ++ (l, i) :: l2 /\ contains l s = true /\ Forall (fun p => contains (fst p) s = false) l1).
Proof.
  intros s H. unfold name_index. rewrite numbers_plain by exact H. cbn [forallb].
  assert (G : forall L : list (text * Z), match find (fun p => contains (fst p) s) L with
    | Some p => exists l1 l2, L = l1 ++ p :: l2 /\ contains (fst p) s = true /\ Forall (fun p => contains (fst p) s = false) l1
    | None => Forall (fun p => contains (fst p) s = false) L end).
  { induction L as [|p L IH]; cbn [find]; [constructor|]. destruct (contains (fst p) s) eqn:E.
    - exists [], L. split; [reflexivity|]. split; [exact E|constructor].
    - destruct (find _ L) as [q|]; [|constructor; assumption]. destruct IH as (l1 & l2 & -> & A & B). exists (p :: l1), l2. split; [reflexivity|]. split; [exact A|constructor; assumption]. }
  specialize (G winding_labels). destruct (find (fun p => contains (fst p) s) winding_labels) as [(l, i)|].
  - exists i, true. split; [reflexivity|]. split; [discriminate|]. intros _. destruct G as (l1 & l2 & A & B & C). exists l1, l, l2. auto.
  - exists 0%Z, false. split; [reflexivity|]. split; [auto|discriminate].
Qed.
(** The labels in use: primary, secondary and auxiliary or tertiary windings. *)
Example C207_label_witness : map (fun n => name_index (list_ascii_of_string n)) ["V_pri"; "V_sec"; "I_aux"; "I_ter"; "I_trafo_HV"; "V_LV"; "x"]%string =
  [Ok (0, true); Ok (1, true); Ok (2, true); Ok (2, true); Ok (0, true); Ok (1, true); Ok (0, false)]%Z.
Proof. vm_compute. reflexivity. Qed.
(** Full claim: any file with a time and signals can be imported.  False: a number in a
    name that does not fit an int, such as a date, makes it throw. *)
Theorem C207_long_number_refuted : forall ds number d rest, forallb is_digit ds = true -> (2147483647 < digits_value ds)%Z -> can_be_time d = Ok false ->
  exists w, winding_indexes number (mkColumn ds d :: rest) = Throw w.
Proof.
  intros ds number d rest D L T. unfold winding_indexes. cbn [indexed cdata cname]. rewrite T. cbn [bind].
  assert (F : numbers None ds = [digits_value ds]).
  { destruct ds as [|c ds]; [cbn in L; lia|]. cbn [forallb] in D. apply andb_true_iff in D. destruct D as (D1 & D2). cbn [numbers]. rewrite D1. rewrite <- (app_nil_r ds) at 1. rewrite numbers_digits by exact D2. reflexivity. }
  unfold name_index. rewrite F. cbn [forallb]. unfold stoi_fits. rewrite (proj2 (Z.leb_gt _ _) L). cbn [andb bind]. eexists. reflexivity.
Qed.
Example C207_long_number_witness : (2147483647 < digits_value (list_ascii_of_string "20240131093000"))%Z /\ can_be_time [1; 0]%Q = Ok false.
Proof. split; reflexivity. Qed.

(** * C208: voltage or current *)
Definition multiple (k : Q) (x x' : Q) : Prop := (x' == k * x)%Q.
Lemma cmax_morph : forall a b a' b' k, (0 < k)%Q -> (a' == k * a)%Q -> (b' == k * b)%Q -> (cmax a' b' == k * cmax a b)%Q.
Proof.
  intros a b a' b' k K A B. unfold cmax. destruct (Qlt_bool a b) eqn:E; destruct (Qlt_bool a' b') eqn:F; qb; try assumption.
  - assert (k * a < k * b)%Q by (apply Qmult_lt_l; assumption). lra.
  - assert (k * b <= k * a)%Q by (apply Qmult_le_l; assumption). lra.
Qed.
Lemma error_morph : forall k a b a' b', ~ (k == 0)%Q -> multiple k a a' -> multiple k b b' -> (relative_error a' b' == relative_error a b \/ (relative_error a b == 0 /\ relative_error a' b' == 0))%Q.
Proof.
  intros k a b a' b' K A B. unfold multiple in *. unfold relative_error.
  assert (KP : (0 < Qabs k)%Q) by (destruct (Qlt_le_dec 0 (Qabs k)) as [|H]; [assumption|]; exfalso; apply K; pose proof (Qabs_nonneg k); apply Qabs_case with (x := k) in H || idtac; revert H; apply (Qabs_case k); intros; lra).
  assert (M : (cmax (Qabs b') (Qabs a') == Qabs k * cmax (Qabs b) (Qabs a))%Q).
  { apply cmax_morph; [exact KP|rewrite B; apply Qabs_Qmult|rewrite A; apply Qabs_Qmult]. }
  assert (D : (Qabs (a' - b') == Qabs k * Qabs (a - b))%Q) by (rewrite <- Qabs_Qmult; apply Qabs_wd; rewrite A, B; ring).
  assert (SM : (cmax (Qabs b) (Qabs a) == 0 -> Qabs (a - b) == 0)%Q).
  { intro Z. assert (Za : (Qabs a <= 0)%Q /\ (Qabs b <= 0)%Q) by (revert Z; unfold cmax; destruct (Qlt_bool (Qabs b) (Qabs a)) eqn:E; qb; intros; split; lra).
    pose proof (Qabs_triangle a (- b)). rewrite Qabs_opp in H. pose proof (Qabs_nonneg (a - b)). unfold Qminus in *. lra. }
  destruct (Qeq_bool (cmax (Qabs b) (Qabs a)) 0) eqn:E; destruct (Qeq_bool (cmax (Qabs b') (Qabs a')) 0) eqn:F; qb.
  - right. split; [apply SM, E|]. rewrite D, (SM E). ring.
  - exfalso. apply F. rewrite M, E. ring.
  - exfalso. apply E. rewrite M in F. destruct (Qeq_dec (cmax (Qabs b) (Qabs a)) 0) as [|G]; [assumption|]. exfalso. apply Qmult_integral in F. destruct F; lra.
  - left. rewrite D, M. field. split; [exact E|]. lra.
Qed.
Definition same_levels (k : Q) (p p' : Q * nat) : Prop := multiple k (fst p) (fst p') /\ snd p = snd p'.
Lemma note_level_morph : forall k limit x x' ls ls', ~ (k == 0)%Q -> multiple k x x' -> Forall2 (same_levels k) ls ls' ->
  Forall2 (same_levels k) (fst (note_level limit x ls)) (fst (note_level limit x' ls')) /\ snd (note_level limit x ls) = snd (note_level limit x' ls').
Proof.
  intros k limit x x' ls ls' K X F. induction F as [|(v, n) (v', n') ls ls' (A & B) F (IH1 & IH2)]; [split; [constructor|reflexivity]|]. cbn [fst snd] in A, B. subst n'. cbn [note_level].
  destruct (note_level limit x ls) as (r, d). destruct (note_level limit x' ls') as (r', d'). cbn [fst snd] in IH1, IH2. subst d'.
  assert (E : Qle_bool (relative_error v' x') limit = Qle_bool (relative_error v x) limit).
  { pose proof (error_morph k v x v' x' K A X) as M. destruct (Qle_bool (relative_error v' x') limit) eqn:E1; destruct (Qle_bool (relative_error v x) limit) eqn:E2; qb; try reflexivity; exfalso; destruct M as [M|(M1 & M2)]; lra. }
  rewrite E. destruct (Qle_bool (relative_error v x) limit); cbn [fst snd]; (split; [constructor; [split; [exact A|reflexivity]|exact IH1]|reflexivity]).
Qed.
Lemma levels_morph : forall k limit d d', ~ (k == 0)%Q -> Forall2 (multiple k) d d' -> Forall2 (same_levels k) (levels limit d) (levels limit d').
Proof.
  intros k limit d d' K F. unfold levels. assert (G : Forall2 (same_levels k) [] []) by constructor. revert G. generalize (@nil (Q * nat)) at 1 3 as ls. generalize (@nil (Q * nat)) as ls'.
  induction F as [|x x' d d' X F IH]; intros ls' ls G; [exact G|]. cbn [fold_left]. apply IH. unfold note.
  destruct (note_level_morph k limit x x' ls ls' K X G) as (A & B). destruct (note_level limit x ls) as (r, b), (note_level limit x' ls') as (r', b'). cbn [fst snd] in *. subst b'.
  destruct b; [|exact A]. apply Forall2_app; [exact A|]. constructor; [split; [exact X|reflexivity]|constructor].
Qed.
Lemma voltage_morph : forall k limit d d', ~ (k == 0)%Q -> Forall2 (multiple k) d d' -> can_be_voltage limit d' = can_be_voltage limit d.
Proof.
  intros k limit d d' K F. pose proof (levels_morph k limit d d' K F) as L. assert (N : List.length d = List.length d') by (clear -F; induction F; cbn; congruence).
  assert (S : significant limit (List.length d') (levels limit d') = significant limit (List.length d) (levels limit d)).
  { unfold significant. rewrite <- N. clear -L. induction L as [|(v, n) (v', n') ls ls' (_ & B) L IH]; [reflexivity|]. cbn [snd] in B. subst n'. cbn [filter snd]. destruct (Qlt_bool _ _); cbn [List.length]; now rewrite IH. }
  unfold can_be_voltage. destruct F as [|x x' d d' X F]; [reflexivity|]. destruct F as [|y y' d d' Y F]; [reflexivity|]. rewrite S. reflexivity.
Qed.
(** Neither the unit nor the sign of a signal changes what it is taken for; an offset
    does not change what is taken for a current. *)
Theorem C208_unit : forall k limit d, ~ (k == 0)%Q -> can_be_voltage limit (map (Qmult k) d) = can_be_voltage limit d.
Proof. intros k limit d K. apply (voltage_morph k); [exact K|]. induction d as [|x d IH]; [constructor|]. constructor; [unfold multiple; reflexivity|exact IH]. Qed.
Lemma differences_morph : forall k o d p p', (p' == k * p + o)%Q -> Forall2 (multiple k) (differences p d) (differences p' (map (fun x => k * x + o)%Q d)).
Proof. intros k o. induction d as [|x d IH]; intros p p' P; [constructor|]. cbn [map differences]. constructor; [unfold multiple; rewrite P; ring|]. apply IH. reflexivity. Qed.
Theorem C208_offset : forall k o limit d, ~ (k == 0)%Q -> can_be_current limit (map (fun x => k * x + o)%Q d) = can_be_current limit d.
Proof.
  intros k o limit d K. unfold can_be_current. destruct d as [|x d]; [reflexivity|]. apply (voltage_morph k); [exact K|]. apply differences_morph.
  assert (G : forall (l : list Q) a, last (map (fun x => k * x + o)%Q (a :: l)) 0%Q = (k * last (a :: l) 0 + o)%Q).
  { induction l as [|b l IH]; intro a; [reflexivity|]. change (last (map (fun x => k * x + o)%Q (a :: b :: l)) 0%Q) with (last (map (fun x => k * x + o)%Q (b :: l)) 0%Q). rewrite IH. reflexivity. }
  rewrite G. reflexivity.
Qed.

(** A signal of two levels that are far enough apart, both often enough, is taken for a
    voltage; a constant never is. *)
Definition two_level (a b : Q) (bits : list bool) : list Q := map (fun x : bool => if x then a else b) bits.
Definition often (limit : Q) (x : bool) (bits : list bool) : Prop :=
  (inject_Z (Z.of_nat (List.length bits)) * limit < inject_Z (Z.of_nat (count_occ bool_dec bits x)))%Q.
Lemma error_self : forall a, (relative_error a a == 0)%Q.
Proof.
  intro a. unfold relative_error. assert (Z : (Qabs (a - a) == 0)%Q) by (setoid_replace (a - a)%Q with 0%Q by ring; reflexivity).
  destruct (Qeq_bool _ _) eqn:E; [exact Z|]. rewrite Z. unfold Qdiv. ring.
Qed.
Lemma error_sym : forall a b, (relative_error a b == relative_error b a)%Q.
Proof.
  intros a b. unfold relative_error. assert (D : (Qabs (a - b) == Qabs (b - a))%Q) by (setoid_replace (b - a)%Q with (- (a - b))%Q by ring; rewrite Qabs_opp; reflexivity).
  assert (M : (cmax (Qabs b) (Qabs a) == cmax (Qabs a) (Qabs b))%Q) by (unfold cmax; destruct (Qlt_bool (Qabs b) (Qabs a)) eqn:E; destruct (Qlt_bool (Qabs a) (Qabs b)) eqn:F; qb; lra).
  destruct (Qeq_bool (cmax (Qabs b) (Qabs a)) 0) eqn:E; destruct (Qeq_bool (cmax (Qabs a) (Qabs b)) 0) eqn:F; qb.
  - exact D.
  - exfalso. apply F. rewrite <- M. exact E.
  - exfalso. apply E. rewrite M. exact F.
  - rewrite D, M. reflexivity.
Qed.
Definition has (x : bool) (bits : list bool) : nat := count_occ bool_dec bits x.
Lemma levels_two : forall limit a b bits, (0 <= limit)%Q -> (limit < relative_error a b)%Q ->
  levels limit (two_level a b bits) = (if has true bits =? 0 then [] else [(a, has true bits)]) ++ (if has false bits =? 0 then [] else [(b, has false bits)]) \/
  levels limit (two_level a b bits) = (if has false bits =? 0 then [] else [(b, has false bits)]) ++ (if has true bits =? 0 then [] else [(a, has true bits)]).
Proof.
  intros limit a b bits L0 L. induction bits as [|x bits IH] using rev_ind; [left; reflexivity|].
  assert (AA : Qle_bool (relative_error a a) limit = true) by (apply Qle_bool_iff; rewrite error_self; exact L0).
  assert (BB : Qle_bool (relative_error b b) limit = true) by (apply Qle_bool_iff; rewrite error_self; exact L0).
  assert (AB : Qle_bool (relative_error a b) limit = false) by (destruct (Qle_bool (relative_error a b) limit) eqn:E; [qb; lra|reflexivity]).
  assert (BA : Qle_bool (relative_error b a) limit = false) by (destruct (Qle_bool (relative_error b a) limit) eqn:E; [qb; rewrite error_sym in E; lra|reflexivity]).
  unfold levels, two_level in *. rewrite map_app, fold_left_app. cbn [map fold_left].
  assert (HX : forall y, has y (bits ++ [x]) = has y bits + (if Bool.eqb x y then 1 else 0)).
  { intro y. unfold has. rewrite count_occ_app. cbn [count_occ]. destruct (bool_dec x y) as [->|N]; [now rewrite eqb_reflx|]. destruct x, y; try contradiction; reflexivity. }
  rewrite !HX. destruct (has true bits) as [|p]; destruct (has false bits) as [|q]; cbn [Nat.eqb Nat.add] in *; destruct IH as [IH|IH]; cbn [app] in IH; rewrite IH; destruct x; cbn [Bool.eqb]; unfold note; cbn [note_level];
    rewrite ?AA, ?BB, ?AB, ?BA; cbn [app Nat.add Nat.eqb]; rewrite ?Nat.add_0_r; cbn [Nat.eqb]; try (left; reflexivity); try (right; reflexivity);
    try (left; rewrite ?Nat.add_1_r; reflexivity); try (right; rewrite ?Nat.add_1_r; reflexivity).
Qed.
Theorem C208_two_levels : forall limit a b bits, (0 <= limit)%Q -> (limit < relative_error a b)%Q -> often limit true bits -> often limit false bits ->
  can_be_voltage limit (two_level a b bits) = Ok true.
Proof.
  intros limit a b bits L0 L A B.
  assert (NN : (0 <= inject_Z (Z.of_nat (List.length bits)) * limit)%Q) by (apply Qmult_le_0_compat; [change 0%Q with (inject_Z 0); rewrite <- Zle_Qle; lia|exact L0]).
  assert (P : forall x, often limit x bits -> has x bits <> 0).
  { intros x O Z. unfold often in O. unfold has in Z. rewrite Z in O. cbn in O. change (inject_Z 0) with 0%Q in O. lra. }
  pose proof (P true A) as PA. pose proof (P false B) as PB.
  assert (S : significant limit (List.length (two_level a b bits)) (levels limit (two_level a b bits)) = 2).
  { unfold often in A, B; fold (has true bits) in A; fold (has false bits) in B. unfold significant, two_level at 1. rewrite map_length. destruct (levels_two limit a b bits L0 L) as [E|E]; rewrite E; rewrite (proj2 (Nat.eqb_neq _ _) PA), (proj2 (Nat.eqb_neq _ _) PB); cbn [app filter snd];
      rewrite (proj2 (Qlt_bool_iff _ _) A), (proj2 (Qlt_bool_iff _ _) B); reflexivity. }
  unfold can_be_voltage. destruct (two_level a b bits) as [|u [|v d]] eqn:E.
  - destruct bits; [exfalso; apply PA; reflexivity|discriminate].
  - exfalso. destruct bits as [|x [|y bits]]; try discriminate. destruct x; [apply PB|apply PA]; reflexivity.
  - rewrite S. reflexivity.
Qed.
Theorem C208_constant : forall limit a n, (0 <= limit)%Q -> n <> 0 -> can_be_voltage limit (repeat a n) = Ok false.
Proof.
  intros limit a n L0 N. assert (AA : Qle_bool (relative_error a a) limit = true) by (apply Qle_bool_iff; rewrite error_self; exact L0).
  assert (E : forall m k, fold_left (note limit) (repeat a m) [(a, k)] = [(a, m + k)]).
  { induction m as [|m IH]; intro k; [reflexivity|]. cbn [repeat fold_left]. unfold note at 2. cbn [note_level]. rewrite AA. rewrite IH. do 2 f_equal. lia. }
  destruct n as [|[|n]]; [contradiction|reflexivity|]. unfold can_be_voltage. cbn [repeat]. change (a :: a :: repeat a n) with (a :: repeat a (S n)). unfold levels. cbn [fold_left]. change (note limit [] a) with [(a, 1)]. rewrite E.
  unfold significant. cbn [filter snd]. destruct (Qlt_bool _ _); reflexivity.
Qed.
Example C208_witness : can_be_voltage (1 # 20) (two_level 5 (- 5) [true; true; false]) = Ok true /\ (1 # 20 < relative_error 5 (- 5))%Q /\
  often (1 # 20) true [true; true; false] /\ often (1 # 20) false [true; true; false] /\
  can_be_current (1 # 20) [0; 1; 2; 1]%Q = Ok true /\ can_be_voltage (1 # 20) [1; 2; 3; 4; 5]%Q = Ok false.
Proof. repeat split. Qed.

(** The filter keeps the number of samples and the mean. *)
Lemma rolling_bound : forall n, n <> 0 -> 1 <= rolling_factor n <= n.
Proof. intros n N. unfold rolling_factor. pose proof (Nat.div_le_upper_bound n 192 n ltac:(lia) ltac:(lia)). lia. Qed.
Lemma Qsum_app' : forall a b, (Qsum (a ++ b) == Qsum a + Qsum b)%Q.
Proof. induction a as [|x a IH]; intro b; cbn [app Qsum]; [ring|]. rewrite IH. ring. Qed.
Lemma Qsum_scale : forall (f : nat -> Q) k l, (Qsum (map (fun i => f i / k) l) == Qsum (map f l) / k)%Q.
Proof. intros f k. induction l as [|x l IH]; cbn [map Qsum]; [unfold Qdiv; ring|]. rewrite IH. unfold Qdiv. ring. Qed.
Lemma window_sum : forall (l : list Q) r i, i + r <= List.length l -> (Qsum (firstn r (skipn i l)) == Qsum (map (fun j => nth (i + j) l 0%Q) (seq 0 r)))%Q.
Proof.
  intros l. induction r as [|r IH]; intros i L; [reflexivity|]. rewrite seq_S, map_app, Qsum_app'. cbn [map Qsum Nat.add].
  rewrite <- IH by lia. clear IH. assert (E : firstn (S r) (skipn i l) = firstn r (skipn i l) ++ [nth (i + r) l 0%Q]).
  { revert l L. induction i as [|i IHi]; intros l L.
    - cbn [skipn Nat.add]. clear -L. cbn [Nat.add] in L. revert l L. induction r as [|r IHr]; intros l L; destruct l as [|x l]; cbn in L; try lia; [reflexivity|]. cbn [firstn nth app]. f_equal. change (firstn (S r) l = firstn r l ++ [nth r l 0%Q]). apply IHr. cbn. lia.
    - destruct l as [|x l]; [cbn in L; lia|]. cbn [skipn Nat.add nth]. apply IHi. cbn in L. lia. }
  rewrite E, Qsum_app'. cbn [Qsum]. reflexivity.
Qed.
Lemma sum_swap : forall (f : nat -> nat -> Q) a b, (Qsum (map (fun i => Qsum (map (f i) b)) a) == Qsum (map (fun j => Qsum (map (fun i => f i j) a)) b))%Q.
Proof.
  intros f a b. induction a as [|i a IH]; cbn [map Qsum].
  - induction b as [|j b IHb]; cbn [map Qsum]; [reflexivity|]. rewrite <- IHb. ring.
  - rewrite IH. clear. induction b as [|j b IHb]; cbn [map Qsum]; [ring|]. rewrite <- IHb. ring.
Qed.
Lemma sum_nth : forall (l : list Q) i n, i + n <= List.length l -> (Qsum (map (fun k => nth (k + i) l 0%Q) (seq 0 n)) == Qsum (firstn n (skipn i l)))%Q.
Proof. intros l i n L. rewrite window_sum by exact L. replace (map (fun k => nth (k + i) l 0%Q) (seq 0 n)) with (map (fun j => nth (i + j) l 0%Q) (seq 0 n)); [reflexivity|]. apply map_ext. intro k. f_equal. lia. Qed.
Theorem C208_filter : forall d, d <> [] ->
  List.length (rolling_window_filter d) = List.length d /\ (Qsum (rolling_window_filter d) == Qsum d)%Q.
Proof.
  intros d N. assert (N0 : List.length d <> 0) by (destruct d; [contradiction|discriminate]). pose proof (rolling_bound (List.length d) N0) as R. unfold rolling_window_filter.
  set (r := rolling_factor (List.length d)) in *. set (n := List.length d) in *. set (ex := d ++ firstn (r - 1) d).
  assert (LE : List.length ex = n + (r - 1)) by (unfold ex; rewrite app_length, firstn_length; fold n; lia).
  assert (LN : List.length ex - r + 1 = n) by lia. rewrite LN. split; [rewrite map_length, seq_length; reflexivity|].
  rewrite (Qsum_scale (fun i => Qsum (firstn r (skipn i ex)))).
  assert (S1 : (Qsum (map (fun i => Qsum (firstn r (skipn i ex))) (seq 0 n)) == Qsum (map (fun i => Qsum (map (fun j => nth (i + j) ex 0%Q) (seq 0 r))) (seq 0 n)))%Q).
  { assert (G : forall l, (forall i, In i l -> i + r <= List.length ex) -> (Qsum (map (fun i => Qsum (firstn r (skipn i ex))) l) == Qsum (map (fun i => Qsum (map (fun j => nth (i + j) ex 0%Q) (seq 0 r))) l))%Q).
    { induction l as [|i l IH]; intro H; cbn [map Qsum]; [reflexivity|]. rewrite IH by (intros j J; apply H; right; exact J). rewrite window_sum by (apply H; left; reflexivity). reflexivity. }
    apply G. intros i I0. apply in_seq in I0. lia. }
  rewrite S1, (sum_swap (fun i j => nth (i + j) ex 0%Q)).
  assert (S2 : forall l, (forall j, In j l -> j < r) -> (Qsum (map (fun j => Qsum (map (fun i => nth (i + j) ex 0%Q) (seq 0 n))) l) == inject_Z (Z.of_nat (List.length l)) * Qsum d)%Q).
  { induction l as [|j l IH]; intro H; cbn [map Qsum List.length]; [cbn; ring|]. rewrite IH by (intros i I0; apply H; right; exact I0).
    assert (J : j < r) by (apply H; left; reflexivity). rewrite sum_nth by lia.
    assert (C : (Qsum (firstn n (skipn j ex)) == Qsum d)%Q).
    { unfold ex. rewrite skipn_app, firstn_app, skipn_length. fold n. replace (j - n) with 0 by lia. cbn [skipn]. rewrite firstn_all2 by (rewrite skipn_length; fold n; lia). replace (n - (n - j)) with j by lia. rewrite firstn_firstn. replace (Nat.min j (r - 1)) with j by lia.
      rewrite Qsum_app'. rewrite Qplus_comm, <- Qsum_app', firstn_skipn. reflexivity. }
    rewrite C. rewrite Nat2Z.inj_succ, <- Z.add_1_l, inject_Z_plus. ring. }
  rewrite S2 by (intros j J; apply in_seq in J; lia). rewrite seq_length. field. intro Z. change 0%Q with (inject_Z 0) in Z. apply (proj1 (inject_Z_injective _ _)) in Z. lia.
Qed.
Example C208_filter_witness : rolling_factor (List.length [1; 2; 3]%Q) = 1 /\ rolling_factor 384 = 2.
Proof. split; reflexivity. Qed.
(** The labels of windings, by precedence, when a name has no digit. *)
Definition occurs (l s : text) : Prop := exists u v, s = u ++ l ++ v.
Definition known_labels : list (text * Z) :=
  [(list_ascii_of_string "pri", 0%Z); (list_ascii_of_string "sec", 1%Z); (list_ascii_of_string "aux", 2%Z); (list_ascii_of_string "ter", 2%Z);
   (list_ascii_of_string "HV", 0%Z); (list_ascii_of_string "LV", 1%Z); (list_ascii_of_string "a", 0%Z); (list_ascii_of_string "b", 1%Z); (list_ascii_of_string "c", 2%Z)].
Lemma prefix_iff : forall l s, prefix l s = true <-> exists v, s = l ++ v.
Proof.
  induction l as [|x l IH]; intros s; cbn [prefix app]; [split; [eauto|reflexivity]|]. destruct s as [|y s]; [split; [discriminate|intros (v & E); discriminate]|].
  rewrite andb_true_iff, Ascii.eqb_eq, IH. split; [intros (<- & v & ->); eauto|]. intros (v & E). injection E as <- ->. eauto.
Qed.
Lemma contains_iff : forall l s, contains l s = true <-> occurs l s.
Proof.
  intros l s. induction s as [|y s IH]; cbn [contains]; rewrite orb_true_iff, prefix_iff.
  - split; [intros [(v & E)|X]; [exists [], v; exact E|discriminate]|]. intros (u & v & E). left. destruct u; [eauto|discriminate].
  - rewrite IH. split.
    + intros [(v & E)|(u & v & ->)]; [exists [], v; exact E|exists (y :: u), v; reflexivity].
    + intros (u & v & E). destruct u as [|x u]; [left; eauto|right]. injection E as _ E. exists u, v. exact E.
Qed.
Theorem C207_precedence : forall s, forallb (fun x => negb (is_digit x)) s = true ->
  (exists a l i b, known_labels = a ++ (l, i) :: b /\ occurs l s /\ Forall (fun p => ~ occurs (fst p) s) a /\ name_index s = Ok (i, true)) \/
  (Forall (fun p => ~ occurs (fst p) s) known_labels /\ name_index s = Ok (0%Z, false)).
Proof.
  assert (N : forall s (m : list (text * Z)), Forall (fun p => contains (fst p) s = false) m -> Forall (fun p => ~ occurs (fst p) s) m).
  { intros s m F. eapply Forall_impl; [|exact F]. intros p X Y. apply contains_iff in Y. congruence. }
  intros s H. destruct (C207_label s H) as (i & b & E & A & B). destruct b.
  - left. destruct (B eq_refl) as (a & l & r & T & C & F). exists a, l, i, r. split; [exact T|]. split; [apply contains_iff, C|]. split; [apply N, F|exact E].
  - right. destruct (A eq_refl) as (-> & F). split; [apply N, F|exact E].
Qed.
Example C207_precedence_witness : name_index (list_ascii_of_string "LVa") = Ok (1%Z, true) /\ name_index (list_ascii_of_string "V(x)") = Ok (0%Z, false).
Proof. split; reflexivity. Qed.

(** * Any number of levels *)
(** Samples taken from levels far apart: sample [k] is at level [nth k idx]. *)
Definition apart (limit : Q) (v : nat -> Q) (idx : list nat) : Prop :=
  forall i j, In i idx -> In j idx -> i <> j -> (limit < relative_error (v i) (v j))%Q.
Definition frequent (limit : Q) (idx : list nat) (i : nat) : Prop :=
  (inject_Z (Z.of_nat (List.length idx)) * limit < inject_Z (Z.of_nat (count_occ Nat.eq_dec idx i)))%Q.
Lemma note_known : forall limit v idx x n ds, (0 <= limit)%Q -> apart limit v idx -> In x idx -> incl ds idx -> NoDup ds ->
  note_level limit (v x) (map (fun i => (v i, n i)) ds) = (map (fun i => (v i, if Nat.eq_dec i x then S (n i) else n i)) ds, if in_dec Nat.eq_dec x ds then false else true).
Proof.
  intros limit v idx x n ds L A X. induction ds as [|i ds IH]; intros I0 ND; [reflexivity|]. apply NoDup_cons_iff in ND. destruct ND as (NI & ND).
  cbn [map note_level]. rewrite IH by (try assumption; intros y Y; apply I0; right; exact Y).
  destruct (Nat.eq_dec i x) as [->|D].
  - replace (Qle_bool (relative_error (v x) (v x)) limit) with true by (symmetry; apply Qle_bool_iff; rewrite error_self; exact L).
    destruct (in_dec Nat.eq_dec x (x :: ds)) as [_|Z]; [reflexivity|exfalso; apply Z; left; reflexivity].
  - specialize (A i x (I0 i (or_introl eq_refl)) X D).
    destruct (Qle_bool (relative_error (v i) (v x)) limit) eqn:E; [apply Qle_bool_iff in E; exfalso; revert E; apply Qlt_not_le, A|].
    f_equal. destruct (in_dec Nat.eq_dec x ds) as [Y|Y], (in_dec Nat.eq_dec x (i :: ds)) as [Z|Z]; try reflexivity; exfalso; [apply Z; right; exact Y|destruct Z as [Z|Z]; [congruence|contradiction]].
Qed.
Lemma levels_found : forall limit v idx, (0 <= limit)%Q -> apart limit v idx -> forall pre, incl pre idx ->
  exists ds, NoDup ds /\ (forall i, In i ds <-> In i pre) /\ levels limit (map v pre) = map (fun i => (v i, count_occ Nat.eq_dec pre i)) ds.
Proof.
  intros limit v idx L A pre. induction pre as [|x pre IH] using rev_ind; intro I0.
  - exists []. split; [constructor|]. split; [tauto|reflexivity].
  - destruct IH as (ds & ND & M & E); [intros y Y; apply I0, in_or_app; left; exact Y|].
    unfold levels in *. rewrite map_app, fold_left_app, E. cbn [map fold_left]. unfold note.
    assert (X : In x idx) by (apply I0, in_or_app; right; left; reflexivity).
    assert (IN : incl ds idx) by (intros y Y; apply I0, in_or_app; left; apply M, Y).
    rewrite (note_known limit v idx x (count_occ Nat.eq_dec pre) ds L A X IN ND).
    assert (CO : forall i, count_occ Nat.eq_dec (pre ++ [x]) i = if Nat.eq_dec i x then S (count_occ Nat.eq_dec pre i) else count_occ Nat.eq_dec pre i).
    { intro i. rewrite count_occ_app. cbn [count_occ]. destruct (Nat.eq_dec x i) as [E1|E1], (Nat.eq_dec i x) as [E2|E2]; try congruence; lia. }
    assert (MM : map (fun i => (v i, if Nat.eq_dec i x then S (count_occ Nat.eq_dec pre i) else count_occ Nat.eq_dec pre i)) ds = map (fun i => (v i, count_occ Nat.eq_dec (pre ++ [x]) i)) ds) by (apply map_ext; intro i; now rewrite CO).
    rewrite MM. destruct (in_dec Nat.eq_dec x ds) as [Y|Y].
    + exists ds. split; [exact ND|]. split; [|reflexivity]. intro i. rewrite in_app_iff, M. cbn [In]. split; [tauto|]. intros [Z|[<-|[]]]; [exact Z|apply M, Y].
    + exists (ds ++ [x]). split; [|split].
      * apply (Permutation_NoDup (l := x :: ds)); [apply Permutation_cons_append|constructor; assumption].
      * intro i. rewrite !in_app_iff, M. tauto.
      * rewrite map_app. cbn [map]. do 3 f_equal. rewrite CO. destruct (Nat.eq_dec x x); [|congruence]. f_equal. symmetry. apply count_occ_not_In. intro Z. apply Y, M, Z.
Qed.
Lemma frequent_in : forall limit idx i, (0 <= limit)%Q -> frequent limit idx i -> In i idx.
Proof.
  intros limit idx i L F. destruct (in_dec Nat.eq_dec i idx) as [Y|Y]; [exact Y|exfalso]. unfold frequent in F. rewrite (proj1 (count_occ_not_In Nat.eq_dec idx i) Y) in F.
  assert (0 <= inject_Z (Z.of_nat (List.length idx)) * limit)%Q by (apply Qmult_le_0_compat; [change 0%Q with (inject_Z 0); rewrite <- Zle_Qle; lia|exact L]). change (inject_Z (Z.of_nat 0)) with 0%Q in F. lra.
Qed.
(** A signal can be a voltage exactly when two or three of its levels are frequent. *)
Theorem C208_levels : forall limit v idx js, (0 <= limit)%Q -> apart limit v idx -> 2 <= List.length idx ->
  NoDup js -> (forall i, In i js <-> frequent limit idx i) ->
  exists b, can_be_voltage limit (map v idx) = Ok b /\ (b = true <-> List.length js = 2 \/ List.length js = 3).
Proof.
  intros limit v idx js L A N ND J. destruct (levels_found limit v idx L A idx (incl_refl _)) as (ds & NDd & M & E).
  assert (S0 : significant limit (List.length idx) (levels limit (map v idx)) = List.length js).
  { unfold significant. rewrite E. clear E. rewrite <- (map_length (fun i => (v i, count_occ Nat.eq_dec idx i)) js).
    apply Permutation_length.
    assert (FM : forall l, filter (fun p : Q * nat => Qlt_bool (inject_Z (Z.of_nat (List.length idx)) * limit) (inject_Z (Z.of_nat (snd p)))) (map (fun i => (v i, count_occ Nat.eq_dec idx i)) l)
      = map (fun i => (v i, count_occ Nat.eq_dec idx i)) (filter (fun i => Qlt_bool (inject_Z (Z.of_nat (List.length idx)) * limit) (inject_Z (Z.of_nat (count_occ Nat.eq_dec idx i)))) l)).
    { induction l as [|i l IH]; [reflexivity|]. cbn [map filter snd]. destruct (Qlt_bool _ _); cbn [map]; now rewrite IH. }
    rewrite FM. apply Permutation_map. apply NoDup_Permutation; [apply NoDup_filter, NDd|exact ND|]. intro i. rewrite filter_In, Qlt_bool_iff, J, M. split; [intros (_ & X); exact X|]. intro X. split; [apply (frequent_in limit); assumption|exact X]. }
  exists (Nat.eqb (List.length js) 2 || Nat.eqb (List.length js) 3). split; [|rewrite orb_true_iff, !Nat.eqb_eq; tauto].
  rewrite <- S0, <- (map_length v idx). destruct idx as [|a [|b idx]]; [cbn in N; lia|cbn in N; lia|]. reflexivity.
Qed.
Example C208_levels_witness : let v := fun i => nth i [0; 1; 2]%Q 0%Q in apart (1 # 5) v [0; 1; 2; 0; 1; 2] /\ can_be_voltage (1 # 5) (map v [0; 1; 2; 0; 1; 2]) = Ok true /\
  frequent (1 # 5) [0; 1; 2; 0; 1; 2] 2.
Proof.
  split; [|split; reflexivity]. intros i j I0 I1 D. cbn in I0, I1. intuition subst; try congruence; reflexivity.
Qed.

Print Assumptions C207_windings.
Print Assumptions C207_again.
Print Assumptions C207_number.
Print Assumptions C207_label.
Print Assumptions C207_long_number_refuted.
Print Assumptions C208_unit.
Print Assumptions C208_offset.
Print Assumptions C208_two_levels.
Print Assumptions C208_constant.
Print Assumptions C208_filter.
Print Assumptions C207_precedence.
Print Assumptions C208_levels.
