(** Facts about the model of the meshing of a coil per harmonic. *)
From Coq Require Import ZArith QArith List String Bool Lia Sorted Lra Lqa.
From Verif Require Import Base QAux HarmonicModel HarmonicProofs.
Import ListNotations.
Open Scope outcome_scope.
Open Scope list_scope.
Open Scope Q_scope.

(** ** Union of the indexes *)

(** the harmonics of the current of an excitation: its own, or those worked out *)
Definition current_harmonics (x : excitation) (h : harmonics) : Prop :=
  exists s, x_current x = Some s /\
    (s_harmonics s = Some h \/ (s_harmonics s = None /\ s_derived s = Some (Ok h))).

Lemma current_indexes_ok : forall root thr x ks, 0 <= thr -> current_indexes root thr None x = Ok ks ->
  exists h l, current_harmonics x h /\ lines h = Ok l /\
    (has_ac root h \/ ~ has_ac root h /\ ks = []) /\
    NoDup ks /\ forall k, In k ks <-> has_ac root h /\ heavy root thr h k.
Proof.
  intros root thr x ks T H. unfold current_indexes in H. destruct (x_current x) as [s|] eqn:Ex; [|discriminate].
  step H. rename x0 into h. step H. rename x0 into l. cbn [reference_weight bind] in H.
  exists h, l. split.
  { exists s. split; [exact Ex|]. destruct (s_harmonics s) as [h'|] eqn:Eh; [injection E as ->; auto|].
    right. split; [reflexivity|]. destruct (s_derived s); [|discriminate]. now rewrite E. }
  split; [exact E0|]. pose proof (heaviest_ac root h l E0) as A.
  destruct (Qeq_bool (heaviest root l) 0) eqn:Z.
  - apply Qeq_bool_eq in Z. injection H as <-. assert (~ has_ac root h) by (intros K; now apply A in K).
    split; [auto|]. split; [constructor|]. intros k. cbn. tauto.
  - apply Qeq_bool_neq in Z. injection H as <-. assert (K : has_ac root h) by now apply A.
    split; [auto|]. split.
    + pose proof (proj1 (kept_sorted root (heaviest root l * thr) (tl l) 1)) as S. clear -S.
      induction S as [|a r S IH F]; constructor; auto. rewrite Forall_forall in F. intros I. apply F in I. lia.
    + intros k. rewrite (limit_heavy root thr h l k T E0). tauto.
Qed.

Lemma current_indexes_intro : forall root thr x h l, current_harmonics x h -> lines h = Ok l ->
  exists ks, current_indexes root thr None x = Ok ks.
Proof.
  intros root thr x h l (s & Ex & Eh) El. unfold current_indexes. rewrite Ex.
  assert (E : (match s_harmonics s, s_derived s with
            | Some h, _ => Ok h
            | None, Some d => d
            | None, None => Throw "Missing harmonics"
            end) = Ok h).
  { destruct Eh as [->|[-> ->]]; reflexivity. }
  rewrite E. cbn [bind]. rewrite El. cbn [bind reference_weight]. destruct (Qeq_bool (heaviest root l) 0); eauto.
Qed.

Lemma add_new_ok : forall ks acc, NoDup acc ->
  NoDup (add_new ks acc) /\ forall k, In k (add_new ks acc) <-> In k acc \/ In k ks.
Proof.
  induction ks as [|k ks IH]; intros acc N; cbn [add_new]; [split; [exact N|]; cbn; tauto|].
  destruct (existsb (Nat.eqb k) acc) eqn:E.
  - apply existsb_exists in E as (k' & I & Ek). apply Nat.eqb_eq in Ek as <-. destruct (IH acc N) as [A B].
    split; [exact A|]. intros j. rewrite B. cbn [In]. split; [tauto|]. intros [?|[->|?]]; auto.
  - assert (NI : ~ In k acc).
    { intros I. assert (existsb (Nat.eqb k) acc = true) by (apply existsb_exists; exists k; split; [exact I|apply Nat.eqb_refl]). congruence. }
    destruct (IH (acc ++ [k])) as [A B]; [now apply NoDup_snoc|]. split; [exact A|]. intros j. rewrite B, in_app_iff. cbn. tauto.
Qed.

Lemma union_indexes_ok : forall root thr xs acc r, 0 <= thr -> union_indexes root thr None xs acc = Ok r ->
  NoDup acc -> NoDup r /\
  (forall k, In k r <-> In k acc \/ exists x h, In x xs /\ current_harmonics x h /\ has_ac root h /\ heavy root thr h k) /\
  (forall x, In x xs -> exists h l, current_harmonics x h /\ lines h = Ok l).
Proof.
  intros root thr xs. induction xs as [|x xs IH]; intros acc r T H N; cbn [union_indexes] in H.
  { injection H as <-. split; [exact N|]. split; [|intros x []]. intros k. split; [auto|]. intros [I|(x & h & [] & _)]. exact I. }
  step H. destruct (current_indexes_ok root thr x x0 T E) as (h & l & Hh & El & _ & _ & M).
  destruct (add_new_ok x0 acc N) as [N1 B1]. destruct (IH _ _ T H N1) as (A & B & C). split; [exact A|]. split.
  - intros k. rewrite B, B1, M. split.
    + intros [[I|[P Q']]|(x' & h' & I & R)]; [now left| |].
      * right. exists x, h. split; [now left|auto].
      * right. exists x', h'. split; [now right|auto].
    + intros [I|(x' & h' & [<-|I] & Hh' & P & Q')]; [auto| |].
      * left. right. assert (h' = h) as ->; [|auto].
        destruct Hh as (s & Ex & D). destruct Hh' as (s' & Ex' & D'). rewrite Ex in Ex'. injection Ex' as <-.
        destruct D as [D|[D1 D2]], D' as [D'|[D1' D2']]; congruence.
      * right. exists x', h'. auto.
  - intros x' [<-|I]; eauto.
Qed.

Lemma union_indexes_intro : forall root thr xs acc,
  (forall x, In x xs -> exists h l, current_harmonics x h /\ lines h = Ok l) ->
  exists r, union_indexes root thr None xs acc = Ok r.
Proof.
  intros root thr xs. induction xs as [|x xs IH]; intros acc H; cbn [union_indexes]; [eauto|].
  destruct (H x (or_introl eq_refl)) as (h & l & Hh & El). destruct (current_indexes_intro root thr x h l Hh El) as (ks & ->).
  cbn [bind]. apply IH. intros x' I. apply H. now right.
Qed.

(** three to a power *)
Fixpoint tripled (n : nat) (thr : Q) : Q := match n with O => thr | S n' => tripled n' (thr * 3) end.
Lemma tripled_pos : forall n thr, 0 < thr -> 0 < tripled n thr.
Proof. induction n as [|n IH]; intros thr T; cbn; [exact T|]. apply IH. lra. Qed.
Lemma tripled_nonneg : forall n thr, 0 <= thr -> 0 <= tripled n thr.
Proof. induction n as [|n IH]; intros thr T; cbn; [exact T|]. apply IH. lra. Qed.

(** the harmonics the windings with some AC call heavy at a threshold *)
Definition wanted (root : Q -> Q) (thr : Q) (xs : list excitation) (k : nat) : Prop :=
  exists x h, In x xs /\ current_harmonics x h /\ has_ac root h /\ heavy root thr h k.

Lemma heavy_above_one : forall root thr h k, 1 < thr -> has_ac root h -> ~ heavy root thr h k.
Proof.
  intros root thr h k T (j & a & f & J & Hl & P) (b & g & K & Hk & B & G).
  pose proof (G j a f J Hl) as G1. pose proof (G k b g K Hk) as G2.
  assert (0 < b * root g).
  { assert (1 * (a * root f) < thr * (a * root f)) by (apply Qmult_lt_compat_r; lra). lra. }
  assert (1 * (b * root g) < thr * (b * root g)) by (apply Qmult_lt_compat_r; lra). lra.
Qed.

Lemma common_indexes_ok : forall root fuel thr xs ks, 0 <= thr -> common_indexes root fuel thr xs = Ok ks ->
  NoDup ks /\ exists n,
    (forall x, In x xs -> exists h l, current_harmonics x h /\ lines h = Ok l) /\
    ((ks <> [] /\ (forall k, In k ks <-> wanted root (tripled n thr) xs k) /\
      exists x rest s h, xs = x :: rest /\ x_current x = Some s /\ s_harmonics s = Some h /\
        (List.length ks <= List.length (amplitudes h))%nat) \/
     ((forall k, ~ wanted root (tripled n thr) xs k) /\
      ks = if existsb has_fundamental xs then [1%nat] else [])) /\
    (* the threshold only grows when there were too many harmonics for the primary *)
    forall m, (m < n)%nat -> exists l x rest s h, NoDup l /\ (forall k, In k l <-> wanted root (tripled m thr) xs k) /\
      xs = x :: rest /\ x_current x = Some s /\ s_harmonics s = Some h /\
      (List.length (amplitudes h) < List.length l)%nat.
Proof.
  intros root fuel. induction fuel as [|fuel IH]; intros thr xs ks T H; cbn [common_indexes] in H; [discriminate|].
  step H. rename x into u. destruct (union_indexes_ok root thr xs [] u T E) as (N & M & G); [constructor|].
  assert (M' : forall k, In k u <-> wanted root thr xs k).
  { intros k. rewrite M. unfold wanted. cbn [In]. tauto. }
  destruct u as [|k0 u].
  { injection H as <-. split.
    - destruct (existsb has_fundamental xs); repeat constructor. intros [].
    - exists 0%nat. split; [exact G|]. split; [|intros m Hm; lia]. right. split; [|reflexivity].
      intros k W. apply M' in W. destruct W. }
  destruct xs as [|x rest]; [discriminate|]. destruct (x_current x) as [s|] eqn:Ex; [|discriminate].
  destruct (s_harmonics s) as [h|] eqn:Eh; [|discriminate].
  destruct (Nat.ltb_spec (List.length (amplitudes h)) (List.length (k0 :: u))) as [Lt|Ge].
  - apply IH in H; [|lra]. destruct H as (N' & n & G' & D & F). split; [exact N'|]. exists (S n).
    split; [exact G'|]. split; [exact D|]. intros [|m] Hm.
    + exists (k0 :: u), x, rest, s, h. cbn [tripled]. do 5 (split; [assumption || reflexivity|]). exact Lt.
    + cbn [tripled]. apply F. lia.
  - injection H as <-. split; [exact N|]. exists 0%nat. split; [exact G|]. split; [|intros m Hm; lia]. left. split; [discriminate|].
    split; [exact M'|]. exists x, rest, s, h. auto.
Qed.

Lemma common_indexes_ends : forall root n thr xs, 0 <= thr -> 1 < tripled n thr ->
  (forall x, In x xs -> exists s h l, x_current x = Some s /\ s_harmonics s = Some h /\ lines h = Ok l) ->
  exists ks, common_indexes root (S n) thr xs = Ok ks.
Proof.
  intros root n. induction n as [|n IH]; intros thr xs T G W.
  - cbn [tripled] in G. cbn [common_indexes].
    destruct (union_indexes_intro root thr xs []) as (u & Eu).
    { intros x I. destruct (W x I) as (s & h & l & A & B & C). exists h, l. split; [exists s; auto|exact C]. }
    rewrite Eu. cbn [bind]. destruct (union_indexes_ok root thr xs [] u T Eu) as (_ & M & _); [constructor|].
    destruct u as [|k u]; [eauto|]. exfalso. destruct (proj1 (M k) (or_introl eq_refl)) as [[]|(x & h & _ & _ & A & B)].
    exact (heavy_above_one root thr h k G A B).
  - cbn [tripled] in G. change (common_indexes root (S (S n)) thr xs) with
      (ks <- union_indexes root thr None xs [] ;;
      match ks with
      | [] => Ok (if existsb has_fundamental xs then [1%nat] else [])
      | _ =>
          match xs with
          | [] => UB "get_excitations_per_winding()[0] out of range"
          | x :: _ =>
              match x_current x with
              | None => Throw "Primary excitation current is missing harmonics in Coil Mesher"
              | Some s =>
                  match s_harmonics s with
                  | None => Throw "Primary excitation current is missing harmonics in Coil Mesher"
                  | Some h =>
                      if (List.length (amplitudes h) <? List.length ks)%nat
                      then common_indexes root (S n) (thr * 3) xs
                      else Ok ks
                  end
              end
          end
      end).
    destruct (union_indexes_intro root thr xs []) as (u & Eu).
    { intros x I. destruct (W x I) as (s & h & l & A & B & C). exists h, l. split; [exists s; auto|exact C]. }
    rewrite Eu. cbn [bind]. destruct (union_indexes_ok root thr xs [] u T Eu) as (_ & M & _); [constructor|].
    destruct u as [|k u]; [eauto|]. destruct xs as [|x rest].
    { exfalso. destruct (proj1 (M k) (or_introl eq_refl)) as [[]|(x & h & [] & _)]. }
    destruct (W x (or_introl eq_refl)) as (s & h & l & -> & -> & _).
    destruct (List.length (amplitudes h) <? List.length (k :: u))%nat; [|eauto]. apply IH; auto. lra.
Qed.

(** ** The map of fields *)

Lemma find_set : forall m k f j, find_field (set_field m k f) j = if Nat.eqb j k then Some f else find_field m j.
Proof.
  induction m as [|[i g] m IH]; intros k f j; cbn [set_field find_field].
  - rewrite (Nat.eqb_sym k j). reflexivity.
  - destruct (Nat.eqb_spec i k) as [->|N]; cbn [find_field].
    + rewrite (Nat.eqb_sym k j). now destruct (Nat.eqb j k).
    + rewrite IH. destruct (Nat.eqb_spec i j) as [->|N2]; [|reflexivity].
      destruct (Nat.eqb_spec j k); [congruence|reflexivity].
Qed.
Lemma find_in : forall m k, (exists f, find_field m k = Some f) <-> In k (map fst m).
Proof.
  induction m as [|[i g] m IH]; intros k; cbn; [split; [intros (? & ?); discriminate|intros []]|].
  destruct (Nat.eqb_spec i k) as [->|N]; [split; eauto|]. rewrite IH. split; [auto|intros [?|?]; [congruence|auto]].
Qed.
Lemma find_none : forall m k, find_field m k = None <-> ~ In k (map fst m).
Proof.
  intros m k. rewrite <- find_in. destruct (find_field m k); split; try discriminate; try tauto.
  - intros H. exfalso. eauto.
  - intros _ (f & ?). discriminate.
Qed.
Lemma keys_set_in : forall m k f, In k (map fst m) -> map fst (set_field m k f) = map fst m.
Proof.
  induction m as [|[i g] m IH]; intros k f I; [destruct I|]. cbn [set_field].
  destruct (Nat.eqb_spec i k) as [->|N]; [reflexivity|]. cbn. f_equal. apply IH. destruct I; [cbn in *; congruence|assumption].
Qed.
Lemma keys_set_out : forall m k f, ~ In k (map fst m) -> map fst (set_field m k f) = map fst m ++ [k].
Proof.
  induction m as [|[i g] m IH]; intros k f I; [reflexivity|]. cbn [set_field].
  destruct (Nat.eqb_spec i k) as [->|N]; [exfalso; apply I; now left|]. cbn. f_equal. apply IH. intros J. apply I. now right.
Qed.

Lemma get_append : forall m k ps j, get_field (append_points m k ps) j =
  if Nat.eqb j k then mkField (f_frequency (get_field m k)) (f_data (get_field m k) ++ ps) else get_field m j.
Proof.
  intros m k ps j. unfold append_points. unfold get_field at 1. rewrite find_set. destruct (Nat.eqb_spec j k); reflexivity.
Qed.

Lemma empty_fields_ok : forall check xs ks m m', empty_fields check xs ks m = Ok m' -> NoDup ks ->
  (forall k, In k ks -> ~ In k (map fst m)) ->
  map fst m' = map fst m ++ ks /\
  (forall k, In k ks -> exists f, frequency_of xs k = Ok f /\ (check = true -> ~ f == 0) /\ get_field m' k = mkField f []) /\
  (forall k, ~ In k ks -> get_field m' k = get_field m k).
Proof.
  intros check xs ks. induction ks as [|k ks IH]; intros m m' H N D; cbn [empty_fields] in H.
  { injection H as <-. rewrite app_nil_r. split; [reflexivity|]. split; [intros k []|auto]. }
  step H. destruct (check && Qeq_bool x 0) eqn:C; [discriminate|]. inversion N as [|? ? Nk Nl]; subst.
  apply IH in H; [|exact Nl|].
  2:{ intros j I J. rewrite keys_set_out in J by (apply D; now left). apply in_app_or in J as [J|[<-|[]]]; [|auto].
      apply (D j); [now right|exact J]. }
  destruct H as (A & B & F). rewrite keys_set_out in A by (apply D; now left). rewrite <- app_assoc in A. split; [exact A|].
  split.
  - intros j [<-|I]; [|auto]. exists x. split; [exact E|]. split.
    + intros ->. cbn in C. now apply Qeq_bool_neq.
    + rewrite (F k Nk). unfold get_field. rewrite find_set, Nat.eqb_refl. reflexivity.
  - intros j J. rewrite F by (intros I; apply J; now right). unfold get_field. rewrite find_set.
    destruct (Nat.eqb_spec j k) as [->|]; [exfalso; apply J; now left|reflexivity].
Qed.

Lemma append_keys : forall m k ps, In k (map fst m) -> map fst (append_points m k ps) = map fst m.
Proof. intros. now apply keys_set_in. Qed.

Lemma induce_ok : forall h share d ps ks m, NoDup ks -> (forall k, In k ks -> In k (map fst m)) ->
  map fst (induce h share d ps ks m) = map fst m /\
  (forall k, In k ks -> get_field (induce h share d ps ks m) k =
     mkField (f_frequency (get_field m k))
       (f_data (get_field m k) ++ map (scaled (nth k (amplitudes h) 0 * share * d)) ps)) /\
  (forall k, ~ In k ks -> get_field (induce h share d ps ks m) k = get_field m k).
Proof.
  intros h share d ps ks. induction ks as [|k ks IH]; intros m N I; cbn [induce]; [split; [reflexivity|split; [intros k []|auto]]|].
  inversion N as [|? ? Nk Nl]; subst.
  set (q := match nth_error (amplitudes h) k with Some a => a | None => 0 end).
  assert (Eq : q = nth k (amplitudes h) 0).
  { unfold q. destruct (nth_error (amplitudes h) k) eqn:En; [symmetry; now apply nth_error_nth|].
    symmetry. apply nth_overflow. now apply nth_error_None. }
  set (m1 := append_points m k (map (scaled (q * share * d)) ps)).
  assert (K1 : map fst m1 = map fst m) by (apply append_keys, I; now left).
  destruct (IH m1 Nl) as (A & B & C); [intros j J; rewrite K1; apply I; now right|].
  split; [congruence|]. split.
  - intros j [<-|J].
    + rewrite (C k Nk). unfold m1. rewrite get_append, Nat.eqb_refl, Eq. reflexivity.
    + rewrite (B j J). unfold m1. rewrite get_append. destruct (Nat.eqb_spec j k) as [->|]; [contradiction|reflexivity].
  - intros j J. rewrite C by (intros K; apply J; now right). unfold m1. rewrite get_append.
    destruct (Nat.eqb_spec j k) as [->|]; [exfalso; apply J; now left|reflexivity].
Qed.

(** what one turn adds to the field of a harmonic *)
Definition adds (xs : list excitation) (direction : nat -> outcome Q) (k : nat) (t : mesh_turn) (ps' : list point) : Prop :=
  exists h ps d, turn_harmonics xs (mt_winding t) = Ok h /\ mt_inducing t = Ok ps /\ direction (mt_winding t) = Ok d /\
    ps' = map (scaled (nth k (amplitudes h) 0 * mt_share t * d)) ps.

Lemma inducing_turns_ok : forall xs dir ks ts m m', inducing_turns xs dir ks ts m = Ok m' -> NoDup ks ->
  (forall k, In k ks -> In k (map fst m)) ->
  map fst m' = map fst m /\
  (forall k, In k ks -> exists pss, Forall2 (adds xs dir k) ts pss /\
     get_field m' k = mkField (f_frequency (get_field m k)) (f_data (get_field m k) ++ List.concat pss)) /\
  (forall k, ~ In k ks -> get_field m' k = get_field m k).
Proof.
  intros xs dir ks ts. induction ts as [|t ts IH]; intros m m' H N I; cbn [inducing_turns] in H.
  { injection H as <-. split; [reflexivity|]. split; [|auto]. intros k _. exists []. split; [constructor|]. cbn.
    rewrite app_nil_r. now destruct (get_field m k). }
  step H. step H. step H. rename x into h, x0 into ps, x1 into d.
  destruct (induce_ok h (mt_share t) d ps ks m N I) as (A & B & C).
  apply IH in H; [|exact N|intros k K; rewrite A; auto]. destruct H as (A1 & B1 & C1).
  split; [congruence|]. split.
  - intros k K. destruct (B1 k K) as (pss & F & G). rewrite (B k K) in G. cbn [f_frequency f_data] in G.
    exists (map (scaled (nth k (amplitudes h) 0 * mt_share t * d)) ps :: pss). split.
    + constructor; [|exact F]. exists h, ps, d. split; [exact E|]. split; [exact E0|]. split; [|reflexivity].
      destruct ks; [destruct K|exact E1].
    + cbn [List.concat]. rewrite G, app_assoc. reflexivity.
  - intros k K. rewrite (C1 k K). auto.
Qed.

Lemma induced_everywhere_ok : forall ps ks m, NoDup ks -> (forall k, In k ks -> In k (map fst m)) ->
  map fst (induced_everywhere ps ks m) = map fst m /\
  (forall k, In k ks -> get_field (induced_everywhere ps ks m) k =
     mkField (f_frequency (get_field m k)) (f_data (get_field m k) ++ ps)) /\
  (forall k, ~ In k ks -> get_field (induced_everywhere ps ks m) k = get_field m k).
Proof.
  intros ps ks. induction ks as [|k ks IH]; intros m N I; cbn [induced_everywhere fold_left];
    [split; [reflexivity|split; [intros k []|auto]]|].
  inversion N as [|? ? Nk Nl]; subst.
  assert (K1 : map fst (append_points m k ps) = map fst m) by (apply append_keys, I; now left).
  destruct (IH (append_points m k ps) Nl) as (A & B & C); [intros j J; rewrite K1; apply I; now right|].
  unfold induced_everywhere in A, B, C. split; [congruence|]. split.
  - intros j [<-|J].
    + rewrite (C k Nk), get_append, Nat.eqb_refl. reflexivity.
    + rewrite (B j J), get_append. destruct (Nat.eqb_spec j k) as [->|]; [contradiction|reflexivity].
  - intros j J. rewrite C by (intros K; apply J; now right). rewrite get_append.
    destruct (Nat.eqb_spec j k) as [->|]; [exfalso; apply J; now left|reflexivity].
Qed.

Lemma induced_turns_ok : forall xs ks ts m m', induced_turns xs ks ts m = Ok m' -> NoDup ks ->
  (forall k, In k ks -> In k (map fst m)) ->
  exists pss, Forall2 (fun t ps => mt_induced t = Ok ps) ts pss /\
  map fst m' = map fst m /\
  (forall k, In k ks ->
     get_field m' k = mkField (f_frequency (get_field m k)) (f_data (get_field m k) ++ List.concat pss)) /\
  (forall k, ~ In k ks -> get_field m' k = get_field m k).
Proof.
  intros xs ks ts. induction ts as [|t ts IH]; intros m m' H N I; cbn [induced_turns] in H.
  { injection H as <-. exists []. split; [constructor|]. split; [reflexivity|]. split; [|auto]. intros k _. cbn.
    rewrite app_nil_r. now destruct (get_field m k). }
  step H. step H. rename x0 into ps.
  destruct (induced_everywhere_ok ps ks m N I) as (A & B & C).
  apply IH in H; [|exact N|intros k K; rewrite A; auto]. destruct H as (pss & F & A1 & B1 & C1).
  exists (ps :: pss). split; [constructor; auto|]. split; [congruence|]. split.
  - intros k K. rewrite (B1 k K), (B k K). cbn [f_frequency f_data List.concat]. now rewrite app_assoc.
  - intros k K. rewrite (C1 k K). auto.
Qed.

(** ** The walk over the map *)

Definition visible (fs : list field) : list field :=
  filter (fun f => match f_data f with [] => false | _ => true end) fs.

Lemma get_grown : forall m i j, find_field m i = None ->
  get_field (m ++ [(i, no_field)]) j = get_field m j.
Proof.
  intros m i j H. unfold get_field.
  assert (G : find_field (m ++ [(i, no_field)]) j = match find_field m j with Some f => Some f | None => if Nat.eqb i j then Some no_field else None end).
  { clear H. induction m as [|[a g] m IH]; cbn; [reflexivity|]. destruct (Nat.eqb a j); [reflexivity|exact IH]. }
  rewrite G. destruct (find_field m j); [reflexivity|]. now destruct (Nat.eqb i j).
Qed.

Lemma in_order_ok : forall fuel N i m acc, NoDup (map fst m) ->
  (forall k, In k (map fst m) -> (k < N)%nat) -> (forall j, (j < i)%nat -> In j (map fst m)) ->
  (forall r, in_order fuel i m acc = Ok r -> r = acc ++ visible (map (get_field m) (seq i (N - i)))) /\
  ((N - i < fuel)%nat -> exists r, in_order fuel i m acc = Ok r).
Proof.
  intros fuel N. induction fuel as [|fuel IH]; intros i m acc ND B L; [split; [discriminate|lia]|].
  cbn [in_order].
  assert (Len : (List.length m <= N)%nat).
  { rewrite <- (map_length fst). rewrite <- (seq_length N 0). apply NoDup_incl_length; [exact ND|].
    intros k K. apply in_seq. specialize (B k K). lia. }
  destruct (Nat.ltb_spec i (List.length m)) as [Lt|Ge].
  - replace (N - i)%nat with (S (N - S i)) by lia. cbn [seq map].
    set (m' := match find_field m i with Some _ => m | None => m ++ [(i, no_field)] end).
    assert (ND' : NoDup (map fst m')).
    { unfold m'. destruct (find_field m i) eqn:F; [exact ND|]. rewrite map_app. cbn. apply NoDup_snoc; [exact ND|].
      now apply find_none. }
    assert (B' : forall k, In k (map fst m') -> (k < N)%nat).
    { unfold m'. destruct (find_field m i) eqn:F; [exact B|]. intros k K. rewrite map_app in K.
      apply in_app_or in K as [K|[<-|[]]]; [auto|cbn; lia]. }
    assert (L' : forall j, (j < S i)%nat -> In j (map fst m')).
    { intros j J. unfold m'. destruct (find_field m i) eqn:F.
      - destruct (Nat.eq_dec j i) as [->|]; [apply find_in; eauto|apply L; lia].
      - rewrite map_app. apply in_or_app. destruct (Nat.eq_dec j i) as [->|]; [right; now left|left; apply L; lia]. }
    assert (G : forall j, get_field m' j = get_field m j).
    { intros j. unfold m'. destruct (find_field m i) eqn:F; [reflexivity|]. now apply get_grown. }
    destruct (IH (S i) m' (match f_data (get_field m i) with [] => acc | _ => acc ++ [get_field m i] end) ND' B' L') as [P1 P2].
    split.
    + intros r H. apply P1 in H. rewrite H.
      rewrite (map_ext _ _ G). unfold visible. cbn [filter].
      destruct (f_data (get_field m i)); [reflexivity|]. now rewrite <- app_assoc.
    + intros F. apply P2. lia.
  - split; [|eauto]. intros r [= <-]. 
    assert (Z : forall k, (i <= k)%nat -> get_field m k = no_field).
    { intros k K. unfold get_field. replace (find_field m k) with (@None field); [reflexivity|]. symmetry. apply find_none.
      intros I. assert (List.length (k :: seq 0 i) <= List.length (map fst m))%nat.
      { apply NoDup_incl_length.
        - constructor; [rewrite in_seq; lia|apply seq_NoDup].
        - intros j [<-|J]; [exact I|]. apply in_seq in J. apply L. lia. }
      rewrite map_length in H. cbn [List.length] in H. rewrite seq_length in H. lia. }
    assert (V : forall n b, (i <= b)%nat -> visible (map (get_field m) (seq b n)) = []).
    { induction n as [|n IHn]; intros b Hb; cbn; [reflexivity|]. rewrite (Z b Hb). cbn. apply IHn. lia. }
    rewrite (V _ i (Nat.le_refl i)). now rewrite app_nil_r.
Qed.

(** the indexes in increasing order *)
Definition ascending (ks : list nat) : list nat :=
  filter (fun k => existsb (Nat.eqb k) ks) (seq 0 (S (list_max ks))).
Lemma ascending_in : forall ks k, In k (ascending ks) <-> In k ks.
Proof.
  intros ks k. unfold ascending. rewrite filter_In, in_seq, existsb_exists. split.
  - intros [_ (j & J & E)]. apply Nat.eqb_eq in E as ->. exact J.
  - intros I. split.
    + pose proof (proj1 (list_max_le ks (list_max ks)) (Nat.le_refl _)) as F. rewrite Forall_forall in F. specialize (F k I). lia.
    + exists k. split; [exact I|apply Nat.eqb_refl].
Qed.
Lemma ascending_sorted : forall ks, StronglySorted lt (ascending ks).
Proof.
  intros ks. unfold ascending. generalize (S (list_max ks)). intros n. generalize 0%nat.
  induction n as [|n IH]; intros b; cbn [seq filter]; [constructor|].
  destruct (existsb (Nat.eqb b) ks); [|apply IH]. constructor; [apply IH|].
  apply Forall_forall. intros j J. apply filter_In in J as [J _]. apply in_seq in J. lia.
Qed.

(** when the fields with data are exactly those of the indexes, the walk gives one
    for each, in order *)
Lemma in_order_all : forall fuel ks m r, NoDup (map fst m) -> (forall k, In k (map fst m) <-> In k ks) ->
  (forall k, In k ks -> f_data (get_field m k) <> []) ->
  in_order fuel 0 m [] = Ok r -> r = map (get_field m) (ascending ks).
Proof.
  intros fuel ks m r ND K D H.
  assert (B : forall k, In k (map fst m) -> (k < S (list_max ks))%nat).
  { intros k I. apply K in I. pose proof (proj1 (list_max_le ks (list_max ks)) (Nat.le_refl _)) as F.
    rewrite Forall_forall in F. specialize (F k I). lia. }
  destruct (in_order_ok fuel (S (list_max ks)) 0 m [] ND B) as [P _]; [lia|].
  apply P in H. cbn [app] in H. rewrite H. unfold ascending. rewrite Nat.sub_0_r.
  generalize (S (list_max ks)). intros n. generalize 0%nat. clear -K D.
  induction n as [|n IH]; intros b; cbn [seq map]; [reflexivity|]. unfold visible in *. cbn [filter].
  destruct (existsb (Nat.eqb b) ks) eqn:E.
  - apply existsb_exists in E as (j & J & Ej). apply Nat.eqb_eq in Ej as <-. cbn [map].
    specialize (D b J). destruct (f_data (get_field m b)); [congruence|]. f_equal. apply IH.
  - assert (N : ~ In b (map fst m)).
    { intros I. apply K in I. assert (existsb (Nat.eqb b) ks = true); [|congruence].
      apply existsb_exists. exists b. split; [exact I|apply Nat.eqb_refl]. }
    apply find_none in N. unfold get_field at 1. rewrite N. cbn. apply IH.
Qed.
Lemma in_order_none : forall fuel m r, NoDup (map fst m) ->
  (forall k, In k (map fst m) -> f_data (get_field m k) = []) ->
  in_order fuel 0 m [] = Ok r -> r = [].
Proof.
  intros fuel m r ND D H.
  assert (B : forall k, In k (map fst m) -> (k < S (list_max (map fst m)))%nat).
  { intros k I. pose proof (proj1 (list_max_le (map fst m) (list_max (map fst m))) (Nat.le_refl _)) as F.
    rewrite Forall_forall in F. specialize (F k I). lia. }
  destruct (in_order_ok fuel (S (list_max (map fst m))) 0 m [] ND B) as [P _]; [lia|].
  apply P in H. cbn [app] in H. rewrite H. generalize (S (list_max (map fst m)) - 0)%nat. intros n. generalize 0%nat.
  induction n as [|n IH]; intros b; cbn [seq map]; [reflexivity|]. unfold visible in *. cbn [filter].
  assert (Z : f_data (get_field m b) = []).
  { destruct (in_dec Nat.eq_dec b (map fst m)) as [I|N]; [auto|]. apply find_none in N. unfold get_field. now rewrite N. }
  rewrite Z. apply IH.
Qed.
