(** Lemmas about the text model. *)
From Coq Require Import List String Ascii Bool Arith NArith ZArith QArith Lia.
From Verif Require Import Base TextModel.
Import ListNotations.
Open Scope nat_scope.
Open Scope string_scope.

(** * Strings *)
Lemma append_nil_r s : s ++ "" = s.
Proof. induction s as [|c s IH]; simpl; [reflexivity|now rewrite IH]. Qed.
Lemma append_assoc a b c : (a ++ b) ++ c = a ++ (b ++ c).
Proof. induction a as [|x a IH]; simpl; [reflexivity|now rewrite IH]. Qed.
Lemma length_append a b : String.length (a ++ b) = String.length a + String.length b.
Proof. induction a as [|x a IH]; simpl; [reflexivity|now rewrite IH]. Qed.

Lemma prefix_iff p s : prefix p s = true <-> exists t, s = p ++ t.
Proof.
  revert s. induction p as [|c p IH]; intros s.
  - destruct s; simpl; split; eauto.
  - destruct s as [|d s]; simpl.
    + split; [discriminate|intros [t H]; discriminate].
    + destruct (ascii_dec c d) as [->|N].
      * rewrite IH. split; intros [t H]; exists t; [now rewrite H|now inversion H].
      * split; [discriminate|]. intros [t H]. inversion H. congruence.
Qed.

Lemma prefix_false p s t : prefix p s = false -> s <> p ++ t.
Proof. intros H E. assert (prefix p s = true) by (apply prefix_iff; eauto). congruence. Qed.

(** * Searching *)
Lemma find_first_some d s n :
  find_first d s = Some n ->
  exists u v, s = u ++ d ++ v /\ String.length u = n
              /\ forall u' v', s = u' ++ d ++ v' -> n <= String.length u'.
Proof.
  revert n. induction s as [|c s IH]; intros n; cbn [find_first].
  - destruct (prefix d "") eqn:E.
    + intros HH; injection HH as HH; subst n. apply prefix_iff in E as [t E]. exists "", t. simpl.
      repeat split; [exact E|intros; lia].
    + discriminate.
  - destruct (prefix d (String c s)) eqn:E.
    + intros HH; injection HH as HH; subst n. apply prefix_iff in E as [t E]. exists "", t. simpl.
      repeat split; [exact E|intros; lia].
    + destruct (find_first d s) as [m|] eqn:F; simpl; [|discriminate].
      intros HH; injection HH as HH. destruct (IH m eq_refl) as (u & v & H1 & H2 & H3).
      exists (String c u), v. simpl. rewrite <- H1, H2. split; [reflexivity|split; [exact HH|]].
      intros u' v' H. destruct u' as [|c' u'].
      * exfalso. eapply prefix_false in E. apply E. exact H.
      * simpl in *. injection H as Hc Hs. assert (m <= String.length u') by eauto. lia.
Qed.

Lemma find_first_none d s :
  find_first d s = None -> forall u v, s <> u ++ d ++ v.
Proof.
  induction s as [|c s IH]; cbn [find_first].
  - destruct (prefix d "") eqn:E; [discriminate|]. intros _ u v H.
    destruct u; [|discriminate]. eapply prefix_false in E. apply E, H.
  - destruct (prefix d (String c s)) eqn:E; [discriminate|].
    destruct (find_first d s) eqn:F; [discriminate|]. intros _ u v H.
    destruct u as [|c' u].
    + eapply prefix_false in E. apply E, H.
    + simpl in H. inversion H. eapply IH; eauto.
Qed.

Lemma take_length u v : take (String.length u) (u ++ v) = u.
Proof. induction u as [|c u IH]; simpl; [now destruct v|now rewrite IH]. Qed.
Lemma drop_length u v : drop (String.length u) (u ++ v) = v.
Proof. induction u as [|c u IH]; simpl; [reflexivity|exact IH]. Qed.

(** * Lines *)
Fixpoint occurs (c : ascii) (s : string) : Prop :=
  match s with EmptyString => False | String d r => d = c \/ occurs c r end.

Lemma line_of_app l r : ~ occurs LF l -> line_of (l ++ String LF r) = l.
Proof.
  induction l as [|c l IH]; simpl; intros H; [reflexivity|].
  destruct (Ascii.eqb_spec c LF) as [E|N]; [tauto|]. rewrite IH; tauto.
Qed.
Lemma after_line_app l r : ~ occurs LF l -> after_line (l ++ String LF r) = Some r.
Proof.
  induction l as [|c l IH]; simpl; intros H; [reflexivity|].
  destruct (Ascii.eqb_spec c LF) as [E|N]; [tauto|]. apply IH; tauto.
Qed.
Lemma line_of_last l : ~ occurs LF l -> line_of l = l.
Proof.
  induction l as [|c l IH]; simpl; intros H; [reflexivity|].
  destruct (Ascii.eqb_spec c LF) as [E|N]; [tauto|]. rewrite IH; tauto.
Qed.
Lemma after_line_last l : ~ occurs LF l -> after_line l = None.
Proof.
  induction l as [|c l IH]; simpl; intros H; [reflexivity|].
  destruct (Ascii.eqb_spec c LF) as [E|N]; [tauto|]. apply IH; tauto.
Qed.

Lemma drop_cr_spec s : drop_cr (s ++ String CR "") = s.
Proof.
  induction s as [|c s IH]; [reflexivity|].
  change (String c s ++ String CR "") with (String c (s ++ String CR "")).
  simpl. destruct (s ++ String CR "") eqn:E; [destruct s; discriminate|]. now rewrite IH.
Qed.
Lemma drop_cr_none s : (forall t, s <> t ++ String CR "") -> drop_cr s = s.
Proof.
  induction s as [|c s IH]; intros H; [reflexivity|].
  simpl. destruct s as [|d s].
  - destruct (Ascii.eqb_spec c CR) as [->|N]; [|reflexivity]. exfalso. apply (H ""). reflexivity.
  - rewrite IH; [reflexivity|]. intros t E. apply (H (String c t)). simpl. now rewrite E.
Qed.

(** * Normalisation *)
Lemma normalize_length s : forall last, String.length s <= String.length (normalize_from last s).
Proof.
  induction s as [|c s IH]; intros last; simpl; [lia|].
  specialize (IH (Some c)).
  destruct (Ascii.eqb c B5); [destruct last as [l|]; [destruct (Ascii.eqb l C2)|]|]; simpl; lia.
Qed.

Lemma B5_not_C2 : Ascii.eqb B5 C2 = false. Proof. reflexivity. Qed.

Lemma normalize_idem s : forall last,
  normalize_from last (normalize_from last s) = normalize_from last s.
Proof.
  induction s as [|c s IH]; intros last; [reflexivity|].
  cbn [normalize_from]. destruct (Ascii.eqb_spec c B5) as [->|N].
  - assert (H : forall l, normalize_from (Some l)
             (String C2 (String B5 (normalize_from (Some B5) s)))
           = String C2 (String B5 (normalize_from (Some B5) s))).
    { intros l. cbn [normalize_from]. change (Ascii.eqb C2 B5) with false. cbv iota.
      rewrite Ascii.eqb_refl. cbv iota. rewrite Ascii.eqb_refl. cbv iota. now rewrite IH. }
    destruct last as [l|].
    + destruct (Ascii.eqb l C2) eqn:E.
      * cbn [normalize_from]. rewrite Ascii.eqb_refl. cbv iota. rewrite E. now rewrite IH.
      * apply H.
    + cbn [normalize_from]. change (Ascii.eqb C2 B5) with false. cbv iota.
      rewrite Ascii.eqb_refl. cbv iota. rewrite Ascii.eqb_refl. cbv iota. now rewrite IH.
  - cbn [normalize_from]. apply Ascii.eqb_neq in N. rewrite N. now rewrite IH.
Qed.

Lemma normalize_without s : forall last, ~ occurs B5 s -> normalize_from last s = s.
Proof.
  induction s as [|c s IH]; intros last H; [reflexivity|]. simpl in *.
  destruct (Ascii.eqb_spec c B5) as [E|N]; [tauto|]. rewrite IH; tauto.
Qed.

(** * JSON *)
Section JsonInd.
  Variable P : json -> Prop.
  Hypothesis Hnull : P JNull.
  Hypothesis Hbool : forall b, P (JBool b).
  Hypothesis Hnum : forall q, P (JNum q).
  Hypothesis Hstr : forall s, P (JStr s).
  Hypothesis Harr : forall l, Forall P l -> P (JArr l).
  Hypothesis Hobj : forall l, Forall (fun kv => P (snd kv)) l -> P (JObj l).
  Fixpoint json_induction (j : json) : P j :=
    match j with
    | JNull => Hnull
    | JBool b => Hbool b
    | JNum q => Hnum q
    | JStr s => Hstr s
    | JArr l => Harr l ((fix go l : Forall P l :=
        match l with [] => Forall_nil _ | x :: r => Forall_cons _ (json_induction x) (go r) end) l)
    | JObj l => Hobj l ((fix go l : Forall (fun kv => P (snd kv)) l :=
        match l with
        | [] => Forall_nil _
        | x :: r => Forall_cons _ (json_induction (snd x)) (go r)
        end) l)
    end.
End JsonInd.

Definition migrate_member (kv : string * json) : string * json :=
  (fst kv, if String.eqb (fst kv) "cost" then migrate_cost (snd kv) else migrate (snd kv)).

Lemma migrate_obj l : migrate (JObj l) = JObj (map migrate_member l).
Proof.
  simpl. f_equal. induction l as [|[k v] r IH]; [reflexivity|]. simpl. now rewrite IH.
Qed.

Lemma lookup_In m s v : lookup m s = Some v -> In (s, v) m.
Proof.
  induction m as [|[k w] m IH]; simpl; [discriminate|].
  destruct (String.eqb_spec s k) as [->|N]; [intros [= ->]; now left|auto].
Qed.
Lemma lookup_None m s : lookup m s = None <-> ~ In s (map fst m).
Proof.
  induction m as [|[k w] m IH]; simpl; [tauto|].
  destruct (String.eqb_spec s k) as [->|N].
  - split; [discriminate|intros H; exfalso; apply H; now left].
  - rewrite IH. split; [intros H [E|E]; [congruence|tauto]|tauto].
Qed.

Global Arguments lookup : simpl never.

Lemma mapping_is_final : forall s v, lookup mapping s = Some v -> lookup mapping v = None.
Proof.
  intros s v H. apply lookup_In in H.
  assert (F : forallb (fun kv => match lookup mapping (snd kv) with None => true | _ => false end)
                mapping = true) by (vm_compute; reflexivity).
  rewrite forallb_forall in F. specialize (F _ H). simpl in F.
  destruct (lookup mapping v); [discriminate|reflexivity].
Qed.

Lemma migrate_cost_idem v : migrate_cost (migrate_cost v) = migrate_cost v.
Proof. destruct v; reflexivity. Qed.

Lemma migrate_idem j : migrate (migrate j) = migrate j.
Proof.
  induction j as [| | |s|l IH|l IH] using json_induction; try reflexivity.
  - simpl. destruct (lookup mapping s) as [v|] eqn:E; simpl.
    + rewrite (mapping_is_final _ _ E). reflexivity.
    + now rewrite E.
  - simpl. f_equal. rewrite map_map. apply map_ext_in. rewrite Forall_forall in IH. exact IH.
  - rewrite !migrate_obj. f_equal. rewrite map_map. apply map_ext_in. intros [k v] H.
    rewrite Forall_forall in IH. specialize (IH _ H). unfold migrate_member. simpl in *.
    destruct (String.eqb k "cost"); [now rewrite migrate_cost_idem|now rewrite IH].
Qed.
