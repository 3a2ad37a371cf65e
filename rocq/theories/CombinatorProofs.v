(** Lemmas on the combinator: names, wirings and the loops. *)
From Coq Require Import ZArith QArith List String Ascii Bool Arith Lia DecimalString DecimalNat.
From Verif Require Import Base StrMap TextModel TextProofs UtilsNumModel CombinatorModel.
Import ListNotations.
Open Scope nat_scope.
Open Scope string_scope.

(** ** Names *)

Fixpoint has_comma (s : string) : bool :=
  match s with
  | EmptyString => false
  | String c r => Ascii.eqb c "," || has_comma r
  end.

Lemma uint_no_comma : forall d, has_comma (NilEmpty.string_of_uint d) = false.
Proof. induction d; cbn; auto. Qed.
Lemma to_string_no_comma : forall n, has_comma (to_string n) = false.
Proof. intros n. apply uint_no_comma. Qed.
Lemma to_string_nonempty : forall n, to_string n <> "".
Proof.
  intros n H. unfold to_string in H. pose proof (Unsigned.of_to n) as N.
  destruct (Nat.to_uint n) eqn:E; try discriminate. cbn in N. subst n. discriminate.
Qed.
Lemma stoul_to_string : forall n, stoul (to_string n) = Ok n.
Proof.
  intros n. unfold stoul. pose proof (to_string_nonempty n) as N.
  destruct (to_string n) as [|c r] eqn:E; [contradiction|]. rewrite <- E. unfold to_string.
  rewrite NilEmpty.usu, Unsigned.of_to. reflexivity.
Qed.

(** Numbers separated by commas. *)
Fixpoint joined (l : list nat) : string :=
  match l with
  | [] => ""
  | [n] => to_string n
  | n :: r => to_string n ++ "," ++ joined r
  end.

Lemma fold_printed : forall l s,
  fold_left (fun s e => (s ++ to_string e) ++ ",") l s =
  s ++ match l with [] => "" | _ => joined l ++ "," end.
Proof.
  induction l as [|n l IH]; intros s; cbn [fold_left]; [rewrite append_nil_r; reflexivity|].
  rewrite IH. destruct l as [|m l].
  - cbn [joined]. rewrite append_nil_r, append_assoc. reflexivity.
  - change (joined (n :: m :: l)) with (to_string n ++ "," ++ joined (m :: l)).
    rewrite !append_assoc. reflexivity.
Qed.

Lemma vector_to_string_joined : forall l, l <> [] -> vector_to_string l = Ok (joined l).
Proof.
  intros l N. unfold vector_to_string. destruct l as [|n l]; [contradiction|].
  rewrite fold_printed. change ("" ++ joined (n :: l) ++ ",") with (joined (n :: l) ++ ",").
  unfold remove_last_char. rewrite length_append. cbn [String.length].
  replace (String.length (joined (n :: l)) + 1 - 1) with (String.length (joined (n :: l))) by lia.
  rewrite take_length. reflexivity.
Qed.

Lemma find_comma : forall s r, has_comma s = false -> find_first "," (s ++ String "," r) = Some (String.length s).
Proof.
  induction s as [|c s IH]; intros r H; [destruct r; reflexivity|]. cbn in H. apply orb_false_iff in H. destruct H as [H1 H2].
  cbn [append find_first]. cbn [prefix]. destruct (ascii_dec "," c) as [E|E].
  - subst c. discriminate.
  - rewrite IH by exact H2. reflexivity.
Qed.
Lemma find_no_comma : forall s, has_comma s = false -> find_first "," s = None.
Proof.
  induction s as [|c s IH]; intros H; [reflexivity|]. cbn in H. apply orb_false_iff in H. destruct H as [H1 H2].
  cbn [find_first prefix]. destruct (ascii_dec "," c) as [E|E]; [subst c; discriminate|]. rewrite IH by exact H2. reflexivity.
Qed.

Lemma drop_comma : forall s r, drop (String.length s + 1) (s ++ String "," r) = r.
Proof. induction s as [|c s IH]; intros r; [reflexivity|]. cbn. apply IH. Qed.

Lemma split_joined : forall l fuel, l <> [] -> String.length (joined l) < fuel ->
  split_loop fuel (joined l) "," = Ok (map to_string l).
Proof.
  induction l as [|n l IH]; intros fuel N F; [contradiction|]. destruct fuel as [|fuel]; [lia|].
  destruct l as [|m l].
  - cbn [joined map split_loop]. rewrite find_no_comma by apply to_string_no_comma. reflexivity.
  - change (joined (n :: m :: l)) with (to_string n ++ String "," (joined (m :: l))) in *.
    cbn [split_loop]. rewrite find_comma by apply to_string_no_comma.
    change (String.length ",") with 1. rewrite drop_comma, take_length.
    rewrite IH; [reflexivity|discriminate|].
    rewrite length_append in F. cbn [String.length] in F. lia.
Qed.

Lemma each_map : forall (A B C : Type) (f : B -> outcome C) (g : A -> B) (h : A -> C) l,
  (forall x, In x l -> f (g x) = Ok (h x)) -> each f (map g l) = Ok (map h l).
Proof.
  intros A B C f g h l. induction l as [|x l IH]; intros H; [reflexivity|]. cbn [map each].
  rewrite H by (left; reflexivity). cbn [bind]. rewrite IH by (intros; apply H; right; assumption). reflexivity.
Qed.

Lemma read_name : forall l, l <> [] ->
  bind (split (joined l) ",") (fun pieces => each stoul pieces) = Ok l.
Proof.
  intros l N. unfold split. rewrite split_joined by (assumption || lia). cbn [bind].
  rewrite (each_map _ _ _ _ _ (fun n => n)) by (intros; apply stoul_to_string). rewrite map_id. reflexivity.
Qed.

Lemma joined_inj : forall a b, a <> [] -> b <> [] -> joined a = joined b -> a = b.
Proof.
  intros a b A B E. pose proof (read_name a A) as RA. rewrite E, (read_name b B) in RA. congruence.
Qed.

(** ** Sides *)
Lemma side_eqb_eq : forall a b, side_eqb a b = true <-> a = b.
Proof.
  intros a b. split; [|intros ->; destruct b; cbn; auto; apply Nat.eqb_refl].
  destruct a, b; cbn; try discriminate; try reflexivity. intros H. apply Nat.eqb_eq in H. congruence.
Qed.

Lemma repeated_false : forall l r, repeated_windings l r = false <-> (forall i, In i l -> ~ In i r).
Proof.
  intros l r. unfold repeated_windings. split.
  - intros H i I R. assert (existsb (fun i => existsb (Nat.eqb i) r) l = true); [|congruence].
    apply existsb_exists. exists i. split; [exact I|]. apply existsb_exists. exists i. split; [exact R|apply Nat.eqb_refl].
  - intros H. destruct (existsb _ l) eqn:E; [|reflexivity]. exfalso.
    apply existsb_exists in E. destruct E as [i [I E]]. apply existsb_exists in E. destruct E as [j [J E]].
    apply Nat.eqb_eq in E. subst j. exact (H i I J).
Qed.

Lemma numbered_In : forall (A : Type) (l : list A) i x, In (i, x) (numbered l) <-> nth_error l i = Some x.
Proof.
  intros A l i x. unfold numbered.
  assert (G : forall l s, In (i, x) (combine (seq s (List.length l)) l) <-> (s <= i /\ nth_error l (i - s) = Some x)).
  { clear l. induction l as [|a l IH]; intros s; cbn [List.length seq combine In].
    - split; [intros []|]. intros [_ H]. destruct (i - s); discriminate.
    - rewrite IH. split.
      + intros [E|[L H]].
        * injection E as -> ->. split; [lia|]. rewrite Nat.sub_diag. reflexivity.
        * split; [lia|]. replace (i - s) with (S (i - S s)) by lia. exact H.
      + intros [L H]. destruct (Nat.eq_dec s i) as [->|N].
        * left. rewrite Nat.sub_diag in H. cbn in H. congruence.
        * right. split; [lia|]. replace (i - s) with (S (i - S s)) in H by lia. exact H. }
  rewrite G, Nat.sub_0_r. split; [intros [_ H]; exact H|intros H; split; [lia|exact H]].
Qed.

(** ** What a closed set of combinations contains *)
Section Invariant.
  Variable P : combination -> Prop.
  Hypothesis step : forall all m first b c, P (snd first) -> P b -> In c (pairing all m first b) -> P c.

  Lemma calculate_combinations_inv : forall source m,
    (forall c, In c source -> P c) -> forall c, In c (calculate_combinations source m) -> P c.
  Proof.
    intros source m H c I. unfold calculate_combinations in I. apply in_flat_map in I.
    destruct I as [[i a] [IA I]]. apply in_flat_map in I. destruct I as [b [IB I]].
    apply (step source m (i, a) b c).
    - cbn. apply H. apply numbered_In in IA. apply nth_error_In in IA. exact IA.
    - apply H. cbn [fst] in IB. rewrite <- (firstn_skipn (S i) source). apply in_or_app. right. exact IB.
    - exact I.
  Qed.

  Lemma rounds_inv : forall n m l, (forall c, In c l -> P c) -> forall c, In c (rounds n m l) -> P c.
  Proof.
    induction n as [|n IH]; intros m l H; cbn [rounds]; [exact H|]. apply IH.
    intros c I. apply in_app_or in I. destruct I as [I|I]; [apply H; exact I|].
    exact (calculate_combinations_inv l m H c I).
  Qed.
End Invariant.
