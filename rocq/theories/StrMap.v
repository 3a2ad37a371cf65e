(** [std::map<std::string, T>]: association lists kept in the byte order of their
    keys, each key once.  Iterating the C++ map visits the list in order. *)
From Coq Require Import List String Ascii Bool Arith NArith Lia Sorted.
Import ListNotations.
Open Scope string_scope.

(** [std::string::compare]: byte-wise lexicographic order. *)
Definition scmp : string -> string -> comparison := String.compare.

Lemma acmp_refl a : Ascii.compare a a = Eq.
Proof. unfold Ascii.compare. apply N.compare_refl. Qed.
Lemma acmp_eq a b : Ascii.compare a b = Eq -> a = b.
Proof.
  unfold Ascii.compare. intros H. apply N.compare_eq in H.
  rewrite <- (ascii_N_embedding a), <- (ascii_N_embedding b). now rewrite H.
Qed.
Lemma acmp_lt_trans a b c : Ascii.compare a b = Lt -> Ascii.compare b c = Lt -> Ascii.compare a c = Lt.
Proof. unfold Ascii.compare. rewrite !N.compare_lt_iff. lia. Qed.

Lemma scmp_refl a : scmp a a = Eq.
Proof. induction a as [|c a IH]; simpl; [reflexivity|]. unfold scmp in *. simpl. now rewrite acmp_refl. Qed.
Lemma scmp_eq a b : scmp a b = Eq <-> a = b.
Proof.
  split; [|intros ->; apply scmp_refl]. revert b.
  induction a as [|c a IH]; intros [|d b]; unfold scmp in *; simpl; try discriminate; [reflexivity|].
  destruct (Ascii.compare c d) eqn:E; try discriminate. apply acmp_eq in E as ->.
  intros H. f_equal. now apply IH.
Qed.
Lemma scmp_antisym a b : scmp a b = CompOpp (scmp b a).
Proof. apply String.compare_antisym. Qed.
Definition slt a b := scmp a b = Lt.
Lemma slt_trans a b c : slt a b -> slt b c -> slt a c.
Proof.
  unfold slt. revert b c. induction a as [|x a IH]; intros [|y b] [|z c]; unfold scmp in *; simpl;
    try discriminate; try reflexivity.
  destruct (Ascii.compare x y) eqn:E1, (Ascii.compare y z) eqn:E2; try discriminate; intros H1 H2.
  - apply acmp_eq in E1, E2. subst. rewrite acmp_refl. eapply IH; eauto.
  - apply acmp_eq in E1. subst. now rewrite E2.
  - apply acmp_eq in E2. subst. now rewrite E1.
  - now rewrite (acmp_lt_trans _ _ _ E1 E2).
Qed.
Lemma slt_irrefl a : ~ slt a a.
Proof. unfold slt. rewrite scmp_refl. discriminate. Qed.
Lemma scmp_gt a b : scmp a b = Gt -> slt b a.
Proof. intros H. unfold slt. rewrite scmp_antisym, H. reflexivity. Qed.

Section Map.
  Context {T : Type}.
  Definition smap := list (string * T).

  Fixpoint find (k : string) (m : smap) : option T :=
    match m with
    | [] => None
    | (k', v) :: r => if String.eqb k k' then Some v else find k r
    end.
  (** [m[k] = v] *)
  Fixpoint insert (k : string) (v : T) (m : smap) : smap :=
    match m with
    | [] => [(k, v)]
    | (k', v') :: r =>
        match scmp k k' with
        | Lt => (k, v) :: m
        | Eq => (k, v) :: r
        | Gt => (k', v') :: insert k v r
        end
    end.
  (** [m.erase(k)] *)
  Fixpoint erase (k : string) (m : smap) : smap :=
    match m with
    | [] => []
    | (k', v) :: r => if String.eqb k k' then r else (k', v) :: erase k r
    end.
  Definition keys (m : smap) : list string := map fst m.
  (** [for (auto& [k, v] : l) m[k] = v;] *)
  Definition insert_all (l : list (string * T)) (m : smap) : smap :=
    fold_left (fun m kv => insert (fst kv) (snd kv) m) l m.

  Inductive sorted : smap -> Prop :=
  | sorted_nil : sorted []
  | sorted_cons k v m : Forall (fun kv => slt k (fst kv)) m -> sorted m -> sorted ((k, v) :: m).

  Lemma find_In k v m : find k m = Some v -> In (k, v) m.
  Proof.
    induction m as [|[k' v'] m IH]; simpl; [discriminate|].
    destruct (String.eqb_spec k k') as [->|N]; [intros [= ->]; now left|auto].
  Qed.
  Lemma find_None k m : find k m = None <-> ~ In k (keys m).
  Proof.
    induction m as [|[k' v'] m IH]; simpl; [tauto|].
    destruct (String.eqb_spec k k') as [->|N].
    - split; [discriminate|intros H; exfalso; apply H; now left].
    - rewrite IH. split; [intros H [E|E]; [congruence|tauto]|tauto].
  Qed.
  Lemma find_Some_In k m : In k (keys m) <-> exists v, find k m = Some v.
  Proof.
    destruct (find k m) eqn:E.
    - split; [eauto|]. intros _. apply find_In in E. apply in_map_iff. now exists (k, t).
    - apply find_None in E. split; [tauto|]. intros (v & H). discriminate.
  Qed.

  Lemma In_insert k v m kv : In kv (insert k v m) -> kv = (k, v) \/ In kv m.
  Proof.
    induction m as [|[k' v'] m IH]; simpl; [intros [<-|[]]; now left|].
    destruct (scmp k k'); simpl; intros [H|H]; auto. destruct (IH H); auto.
  Qed.
  Lemma insert_sorted k v m : sorted m -> sorted (insert k v m).
  Proof.
    induction 1 as [|k' v' m F S IH]; simpl.
    - repeat constructor.
    - destruct (scmp k k') eqn:E.
      + apply scmp_eq in E. subst. now constructor.
      + constructor; [|now constructor]. constructor; [exact E|].
        eapply Forall_impl; [|exact F]. intros kv H. simpl in *. eapply slt_trans; eauto.
      + constructor; [|exact IH]. apply Forall_forall. intros kv H. apply In_insert in H as [->|H].
        * now apply scmp_gt.
        * rewrite Forall_forall in F. now apply F.
  Qed.
  Lemma In_erase k m kv : In kv (erase k m) -> In kv m.
  Proof.
    induction m as [|[k' v'] m IH]; simpl; [tauto|].
    destruct (String.eqb k k'); simpl; [tauto|]. intros [H|H]; auto.
  Qed.
  Lemma erase_sorted k m : sorted m -> sorted (erase k m).
  Proof.
    induction 1 as [|k' v' m F S IH]; simpl; [constructor|].
    destruct (String.eqb k k'); [exact S|]. constructor; [|exact IH].
    apply Forall_forall. intros kv H. apply In_erase in H. rewrite Forall_forall in F. now apply F.
  Qed.
  Lemma sorted_NoDup m : sorted m -> NoDup (keys m).
  Proof.
    induction 1 as [|k v m F S IH]; simpl; constructor; auto.
    intros H. apply in_map_iff in H as ([k' v'] & E & H). simpl in E. subst.
    rewrite Forall_forall in F. specialize (F _ H). simpl in F. now apply slt_irrefl in F.
  Qed.
  Lemma sorted_In_find k v m : sorted m -> In (k, v) m -> find k m = Some v.
  Proof.
    induction 1 as [|k' v' m F S IH]; simpl; [tauto|]. intros [[= -> ->]|H].
    - now rewrite String.eqb_refl.
    - destruct (String.eqb_spec k k') as [->|N]; [|auto].
      rewrite Forall_forall in F. specialize (F _ H). simpl in F. now apply slt_irrefl in F.
  Qed.

  Lemma find_insert_same k v m : find k (insert k v m) = Some v.
  Proof.
    induction m as [|[k' v'] m IH]; simpl; [now rewrite String.eqb_refl|].
    destruct (scmp k k') eqn:E; simpl; try now rewrite String.eqb_refl.
    destruct (String.eqb_spec k k') as [->|N]; [|exact IH].
    rewrite scmp_refl in E. discriminate.
  Qed.
  Lemma find_insert_other k k' v m : k' <> k -> find k' (insert k v m) = find k' m.
  Proof.
    intros N. induction m as [|[k2 v2] m IH]; simpl.
    - apply String.eqb_neq in N. now rewrite N.
    - destruct (scmp k k2) eqn:E; simpl.
      + apply scmp_eq in E. subst. apply String.eqb_neq in N. now rewrite N.
      + apply String.eqb_neq in N. now rewrite N.
      + now rewrite IH.
  Qed.
  Lemma find_insert k k' v m : find k' (insert k v m) = if String.eqb k' k then Some v else find k' m.
  Proof.
    destruct (String.eqb_spec k' k) as [->|N]; [apply find_insert_same|now apply find_insert_other].
  Qed.
  Lemma find_erase k k' m : sorted m -> find k' (erase k m) = if String.eqb k' k then None else find k' m.
  Proof.
    induction 1 as [|k2 v2 m F S IH]; simpl; [now destruct (String.eqb k' k)|].
    destruct (String.eqb_spec k k2) as [->|N].
    - destruct (String.eqb_spec k' k2) as [->|N']; [|reflexivity].
      apply find_None. intros H. apply in_map_iff in H as ([k3 v3] & E & H). simpl in E. subst.
      rewrite Forall_forall in F. specialize (F _ H). now apply slt_irrefl in F.
    - simpl. rewrite IH. destruct (String.eqb_spec k' k2) as [->|N'].
      + destruct (String.eqb_spec k2 k); [congruence|reflexivity].
      + reflexivity.
  Qed.

  (** Two maps with the same entries are the same list. *)
  Lemma smap_ext m1 m2 : sorted m1 -> sorted m2 ->
    (forall k, find k m1 = find k m2) -> m1 = m2.
  Proof.
    intros S1. revert m2. induction S1 as [|k v m F S IH]; intros m2 S2 E.
    - destruct S2 as [|k2 v2 m2 F2 S2]; [reflexivity|].
      specialize (E k2). simpl in E. rewrite String.eqb_refl in E. discriminate.
    - destruct S2 as [|k2 v2 m2 F2 S2].
      { specialize (E k). simpl in E. rewrite String.eqb_refl in E. discriminate. }
      assert (K : k = k2).
      { destruct (scmp k k2) eqn:C; [now apply scmp_eq| |]; exfalso.
        - pose proof (E k) as E'. simpl in E'. rewrite String.eqb_refl in E'.
          destruct (String.eqb_spec k k2) as [->|N]; [now apply (slt_irrefl k2)|].
          symmetry in E'. apply find_In in E'. rewrite Forall_forall in F2. specialize (F2 _ E').
          simpl in F2. apply (slt_irrefl k). eapply slt_trans; eauto.
        - apply scmp_gt in C. pose proof (E k2) as E'. simpl in E'. rewrite String.eqb_refl in E'.
          destruct (String.eqb_spec k2 k) as [->|N]; [now apply (slt_irrefl k)|].
          apply find_In in E'. rewrite Forall_forall in F. specialize (F _ E').
          simpl in F. apply (slt_irrefl k). eapply slt_trans; eauto. }
      subst k2. assert (v = v2).
      { specialize (E k). simpl in E. rewrite String.eqb_refl in E. congruence. }
      subst v2. f_equal. apply IH; auto. intros k'. specialize (E k'). simpl in E.
      destruct (String.eqb k' k) eqn:N; [|exact E]. apply String.eqb_eq in N. subst k'.
      assert (forall mm, Forall (fun kv => slt k (fst kv)) mm -> find k mm = None) as A.
      { intros mm FF. apply find_None. intros H. apply in_map_iff in H as ([k3 v3] & E3 & H3).
        simpl in E3. subst. rewrite Forall_forall in FF. specialize (FF _ H3). now apply slt_irrefl in FF. }
      now rewrite !A.
  Qed.

  Lemma insert_all_sorted l : forall m, sorted m -> sorted (insert_all l m).
  Proof.
    unfold insert_all. induction l as [|[k v] l IH]; simpl; intros m S; [exact S|].
    apply IH. now apply insert_sorted.
  Qed.
  (** With distinct keys, the entries of [l] win. *)
  Lemma find_insert_all k l : forall m, NoDup (keys l) ->
    find k (insert_all l m) = match find k l with Some v => Some v | None => find k m end.
  Proof.
    unfold insert_all. induction l as [|[k' v'] l IH]; simpl; intros m N; [reflexivity|].
    apply NoDup_cons_iff in N as [N1 N2]. rewrite IH by exact N2.
    destruct (find k l) eqn:E.
    - destruct (String.eqb k k') eqn:Q; [|reflexivity]. apply String.eqb_eq in Q. subst k'.
      exfalso. apply N1. apply find_Some_In. eauto.
    - rewrite find_insert. now destruct (String.eqb k k').
  Qed.
  Lemma insert_not_nil k v m : insert k v m <> [].
  Proof. destruct m as [|[k' v'] m]; simpl; [discriminate|]. destruct (scmp k k'); discriminate. Qed.
  Lemma insert_all_nil l : forall m, insert_all l m = [] -> l = [] /\ m = [].
  Proof.
    unfold insert_all. induction l as [|[k v] l IH]; simpl; intros m H; [auto|].
    apply IH in H as [_ H]. now apply insert_not_nil in H.
  Qed.
End Map.
Arguments smap : clear implicits.
