(** C19 and C21: the caches and the energies of the cached magnetics. *)
From Coq Require Import List String Bool Arith QArith Lia Sorted Lqa.
From Verif Require Import Base QAux StrMap CatalogModel.
Import ListNotations.
Open Scope nat_scope.
Open Scope string_scope.

(** * Vocabulary
    What a reference holds after a history, read off the history alone; the most
    recent call comes first in the reversed history. *)
Section Spec.
  Context {T : Type}.
  Fixpoint holds (recent_first : list (cache_op T)) (r : string) : option T :=
    match recent_first with
    | [] => None
    | CLoad r' v :: past => if String.eqb r r' then Some v else holds past r
    | CEvict r' :: past => if String.eqb r r' then None else holds past r
    | CEvictMany rs :: past => if existsb (String.eqb r) rs then None else holds past r
    | CClear :: _ => None
    | _ :: past => holds past r
    end.
  Definition value_after (h : list (cache_op T)) (r : string) : option T := holds (rev h) r.
  (** The answer of the last call after a history on a new cache. *)
  Definition answer (h : list (cache_op T)) (op : cache_op T) : outcome (reply T) :=
    snd (cache_step op (cache_run h [])).
  Fixpoint values (f : string -> option T) (rs : list string) : list T :=
    match rs with
    | [] => []
    | r :: rest => match f r with Some v => v :: values f rest | None => values f rest end
    end.
  (** The first occurrence of each reference, in order. *)
  Fixpoint first_occurrences (seen rs : list string) : list string :=
    match rs with
    | [] => []
    | r :: rest => if existsb (String.eqb r) seen then first_occurrences seen rest
                   else r :: first_occurrences (r :: seen) rest
    end.
End Spec.
(** Ascending byte order without repetitions. *)
Definition ascending (l : list string) : Prop := StronglySorted slt l.

(** * Lemmas *)
Lemma existsb_eqb_In s l : existsb (String.eqb s) l = true <-> In s l.
Proof.
  rewrite existsb_exists. split.
  - intros (x & I & E). apply String.eqb_eq in E. now subst.
  - intros I. exists s. split; [exact I|apply String.eqb_refl].
Qed.
Lemma evict_many_spec {T} rs : forall (m : smap T), sorted m ->
  sorted (snd (evict_many rs m)) /\
  forall r, find r (snd (evict_many rs m)) = if existsb (String.eqb r) rs then None else find r m.
Proof.
  induction rs as [|q rs IH]; intros m S; [now simpl|]. cbn [evict_many existsb].
  destruct (find q m) as [v|] eqn:F.
  - destruct (evict_many rs (erase q m)) as [vs m'] eqn:E. cbn [snd].
    destruct (IH (erase q m) (erase_sorted q m S)) as [S' K]. rewrite E in S', K. cbn [snd] in *.
    split; [exact S'|]. intros r. rewrite K, find_erase by exact S.
    destruct (String.eqb r q); simpl; [now destruct (existsb (String.eqb r) rs)|reflexivity].
  - destruct (IH m S) as [S' K]. split; [exact S'|]. intros r. rewrite K.
    destruct (String.eqb r q) eqn:Q; simpl; [|reflexivity].
    apply String.eqb_eq in Q. subst r. rewrite F. now destruct (existsb (String.eqb q) rs).
Qed.
Lemma step_sorted {T} op (m : smap T) : sorted m -> sorted (fst (cache_step op m)).
Proof.
  intros S. destruct op; simpl; try exact S; try constructor.
  - now apply insert_sorted.
  - destruct (find ref m); simpl; [now apply erase_sorted|exact S].
  - destruct (evict_many refs m) as [vs m'] eqn:E. simpl.
    change m' with (snd (vs, m')). rewrite <- E. now apply evict_many_spec.
  - destruct (find ref m); exact S.
Qed.
Lemma run_app {T} h op (m : smap T) :
  cache_run (h ++ [op])%list m = fst (cache_step op (cache_run h m)).
Proof. unfold cache_run. now rewrite fold_left_app. Qed.
Lemma run_sorted {T} (h : list (cache_op T)) : sorted (cache_run h []).
Proof.
  induction h as [|op h IH] using rev_ind; [constructor|]. rewrite run_app. now apply step_sorted.
Qed.
Lemma run_find {T} (h : list (cache_op T)) : forall r, find r (cache_run h []) = value_after h r.
Proof.
  unfold value_after. induction h as [|op h IH] using rev_ind; intros r; [reflexivity|].
  rewrite rev_app_distr. cbn [rev app]. rewrite run_app.
  pose proof (run_sorted h) as S. set (m := cache_run h []) in *. clearbody m.
  destruct op; cbn [cache_step fst holds]; rewrite <- ?IH; try reflexivity.
  - apply find_insert.
  - destruct (find ref m) eqn:F; cbn [fst].
    + now apply find_erase.
    + destruct (String.eqb r ref) eqn:Q; [|reflexivity]. apply String.eqb_eq in Q. now subst.
  - destruct (evict_many refs m) as [vs m'] eqn:E. cbn [fst].
    change m' with (snd (vs, m')). rewrite <- E. now apply evict_many_spec.
  - destruct (find ref m); reflexivity.
Qed.
Lemma keys_ascending {T} (m : smap T) : sorted m -> ascending (keys m).
Proof.
  unfold ascending, keys. induction 1 as [|k v m F S IH]; simpl; constructor; auto.
  apply Forall_forall. intros x H. apply in_map_iff in H as (kv & <- & H).
  rewrite Forall_forall in F. now apply F.
Qed.
Lemma values_map_snd {T} (m : smap T) : sorted m -> values (fun r => find r m) (keys m) = map snd m.
Proof.
  intros S. assert (G : forall l, incl l m -> values (fun r => find r m) (keys l) = map snd l).
  { induction l as [|[k v] l IH]; intros I; [reflexivity|]. cbn [keys map values fst snd].
    rewrite (sorted_In_find k v m S) by (apply I; now left). f_equal. apply IH.
    intros x H. apply I. now right. }
  apply G, incl_refl.
Qed.
Lemma values_ext {T} (f g : string -> option T) rs :
  (forall r, In r rs -> f r = g r) -> values f rs = values g rs.
Proof.
  induction rs as [|r rs IH]; simpl; [reflexivity|]. intros H.
  rewrite (H r) by now left. rewrite IH by (intros; apply H; now right). reflexivity.
Qed.
Lemma values_first_seen {T} (f g : string -> option T) rs : forall seen,
  (forall r, f r = if existsb (String.eqb r) seen then None else g r) ->
  values f (first_occurrences seen rs) = values g (first_occurrences seen rs).
Proof.
  intros seen H.
  assert (N : forall rs seen r, In r (first_occurrences seen rs) -> existsb (String.eqb r) seen = false).
  { clear. induction rs as [|q rs IH]; intros seen r; simpl; [tauto|].
    destruct (existsb (String.eqb q) seen) eqn:E; [apply IH|].
    intros [<-|I]; [exact E|]. apply IH in I. simpl in I. now apply orb_false_iff in I. }
  apply values_ext. intros r I. rewrite H. now rewrite (N _ _ _ I).
Qed.
Lemma evict_values {T} rs : forall (m m0 : smap T) seen, sorted m ->
  (forall r, find r m = if existsb (String.eqb r) seen then None else find r m0) ->
  fst (evict_many rs m) = values (fun r => find r m0) (first_occurrences seen rs).
Proof.
  induction rs as [|q rs IH]; intros m m0 seen S H; [reflexivity|].
  cbn [evict_many first_occurrences].
  destruct (find q m) as [v|] eqn:F.
  - destruct (existsb (String.eqb q) seen) eqn:E.
    { rewrite H, E in F. discriminate. }
    destruct (evict_many rs (erase q m)) as [vs m'] eqn:EV. cbn [fst values].
    pose proof (H q) as Hq. rewrite E, F in Hq. rewrite <- Hq. f_equal.
    change vs with (fst (vs, m')). rewrite <- EV. apply IH; [now apply erase_sorted|].
    intros r. rewrite find_erase by exact S. cbn [existsb].
    destruct (String.eqb r q); simpl; [reflexivity|apply H].
  - destruct (existsb (String.eqb q) seen) eqn:E; [now apply IH|].
    cbn [values]. pose proof (H q) as Hq. rewrite E, F in Hq. rewrite <- Hq.
    apply IH; [exact S|]. intros r. cbn [existsb]. destruct (String.eqb r q) eqn:Q; simpl; [|apply H].
    apply String.eqb_eq in Q. now subst.
Qed.

(** * C19 *)
Theorem C19_read_one : forall T (h : list (cache_op T)) r,
  match value_after h r with
  | Some v => answer h (CRead r) = Ok (RValue v)
  | None => exists e, answer h (CRead r) = Throw e
  end.
Proof.
  intros T h r. unfold answer. cbn [cache_step]. rewrite run_find.
  destruct (value_after h r); cbn [snd]; eauto.
Qed.
Theorem C19_evict_one : forall T (h : list (cache_op T)) r,
  match value_after h r with
  | Some v => answer h (CEvict r) = Ok (RValue v)
  | None => exists e, answer h (CEvict r) = Throw e
  end.
Proof.
  intros T h r. unfold answer. cbn [cache_step]. rewrite run_find.
  destruct (value_after h r); cbn [snd]; eauto.
Qed.
(** Evicting several returns the values of those that are present, each once, in the
    order asked for. *)
Theorem C19_evict_many : forall T (h : list (cache_op T)) rs,
  answer h (CEvictMany rs) = Ok (RValues (values (value_after h) (first_occurrences [] rs))).
Proof.
  intros T h rs. unfold answer. cbn [cache_step].
  destruct (evict_many rs (cache_run h [])) as [vs m'] eqn:E. cbn [snd]. do 2 f_equal.
  change vs with (fst (vs, m')). rewrite <- E.
  rewrite (evict_values rs (cache_run h []) (cache_run h []) []); [|apply run_sorted|reflexivity].
  apply values_ext. intros r _. apply run_find.
Qed.
Theorem C19_read_many : forall T (h : list (cache_op T)) rs,
  answer h (CReadMany rs) = Ok (RValues (values (value_after h) rs)).
Proof.
  intros T h rs. unfold answer. cbn [cache_step snd]. do 2 f_equal.
  rewrite <- (values_ext (fun r => find r (cache_run h []))) by (intros; apply run_find).
  induction rs as [|r rs IH]; simpl; [reflexivity|]. now destruct (find r (cache_run h [])); rewrite IH.
Qed.
(** The references are those present, in ascending order; size and the values of
    all entries agree with them. *)
Theorem C19_references_size_and_contents : forall T (h : list (cache_op T)),
  exists refs, ascending refs /\
    (forall r, In r refs <-> value_after h r <> None) /\
    answer h CReferences = Ok (RRefs refs) /\
    answer h CSize = Ok (RCount (List.length refs)) /\
    answer h CReadAll = Ok (RValues (values (value_after h) refs)) /\
    List.length (values (value_after h) refs) = List.length refs.
Proof.
  intros T h. exists (keys (cache_run h [])). pose proof (run_sorted h) as S.
  split; [now apply keys_ascending|]. split.
  { intros r. rewrite find_Some_In, run_find. split; [intros (v & ->); discriminate|].
    destruct (value_after h r); [eauto|contradiction]. }
  assert (V : values (value_after h) (keys (cache_run h [])) = map snd (cache_run h [])).
  { rewrite <- values_map_snd by exact S. apply values_ext. intros r _. symmetry. apply run_find. }
  repeat split.
  - unfold answer. cbn [cache_step snd]. unfold keys. now rewrite map_length.
  - unfold answer. cbn [cache_step snd]. now rewrite V.
  - rewrite V. unfold keys. now rewrite !map_length.
Qed.
Example C19_witness :
  let h := [CLoad "b" 1; CLoad "a" 2; CLoad "b" 3; CLoad "c" 4; CEvict "c"; CRead "zz"] in
  value_after h "b" = Some 3 /\ value_after h "c" = None /\
  answer h (CEvictMany ["b"; "x"; "b"; "a"]) = Ok (RValues [3; 2]) /\
  answer h CReferences = Ok (RRefs ["a"; "b"]).
Proof. vm_compute. auto. Qed.

(** * C21 *)
(** Calls on the magnetics cache that can follow a computation of the energies. *)
Inductive later := LLoad (r : string) (v : nat) | LEvict (r : string) | LEvictMany (rs : list string).
Definition do_later (w : world) (l : later) : world :=
  match l with
  | LLoad r v => fst (mag_load r v w)
  | LEvict r => fst (mag_evict r w)
  | LEvictMany rs => fst (mag_evict_many rs w)
  end.
Definition filtered (lo : Q) (hi : option Q) (w : world) : list string := filter_by_energy lo hi (energies w).
Definition in_range (lo : Q) (hi : option Q) (e : Q) : Prop :=
  (lo <= e)%Q /\ match hi with Some h => (e <= h)%Q | None => True end.

Lemma energies_sorted {T} (energy : T -> Q) m : sorted (energies_of energy m).
Proof.
  unfold energies_of. assert (G : forall l e, sorted e ->
    sorted (fold_left (fun e rv => insert (fst rv) (energy (snd rv)) e) l e)).
  { induction l as [|x l IH]; simpl; intros e S; [exact S|]. apply IH. now apply insert_sorted. }
  apply G. constructor.
Qed.
Lemma energies_find {T} (energy : T -> Q) (m : smap T) r : sorted m ->
  find r (energies_of energy m) = option_map energy (find r m).
Proof.
  unfold energies_of. intros S.
  assert (G : forall l e, NoDup (keys l) ->
    find r (fold_left (fun e (rv : string * T) => insert (fst rv) (energy (snd rv)) e) l e)
    = match find r l with Some v => Some (energy v) | None => find r e end).
  { induction l as [|[k v] l IH]; simpl; intros e N; [reflexivity|].
    apply NoDup_cons_iff in N as [N1 N2]. rewrite IH by exact N2. rewrite find_insert.
    destruct (String.eqb r k) eqn:Q; [|reflexivity]. apply String.eqb_eq in Q. subst k.
    apply find_None in N1. now rewrite N1. }
  rewrite G by (now apply sorted_NoDup). now destruct (find r m).
Qed.
Lemma filter_keys_ascending (p : string * Q -> bool) m : sorted m -> ascending (map fst (filter p m)).
Proof.
  unfold ascending. induction 1 as [|k v m F S IH]; simpl; [constructor|].
  destruct (p (k, v)); simpl; [|exact IH]. constructor; [exact IH|].
  apply Forall_forall. intros x H. apply in_map_iff in H as (kv & <- & H). apply filter_In in H as [H _].
  rewrite Forall_forall in F. now apply F.
Qed.
Lemma max_element_spec l : forall b,
  let m := max_element b l in
  (m = b \/ In m l) /\ (snd b <= snd m)%Q /\ (forall x, In x l -> (snd x <= snd m)%Q).
Proof.
  induction l as [|x l IH]; intros b; cbn [max_element]; [split; [now left|]; split; [lra|intros x []]|].
  destruct (Qlt_bool (snd b) (snd x)) eqn:E; qb.
  - destruct (IH x) as (A & B & C). cbv zeta. split; [destruct A as [->|A]; [right; now left|right; now right]|].
    split; [lra|]. intros y [<-|I]; [exact B|auto].
  - destruct (IH b) as (A & B & C). cbv zeta. split; [destruct A as [->|A]; [now left|right; now right]|].
    split; [exact B|]. intros y [<-|I]; [lra|auto].
Qed.
Lemma later_energies hs : forall w, energies (fold_left do_later hs w) = energies w.
Proof.
  induction hs as [|l hs IH]; intros w; simpl; [reflexivity|]. rewrite IH.
  destruct l; simpl.
  - unfold mag_load, seq, guard. destruct (frozen w); reflexivity.
  - unfold mag_evict. destruct (find r (magnetics w)); reflexivity.
  - unfold mag_evict_many. destruct (evict_many rs (magnetics w)). reflexivity.
Qed.

(** The filter returns, in ascending order, exactly the references cached when the
    energies were computed whose energy is in the range - whatever was loaded or
    evicted since. *)
Theorem C21_filter_sound_and_complete : forall w energy hs lo hi,
  sorted (magnetics w) ->
  let w' := fold_left do_later hs (fst (mag_compute_energies energy w)) in
  ascending (filtered lo hi w') /\
  forall r, In r (filtered lo hi w') <->
            exists v, find r (magnetics w) = Some v /\ in_range lo hi (energy v).
Proof.
  intros w energy hs lo hi S w'. unfold filtered, filter_by_energy.
  assert (E : energies w' = energies_of energy (magnetics w)) by (unfold w'; now rewrite later_energies).
  rewrite E. split; [apply filter_keys_ascending, energies_sorted|].
  intros r. rewrite in_map_iff. unfold in_range. split.
  - intros ([k e] & <- & I). apply filter_In in I as [I P]. cbn [fst snd] in *.
    apply sorted_In_find in I; [|apply energies_sorted]. rewrite energies_find in I by exact S.
    destruct (find k (magnetics w)) as [v|]; [|discriminate]. injection I as <-.
    exists v. split; [reflexivity|].
    destruct hi as [h|]; [apply andb_prop in P as [P1 P2]|]; rewrite ?Qle_bool_iff in *; auto.
  - intros (v & F & A & B). exists (r, energy v). split; [reflexivity|]. apply filter_In. split.
    + apply find_In. rewrite energies_find by exact S. now rewrite F.
    + cbn [snd]. apply Qle_bool_iff in A. destruct hi; [apply Qle_bool_iff in B|]; now rewrite A, ?B.
Qed.
(** The maximum is attained by an entry and no entry exceeds it; without entries
    the call fails. *)
Theorem C21_maximum : forall w energy hs,
  sorted (magnetics w) ->
  let w' := fold_left do_later hs (fst (mag_compute_energies energy w)) in
  (magnetics w = [] -> exists e, maximum_energy (energies w') = Throw e) /\
  (magnetics w <> [] -> exists r v, maximum_energy (energies w') = Ok (r, energy v) /\
      find r (magnetics w) = Some v /\
      forall r' v', find r' (magnetics w) = Some v' -> (energy v' <= energy v)%Q).
Proof.
  intros w energy hs S w'.
  assert (E : energies w' = energies_of energy (magnetics w)) by (unfold w'; now rewrite later_energies).
  rewrite E. split.
  - intros ->. simpl. eauto.
  - intros N. pose proof (energies_sorted energy (magnetics w)) as ES.
    pose proof (fun r => energies_find energy (magnetics w) r S) as EF.
    destruct (energies_of energy (magnetics w)) as [|x l] eqn:EE.
    { destruct (magnetics w) as [|[k v] m]; [contradiction|]. specialize (EF k). simpl in EF.
      rewrite String.eqb_refl in EF. discriminate. }
    destruct (max_element_spec l x) as (A & B & C). cbv zeta in *.
    cbn [maximum_energy]. destruct (max_element x l) as [r e] eqn:M. cbn [snd] in *.
    assert (I : In (r, e) (x :: l)) by (destruct A as [<-|A]; [now left|now right]).
    apply sorted_In_find in I; [|exact ES]. rewrite EF in I.
    destruct (find r (magnetics w)) as [v|] eqn:F; [|discriminate]. injection I as <-.
    exists r, v. split; [reflexivity|]. split; [exact F|].
    intros r' v' F'. specialize (EF r'). rewrite F' in EF. apply find_In in EF.
    destruct EF as [->|I']; [exact B|]. now apply C in I'.
Qed.
(** Recomputing sees what was loaded and evicted. *)
Theorem C21_recomputing_sees_changes : forall w energy hs lo hi,
  sorted (magnetics (fold_left do_later hs w)) ->
  forall r, In r (filtered lo hi (fst (mag_compute_energies energy (fold_left do_later hs w)))) <->
            exists v, find r (magnetics (fold_left do_later hs w)) = Some v /\ in_range lo hi (energy v).
Proof.
  intros w energy hs lo hi S r.
  apply (C21_filter_sound_and_complete (fold_left do_later hs w) energy [] lo hi S).
Qed.
(** The hypothesis holds of every cache built by calls. *)
Theorem C21_caches_are_sorted : forall hs w,
  sorted (magnetics w) -> sorted (magnetics (fold_left do_later hs w)).
Proof.
  induction hs as [|l hs IH]; intros w S; simpl; [exact S|]. apply IH.
  destruct l; simpl.
  - unfold mag_load, seq, guard. destruct (frozen w); simpl; [exact S|now apply insert_sorted].
  - unfold mag_evict. destruct (find r (magnetics w)); simpl; [now apply erase_sorted|exact S].
  - unfold mag_evict_many. destruct (evict_many rs (magnetics w)) as [vs m] eqn:E. simpl.
    change m with (snd (vs, m)). rewrite <- E. now apply evict_many_spec.
Qed.
Definition sample_world : world :=
  {| frozen := false; add_internal := true; cats := no_catalogs;
     magnetics := [("a", 1); ("b", 5); ("c", 3)]; energies := []; settings := SettingsModel.fresh;
     wires_memo := (0, []) |}.
Example C21_witness :
  let energy := fun v => inject_Z (Z.of_nat v) in
  let w' := fold_left do_later [LEvict "c"; LLoad "d" 4] (fst (mag_compute_energies energy sample_world)) in
  sorted (magnetics sample_world) /\
  filtered 3 None w' = ["b"; "c"] /\ filtered 3 (Some 4%Q) w' = ["c"] /\
  maximum_energy (energies w') = Ok ("b", 5%Q) /\
  filtered 3 None (fst (mag_compute_energies energy w')) = ["b"; "d"].
Proof.
  split; [repeat constructor|]. vm_compute. auto.
Qed.

Print Assumptions C19_read_one.
Print Assumptions C19_evict_one.
Print Assumptions C19_evict_many.
Print Assumptions C19_read_many.
Print Assumptions C19_references_size_and_contents.
Print Assumptions C21_filter_sound_and_complete.
Print Assumptions C21_maximum.
Print Assumptions C21_recomputing_sees_changes.
Print Assumptions C21_caches_are_sorted.
