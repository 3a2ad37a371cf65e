(** C32: the combinations offered of a catalogue magnetic's windings.  C69: taking a
    solution back to the physical windings. *)
From Coq Require Import ZArith QArith List String Ascii Bool Arith Lia Lqa FinFun.
From Verif Require Import Base QAux StrMap TextModel TextProofs UtilsNumModel UtilsNumProperties CombinatorModel CombinatorProofs.
Import ListNotations.
Open Scope list_scope.
Open Scope nat_scope.

(** * Vocabulary *)

(** Ways to wire physical windings together. *)
Inductive wiring := Single (i : nat) | Series (a b : wiring) | Parallel (a b : wiring).
Fixpoint windings_of (w : wiring) : list nat :=
  match w with Single i => [i] | Series a b | Parallel a b => windings_of a ++ windings_of b end.

Definition turns_at (coil : list winding) (i : nat) : nat :=
  match nth_error coil i with Some w => w_turns w | None => 0 end.
Definition strands_at (coil : list winding) (i : nat) : nat :=
  match nth_error coil i with Some w => w_parallels w | None => 0 end.
Definition on_side (coil : list winding) (s : side) (i : nat) : Prop :=
  exists w, nth_error coil i = Some w /\ w_side w = s.

(** Turns add in series; parallel branches have the same. *)
Fixpoint turns_of (coil : list winding) (w : wiring) : nat :=
  match w with
  | Single i => turns_at coil i
  | Series a b => turns_of coil a + turns_of coil b
  | Parallel a b => turns_of coil a
  end.
Fixpoint strands_of (coil : list winding) (w : wiring) : nat :=
  match w with
  | Single i => strands_at coil i
  | Series a b => Nat.max (strands_of coil a) (strands_of coil b)
  | Parallel a b => strands_of coil a + strands_of coil b
  end.
Fixpoint equal_branches (coil : list winding) (w : wiring) : Prop :=
  match w with
  | Single i => True
  | Series a b => equal_branches coil a /\ equal_branches coil b
  | Parallel a b => turns_of coil a = turns_of coil b /\ equal_branches coil a /\ equal_branches coil b
  end.
Definition is_single (w : wiring) : Prop := exists i, w = Single i.

(** A wiring that can be made: no winding used twice, branches of equal turns, all on
    one side, and auxiliaries and shields only by themselves. *)
Definition possible (coil : list winding) (s : side) (w : wiring) : Prop :=
  NoDup (windings_of w) /\ (forall i, In i (windings_of w) -> on_side coil s i) /\ equal_branches coil w /\
  (s = TERTIARY \/ s = QUATERNARY -> is_single w).

(** Every winding of the coil has turns. *)
Definition wound (coil : list winding) : Prop := forall w, In w coil -> 0 < w_turns w.

(** A virtual winding made by a wiring, out of the narrowest of its wires. *)
Definition made_by (coil : list winding) (dimension : nat -> Q) (w : wiring) (v : vwinding) : Prop :=
  possible coil (v_side v) w /\ v_turns v = turns_of coil w /\ v_parallels v = strands_of coil w /\
  exists i, v_wire v = Some i /\ In i (windings_of w) /\ forall j, In j (windings_of w) -> (dimension i <= dimension j)%Q.

(** * Combinations *)

Definition describes (coil : list winding) (w : wiring) (c : combination) : Prop :=
  possible coil (cb_side c) w /\ cb_indexes c = windings_of w /\ cb_turns c = turns_of coil w /\
  cb_parallels c = strands_of coil w /\ (cb_is_parallel c = true <-> exists a b, w = Parallel a b).

Lemma NoDup_join : forall (l r : list nat), NoDup l -> NoDup r -> (forall i, In i l -> ~ In i r) -> NoDup (l ++ r).
Proof.
  induction l as [|x l IH]; intros r L R D; [exact R|]. cbn. inversion L as [|? ? N L' E]; subst. constructor.
  - intros I. apply in_app_or in I. destruct I as [I|I]; [contradiction|]. exact (D x (or_introl eq_refl) I).
  - apply IH; auto. intros i I. apply D. right. exact I.
Qed.

Lemma pairing_describes : forall coil all m first b c,
  (exists w, describes coil w (snd first)) -> (exists w, describes coil w b) ->
  In c (pairing all m first b) -> exists w, describes coil w c.
Proof.
  intros coil all m [i a] b c [wa [[NA [SA [EA TA]]] [IA [UA [PA FA]]]]] [wb [[NB [SB [EB TB]]] [IB [UB [PB FB]]]]] I.
  unfold pairing in I. cbn [snd fst] in *.
  destruct (repeated_windings (cb_indexes a) (cb_indexes b)) eqn:R; [destruct I|].
  destruct (side_eqb (cb_side a) (cb_side b)) eqn:S; [|destruct I]. apply side_eqb_eq in S. cbn [negb] in I.
  destruct (side_eqb (cb_side a) TERTIARY) eqn:T1; [destruct I|].
  destruct (side_eqb (cb_side b) TERTIARY) eqn:T2; [destruct I|]. cbn [orb] in I.
  destruct (side_eqb (cb_side a) QUATERNARY) eqn:Q1; [destruct I|].
  destruct (side_eqb (cb_side b) QUATERNARY) eqn:Q2; [destruct I|]. cbn [orb] in I.
  destruct (_ && _) in I; [destruct I|].
  assert (ND : NoDup (windings_of wa ++ windings_of wb)).
  { apply NoDup_join; [exact NA|exact NB|]. rewrite <- IA, <- IB. apply repeated_false. exact R. }
  assert (SD : forall k, In k (windings_of wa ++ windings_of wb) -> on_side coil (cb_side a) k).
  { intros k K. apply in_app_or in K. destruct K as [K|K]; [apply SA; exact K|]. rewrite S. apply SB. exact K. }
  assert (TQ : cb_side a = TERTIARY \/ cb_side a = QUATERNARY -> False).
  { intros [E|E]; rewrite E in *; discriminate. }
  apply in_app_or in I. destruct I as [I|I].
  - destruct (_ <=? m) in I; [|destruct I]. destruct I as [<-|[]]. exists (Series wa wb).
    unfold describes, possible, in_series. cbn. rewrite IA, IB, UA, UB, PA, PB.
    repeat split; auto; try (intros E; destruct (TQ E)); try discriminate.
    intros [x [y E]]. discriminate.
  - destruct (cb_turns a =? cb_turns b) eqn:E; [|destruct I]. apply Nat.eqb_eq in E. cbn [andb] in I.
    destruct (negb (cb_is_parallel b)); [|destruct I]. destruct I as [<-|[]]. exists (Parallel wa wb).
    unfold describes, possible, in_parallel. cbn. rewrite IA, IB, UA, PA, PB.
    repeat split; auto; try (intros X; destruct (TQ X)).
    + congruence.
    + intros _. eauto.
Qed.

(** Every combination offered is a wiring that can be made, its turns and parallels are
    those of the wiring, and it is marked as parallel exactly when that is what it is. *)
Theorem C32_combinations : forall coil desired c, In c (calculate_coil_combinations coil desired) ->
  exists w, possible coil (cb_side c) w /\ cb_indexes c = windings_of w /\ cb_turns c = turns_of coil w /\
    cb_parallels c = strands_of coil w /\ (cb_is_parallel c = true <-> exists a b, w = Parallel a b).
Proof.
  intros coil desired c I. change (exists w, describes coil w c). revert c I. unfold calculate_coil_combinations.
  destruct (List.length coil <? desired); [intros c []|].
  apply (rounds_inv (fun c => exists w, describes coil w c) (pairing_describes coil)).
  intros c I. apply in_map_iff in I. destruct I as [[i w] [<- I]]. apply numbered_In in I.
  exists (Single i). unfold describes, possible, alone. cbn. unfold turns_at, strands_at, on_side. rewrite I.
  repeat split; auto.
  - constructor; [intros []|constructor].
  - intros k [<-|[]]. exists w. rewrite I. auto.
  - intros _. exists i. reflexivity.
  - discriminate.
  - intros [a [b E]]. discriminate.
Qed.

Lemma windings_nonempty : forall w, windings_of w <> [].
Proof. induction w; cbn; [discriminate| |]; destruct (windings_of w1); try contradiction; discriminate. Qed.

(** Nothing is offered when there are fewer windings than wanted, and each winding by
    itself is offered otherwise. *)
Theorem C32_singles_offered : forall coil desired i w, nth_error coil i = Some w ->
  (List.length coil < desired -> calculate_coil_combinations coil desired = []) /\
  (desired <= List.length coil ->
   exists c, In c (calculate_coil_combinations coil desired) /\ cb_indexes c = [i] /\ cb_turns c = w_turns w).
Proof.
  intros coil desired i w H. unfold calculate_coil_combinations. split.
  - intros L. apply Nat.ltb_lt in L. rewrite L. reflexivity.
  - intros L. destruct (Nat.ltb_spec (List.length coil) desired); [lia|].
    exists (alone (i, w)). split; [|split; reflexivity].
    assert (K : forall n m l c, In c l -> In c (rounds n m l)).
    { induction n as [|n IH]; intros m l c C; [exact C|]. cbn [rounds]. apply IH, in_or_app. left. exact C. }
    apply K, in_map, numbered_In, H.
Qed.

(** Two windings of one side, neither tapped, are offered both in series and, with
    equal turns, in parallel, whenever one more winding than wanted is there. *)
Theorem C32_pairs_offered : forall coil desired i j a b, i < j -> nth_error coil i = Some a -> nth_error coil j = Some b ->
  w_side a = w_side b -> w_side a <> TERTIARY -> w_side a <> QUATERNARY -> w_connections a = None ->
  desired < List.length coil ->
  (exists c, In c (calculate_coil_combinations coil desired) /\ cb_indexes c = [i; j] /\
     cb_turns c = w_turns a + w_turns b /\ cb_is_parallel c = false) /\
  (w_turns a = w_turns b ->
   exists c, In c (calculate_coil_combinations coil desired) /\ cb_indexes c = [i; j] /\
     cb_turns c = w_turns a /\ cb_is_parallel c = true).
Proof.
  intros coil desired i j a b IJ HA HB SD NT NQ CN L. unfold calculate_coil_combinations.
  destruct (Nat.ltb_spec (List.length coil) desired); [lia|].
  set (l := map alone (numbered coil)). set (m := List.length coil - desired + 1).
  assert (M : 2 <= m) by (unfold m; lia).
  assert (K : forall n l c, In c l -> In c (rounds n m l)).
  { induction n as [|n IH]; intros l0 c C; [exact C|]. cbn [rounds]. apply IH, in_or_app. left. exact C. }
  assert (N1 : exists n, Nat.min maximumNumberCombinationLevels (List.length coil - desired) = S n).
  { exists (Nat.min maximumNumberCombinationLevels (List.length coil - desired) - 1). unfold maximumNumberCombinationLevels. lia. }
  destruct N1 as [n ->]. cbn [rounds].
  assert (LL : List.length l = List.length coil).
  { unfold l, numbered. rewrite map_length, combine_length, seq_length. lia. }
  assert (AT : forall k w, nth_error coil k = Some w -> nth_error l k = Some (alone (k, w))).
  { intros k w E. unfold l. apply map_nth_error. apply numbered_In in E.
    assert (G : forall (A : Type) (u : list A) s k (x : A), nth_error u k = Some x ->
       nth_error (combine (seq s (List.length u)) u) k = Some (s + k, x)).
    { intros A u. induction u as [|y u IH]; intros s q x X; [destruct q; discriminate|].
      destruct q as [|q]; cbn in *.
      - rewrite Nat.add_0_r. congruence.
      - rewrite (IH (S s) q x X). f_equal. f_equal. lia. }
    apply numbered_In in E. exact (G _ coil 0 k w E). }
  assert (IN : forall c, In c (pairing l m (i, alone (i, a)) (alone (j, b))) ->
     In c (rounds n m (l ++ calculate_combinations l m))).
  { intros c C. apply K, in_or_app. right. unfold calculate_combinations. apply in_flat_map.
    exists (i, alone (i, a)). split; [apply numbered_In, AT, HA|]. apply in_flat_map. exists (alone (j, b)).
    split; [|exact C]. cbn [fst].
    specialize (AT j b HB). rewrite <- (firstn_skipn (S i) l) in AT.
    rewrite nth_error_app2 in AT; rewrite firstn_length in *; [|lia]. apply nth_error_In in AT. exact AT. }
  assert (P : pairing l m (i, alone (i, a)) (alone (j, b)) =
    ([in_series (alone (i, a)) (alone (j, b))] ++
     (if w_turns a =? w_turns b then [in_parallel (alone (i, a)) (alone (j, b))] else []))).
  { unfold pairing. cbn [snd fst].
    replace (repeated_windings (cb_indexes (alone (i, a))) (cb_indexes (alone (j, b)))) with false.
    2:{ symmetry. apply repeated_false. cbn. intros k [<-|[]] [E|[]]. lia. }
    cbn [alone cb_side snd]. rewrite <- SD.
    replace (side_eqb (w_side a) (w_side a)) with true by (symmetry; apply side_eqb_eq; reflexivity).
    replace (side_eqb (w_side a) TERTIARY) with false
      by (destruct (side_eqb (w_side a) TERTIARY) eqn:E; [apply side_eqb_eq in E; contradiction|reflexivity]).
    replace (side_eqb (w_side a) QUATERNARY) with false
      by (destruct (side_eqb (w_side a) QUATERNARY) eqn:E; [apply side_eqb_eq in E; contradiction|reflexivity]).
    cbn [negb orb]. unfold get_compulsory_series_connections. cbn [cb_connections alone snd]. rewrite CN.
    cbn [List.length Nat.eqb negb andb cb_indexes fst app].
    change (List.length (cb_indexes (alone (i, a))) + List.length (cb_indexes (alone (j, b)))) with 2.
    change (cb_is_parallel (alone (j, b))) with false.
    destruct (Nat.leb_spec 2 m); [|lia]. cbn [negb andb]. rewrite !andb_true_r. reflexivity. }
  split.
  - exists (in_series (alone (i, a)) (alone (j, b))). split; [|repeat split].
    apply IN. rewrite P. left. reflexivity.
  - intros E. exists (in_parallel (alone (i, a)) (alone (j, b))). split; [|repeat split].
    apply IN. rewrite P, E, Nat.eqb_refl. right. left. reflexivity.
Qed.

(** * Virtual magnetics *)

Lemma restrictive : forall dimension l, l <> [] ->
  exists i, get_most_restrictive_wire dimension l = Some i /\ In i l /\ forall j, In j l -> (dimension i <= dimension j)%Q.
Proof.
  intros dimension l N. unfold get_most_restrictive_wire.
  set (f := fun (best : option (nat * Q)) i => match best with
       | Some (_, m) => if Qlt_bool (dimension i) m then Some (i, dimension i) else best
       | None => Some (i, dimension i) end).
  assert (G : forall l i0, exists i, fold_left f l (Some (i0, dimension i0)) = Some (i, dimension i) /\
     (i = i0 \/ In i l) /\ (dimension i <= dimension i0)%Q /\ forall j, In j l -> (dimension i <= dimension j)%Q).
  { clear l N. induction l as [|x l IH]; intros i0; cbn [fold_left].
    - exists i0. repeat split; auto; [lra|intros j []].
    - unfold f at 2. destruct (Qlt_bool (dimension x) (dimension i0)) eqn:B.
      + apply Qlt_bool_iff in B. destruct (IH x) as [i [E [O [L A]]]]. exists i. split; [exact E|].
        repeat split; [right; destruct O; [left; congruence|right; assumption]|lra|].
        intros j [<-|J]; [exact L|apply A; exact J].
      + apply Qlt_bool_false in B. destruct (IH i0) as [i [E [O [L A]]]]. exists i. split; [exact E|].
        repeat split; [destruct O; [left; assumption|right; right; assumption]|exact L|].
        intros j [<-|J]; [lra|apply A; exact J]. }
  destruct l as [|x l]; [contradiction|]. cbn [fold_left f]. destruct (G l x) as [i [E [O [L A]]]].
  exists i. rewrite E. cbn. split; [reflexivity|]. split; [destruct O; [left; congruence|right; assumption]|].
  intros j [<-|J]; [exact L|apply A; exact J].
Qed.

Lemma virtual_winding_made : forall coil dimension w c v, describes coil w c ->
  virtual_winding dimension c = Ok v -> made_by coil dimension w v /\ v_name v = joined (windings_of w).
Proof.
  intros coil dimension w c v [P [I [T [S _]]]] H. unfold virtual_winding in H.
  rewrite I, vector_to_string_joined in H by apply windings_nonempty. cbn [bind] in H. injection H as <-.
  split; [|reflexivity]. unfold made_by. cbn. split; [exact P|]. split; [exact T|]. split; [exact S|].
  apply restrictive. apply windings_nonempty.
Qed.

(** The windings of a virtual magnetic, each with its wiring. *)
Definition wired (coil : list winding) (dimension : nat -> Q) (ws : list wiring) (v : list vwinding) : Prop :=
  Forall2 (fun w x => made_by coil dimension w x /\ v_name x = joined (windings_of w)) ws v.

Lemma wired_indexes : forall coil dimension ws v, wired coil dimension ws v ->
  get_winding_indexes v = Ok (flat_map windings_of ws).
Proof.
  intros coil dimension ws v H. unfold get_winding_indexes.
  assert (E : each (fun w => bind (split (v_name w) ",") (fun pieces => each stoul pieces)) v = Ok (map windings_of ws)).
  { induction H as [|w x ws v [_ N] H IH]; [reflexivity|]. cbn [each map]. rewrite N, read_name by apply windings_nonempty.
    cbn [bind]. rewrite IH. reflexivity. }
  rewrite E. cbn [bind]. rewrite flat_map_concat_map. reflexivity.
Qed.

Lemma Forall2_weaken : forall (A B : Type) (P Q : A -> B -> Prop) l r,
  (forall x y, P x y -> Q x y) -> Forall2 P l r -> Forall2 Q l r.
Proof. intros A B P Q l r I H. induction H; constructor; auto. Qed.
Lemma Forall2_left_of : forall (A B : Type) (P : A -> B -> Prop) l r y, Forall2 P l r -> In y r -> exists x, P x y.
Proof. intros A B P l r y H. induction H as [|a b l r H _ IH]; intros []; [subst; eauto|auto]. Qed.

Section Offered.
  Variable coil : list winding.
  Variable dimension : nat -> Q.
  Variable inductance : vwinding -> Q.
  Variable requirement : dwt.

  (** What holds of a virtual magnetic once the first ratios have been dealt with. *)
  Definition good (ratios : list dwt) (v : list vwinding) : Prop :=
    exists w0 ws v0 vs, v = v0 :: vs /\ wired coil dimension (w0 :: ws) v /\
      NoDup (flat_map windings_of (w0 :: ws)) /\ v_side v0 = PRIMARY /\
      check_requirement requirement (inductance (mkVWinding (v_name v0) (v_connections v0) (v_side v0) (v_turns v0) (v_parallels v0) (v_wire v0))) = Ok true /\
      Forall2 (fun r x => check_requirement r (turns_ratio (v_turns v0) (v_turns x)) = Ok true) ratios vs.

  (** What holds of the map: every entry is offered, under the name of its windings. *)
  Definition recorded (offered : list combination) (u : used) : Prop :=
    forall k c, find k u = Some c -> In c offered /\ k = joined (cb_indexes c).
  Definition named (u : used) (v : list vwinding) : Prop := forall x, In x v -> exists c, find (v_name x) u = Some c.

  Variable offered : list combination.
  Hypothesis all_described : forall c, In c offered -> exists w, describes coil w c.

  Lemma recorded_insert : forall u c k, recorded offered u -> In c offered -> k = joined (cb_indexes c) ->
    recorded offered (insert k c u).
  Proof.
    intros u c k R I K q d F. rewrite find_insert in F. destruct (String.eqb_spec q k) as [->|N].
    - injection F as <-. auto.
    - apply R. exact F.
  Qed.
  Lemma named_insert : forall u v k c, named u v -> named (insert k c u) v.
  Proof.
    intros u v k c N x X. rewrite find_insert. destruct (String.eqb (v_name x) k); [eauto|apply N; exact X].
  Qed.

  Lemma virtual_winding_offered : forall c v, In c offered -> virtual_winding dimension c = Ok v ->
    exists w, describes coil w c /\ made_by coil dimension w v /\ v_name v = joined (windings_of w) /\
      v_name v = joined (cb_indexes c) /\ v_turns v = cb_turns c /\ v_side v = cb_side c.
  Proof.
    intros c v I H. destruct (all_described c I) as [w D]. exists w.
    destruct (virtual_winding_made coil dimension w c v D H) as [M N]. split; [exact D|]. split; [exact M|]. split; [exact N|].
    split; [rewrite N, (proj1 (proj2 D)); reflexivity|].
    unfold virtual_winding in H. destruct (vector_to_string (cb_indexes c)); try discriminate. cbn in H. injection H as <-.
    split; reflexivity.
  Qed.

  Lemma primaries_good : forall todo u vs u' vs',
    (forall c, In c todo -> In c offered /\ cb_side c = PRIMARY) ->
    recorded offered u -> (forall v, In v vs -> good [] v /\ named u v) ->
    primaries dimension inductance requirement todo u vs = Ok (u', vs') ->
    recorded offered u' /\ forall v, In v vs' -> good [] v /\ named u' v.
  Proof.
    induction todo as [|c todo IH]; intros u vs u' vs' T R G H; cbn [primaries] in H.
    - injection H as <- <-. auto.
    - destruct (virtual_winding dimension c) as [x| | |] eqn:V; try discriminate. cbn [bind] in H.
      destruct (check_requirement requirement (inductance x)) as [b| | |] eqn:C; try discriminate. cbn [bind] in H.
      destruct (T c (or_introl eq_refl)) as [I S].
      assert (T' : forall c, In c todo -> In c offered /\ cb_side c = PRIMARY) by (intros; apply T; right; assumption).
      destruct b; [|exact (IH _ _ _ _ T' R G H)].
      destruct (virtual_winding_offered c x I V) as [w [D [M [N [N2 [TT SS]]]]]].
      apply (IH _ _ _ _ T') in H; [exact H| |].
      + apply recorded_insert; assumption.
      + intros v IV. apply in_app_or in IV. destruct IV as [IV|[<-|[]]].
        * destruct (G v IV) as [G1 G2]. split; [exact G1|]. apply named_insert. exact G2.
        * split.
          -- exists w, [], x, []. split; [reflexivity|]. split; [constructor; [split; assumption|constructor]|].
             split; [cbn; rewrite app_nil_r; apply (proj1 (proj1 D))|]. split; [congruence|].
             split; [destruct x; exact C|constructor].
          -- intros y [<-|[]]. rewrite find_insert, String.eqb_refl. eauto.
  Qed.

  Lemma extend_good : forall ratios r v todo u temporal u' temporal' current,
    (forall c, In c todo -> In c offered) -> get_winding_indexes v = Ok current ->
    good ratios v -> named u v ->
    recorded offered u -> (forall x, In x temporal -> good (ratios ++ [r]) x /\ named u x) ->
    extend dimension r current v todo u temporal = Ok (u', temporal') ->
    recorded offered u' /\ (forall x, named u x -> named u' x) /\
    forall x, In x temporal' -> good (ratios ++ [r]) x /\ named u' x.
  Proof.
    intros ratios r v todo. induction todo as [|c todo IH]; intros u temporal u' temporal' current T W G N R GT H; cbn [extend] in H.
    - injection H as <- <-. auto.
    - assert (T' : forall c, In c todo -> In c offered) by (intros; apply T; right; assumption).
      destruct (repeated_windings current (cb_indexes c)) eqn:RP; [exact (IH _ _ _ _ _ T' W G N R GT H)|].
      destruct v as [|v0 vs] eqn:EV; [discriminate|].
      destruct (check_requirement r (turns_ratio (v_turns v0) (cb_turns c))) as [b| | |] eqn:C; try discriminate. cbn [bind] in H.
      destruct b; cbn [negb] in H; [|exact (IH _ _ _ _ _ T' W G N R GT H)].
      destruct (virtual_winding dimension c) as [x| | |] eqn:V; try discriminate. cbn [bind] in H.
      assert (I : In c offered) by (apply T; left; reflexivity).
      destruct (virtual_winding_offered c x I V) as [w [D [M [NM [N2 [TT SS]]]]]].
      destruct (get_winding_indexes ((v0 :: vs) ++ [x])) as [nc| | |] eqn:NC; try discriminate. cbn [bind] in H.
      destruct (already nc temporal) as [fd| | |] eqn:AL; try discriminate. cbn [bind] in H.
      destruct fd; [exact (IH _ _ _ _ _ T' W G N R GT H)|].
      assert (GN : good (ratios ++ [r]) ((v0 :: vs) ++ [x])).
      { destruct G as [w0 [ws [y0 [ys [EY [WI [ND [SP [CI RS]]]]]]]]]. injection EY as <- <-.
        exists w0, (ws ++ [w]), v0, (vs ++ [x]). split; [reflexivity|]. split.
        - change (w0 :: ws ++ [w]) with ((w0 :: ws) ++ [w]). apply Forall2_app; [exact WI|]. constructor; [split; assumption|constructor].
        - split.
          + change (w0 :: ws ++ [w]) with ((w0 :: ws) ++ [w]). rewrite flat_map_app. cbn [flat_map]. rewrite app_nil_r.
            apply NoDup_join; [exact ND|apply (proj1 (proj1 D))|].
            rewrite (wired_indexes _ _ _ _ WI) in W. injection W as <-.
            rewrite <- (proj1 (proj2 D)). apply repeated_false. exact RP.
          + split; [exact SP|]. split; [exact CI|]. apply Forall2_app; [exact RS|]. constructor; [|constructor]. rewrite TT. exact C. }
      apply (IH _ _ _ _ _ T' W G) in H.
      + destruct H as [H1 [H2 H3]]. split; [exact H1|]. split; [|exact H3]. intros z Z. apply H2, named_insert. exact Z.
      + apply named_insert. exact N.
      + apply recorded_insert; assumption.
      + intros z Z. apply in_app_or in Z. destruct Z as [Z|[<-|[]]].
        * destruct (GT z Z) as [G1 G2]. split; [exact G1|]. apply named_insert. exact G2.
        * split; [exact GN|]. intros y Y. change ((v0 :: vs) ++ [x]) with (v0 :: vs ++ [x]) in Y.
          rewrite find_insert. destruct (String.eqb (v_name y) (v_name x)) eqn:Q; [eauto|].
          change (In y ((v0 :: vs) ++ [x])) in Y. apply in_app_or in Y. destruct Y as [Y|[<-|[]]].
          -- apply N. exact Y.
          -- rewrite String.eqb_refl in Q. discriminate.
  Qed.

  Lemma extend_all_good : forall ratios r vs u temporal u' temporal',
    (forall v, In v vs -> good ratios v /\ named u v) ->
    recorded offered u -> (forall x, In x temporal -> good (ratios ++ [r]) x /\ named u x) ->
    extend_all dimension r offered vs u temporal = Ok (u', temporal') ->
    recorded offered u' /\ forall x, In x temporal' -> good (ratios ++ [r]) x /\ named u' x.
  Proof.
    intros ratios r vs. induction vs as [|v vs IH]; intros u temporal u' temporal' G R GT H; cbn [extend_all] in H.
    - injection H as <- <-. auto.
    - destruct (get_winding_indexes v) as [current| | |] eqn:W; try discriminate. cbn [bind] in H.
      destruct (extend dimension r current v offered u temporal) as [[u1 t1]| | |] eqn:E; try discriminate. cbn [bind fst snd] in H.
      destruct (G v (or_introl eq_refl)) as [G1 G2].
      destruct (extend_good ratios r v offered u temporal u1 t1 current (fun c I => I) W G1 G2 R GT E) as [R1 [K1 T1]].
      apply (IH _ _ _ _) in H; [exact H| |exact R1|exact T1].
      intros x X. destruct (G x (or_intror X)) as [X1 X2]. split; [exact X1|apply K1; exact X2].
  Qed.

  Lemma ratios_good : forall todo ratios u vs u' vs',
    recorded offered u -> (forall v, In v vs -> good ratios v /\ named u v) ->
    ratios_loop dimension offered todo u vs = Ok (u', vs') ->
    recorded offered u' /\ forall v, In v vs' -> good (ratios ++ todo) v /\ named u' v.
  Proof.
    induction todo as [|r todo IH]; intros ratios u vs u' vs' R G H; cbn [ratios_loop] in H.
    - injection H as <- <-. rewrite app_nil_r. auto.
    - destruct (extend_all dimension r offered vs u []) as [[u1 t1]| | |] eqn:E; try discriminate. cbn [bind fst snd] in H.
      destruct (extend_all_good ratios r vs u [] u1 t1 G R ltac:(intros x []) E) as [R1 G1].
      replace (ratios ++ r :: todo) with ((ratios ++ [r]) ++ todo) by (rewrite <- app_assoc; reflexivity).
      exact (IH _ _ _ _ _ R1 G1 H).
  Qed.
End Offered.

Lemma label_all_parts : forall reference vs k l, label_all reference k vs = Ok l ->
  map snd l = vs /\ (vs <> [] -> exists r, reference = Some (Some r) /\
    map fst l = map (fun i => (r ++ " virtual magnetic " ++ to_string i)%string) (seq k (List.length vs))).
Proof.
  intros reference vs. induction vs as [|v vs IH]; intros k l H; cbn [label_all] in H.
  - injection H as <-. split; [reflexivity|contradiction].
  - destruct reference as [[r|]|]; try discriminate.
    destruct (label_all (Some (Some r)) (S k) vs) as [m| | |] eqn:E; try discriminate. cbn [bind] in H. injection H as <-.
    destruct (IH (S k) m E) as [A B]. split; [cbn; f_equal; exact A|]. intros _. exists r. split; [reflexivity|].
    cbn [map fst List.length seq]. f_equal. destruct vs as [|v2 vs].
    + cbn in E. injection E as <-. reflexivity.
    + destruct (B ltac:(discriminate)) as [r' [RR B']]. injection RR as <-. exact B'.
Qed.

Lemma requirement_meets : forall r v, check_requirement r v = Ok true -> meets r v.
Proof.
  intros [mn nom mx] v H. unfold check_requirement in H. cbn [minimum nominal maximum] in H.
  destruct mn as [mn|], nom as [n|], mx as [mx|]; try discriminate;
    repeat match type of H with context [if Qlt_bool ?a ?b then Throw _ else _] => destruct (Qlt_bool a b) eqn:?; [discriminate|] end;
    injection H as H; try apply andb_true_iff in H;
    match type of H with _ /\ _ => destruct H as [H1 H2]; apply Qle_bool_iff in H1, H2 | _ => idtac end.
  - constructor; assumption.
  - constructor; assumption.
  - constructor; assumption.
  - apply Qlt_bool_iff in H. constructor. exact H.
  - constructor; assumption.
  - unfold magnetizingInductanceThresholdValidity in *. constructor; lra.
  - apply Qlt_bool_iff in H. constructor. exact H.
Qed.

(** Every virtual magnetic offered has one winding per wanted winding, each made of
    physical windings by a wiring that can be made; no physical winding is used twice;
    the first is a primary giving the wanted inductance, the others give the wanted
    ratios of turns. *)
Theorem C32_virtual_magnetics : forall coil dimension inductance requirement ratios reference u l name v,
  calculate_virtual_magnetics coil dimension inductance requirement ratios reference = Ok (u, l) ->
  In (name, v) l ->
  exists ws, Forall2 (made_by coil dimension) ws v /\ NoDup (flat_map windings_of ws) /\
    exists v0 vs, v = v0 :: vs /\ v_side v0 = PRIMARY /\ meets requirement (inductance v0) /\
      Forall2 (fun r x => meets r (turns_ratio (v_turns v0) (v_turns x))) ratios vs.
Proof.
  intros coil dimension inductance requirement ratios reference u l name v H I.
  unfold calculate_virtual_magnetics in H.
  set (offered := calculate_coil_combinations coil (List.length ratios + 1)) in *.
  assert (AD : forall c, In c offered -> exists w, describes coil w c) by (intros c C; exact (C32_combinations _ _ _ C)).
  destruct (primaries _ _ _ _ [] []) as [[u1 v1]| | |] eqn:P; try discriminate. cbn [bind fst snd] in H.
  destruct (ratios_loop dimension offered ratios u1 v1) as [[u2 v2]| | |] eqn:R; try discriminate. cbn [bind fst snd] in H.
  destruct (label_all reference 0 v2) as [m| | |] eqn:L; try discriminate. cbn [bind] in H. injection H as <- <-.
  destruct (primaries_good coil dimension inductance requirement offered AD
    (filter (fun c => side_eqb (cb_side c) PRIMARY) offered) [] [] u1 v1) as [R1 G1]; auto.
  { intros c C. apply filter_In in C. destruct C as [C S]. split; [exact C|]. apply side_eqb_eq. exact S. }
  { intros k c F. discriminate. }
  { intros x []. }
  destruct (ratios_good coil dimension inductance requirement offered AD ratios [] u1 v1 u2 v2 R1 G1 R) as [R2 G2].
  cbn [app] in G2. destruct (label_all_parts _ _ _ _ L) as [LS _].
  assert (IV : In v v2) by (rewrite <- LS; exact (in_map snd _ _ I)).
  destruct (G2 v IV) as [[w0 [ws [v0 [vs [-> [WI [ND [SP [CI RS]]]]]]]]] _].
  exists (w0 :: ws). split; [|split; [exact ND|]].
  - refine (Forall2_weaken _ _ _ _ _ _ _ WI). intros x y [M _]. exact M.
  - exists v0, vs. split; [reflexivity|]. split; [exact SP|]. split.
    + apply requirement_meets. destruct v0; exact CI.
    + apply (Forall2_weaken _ _ _ _ _ _ (fun r x => requirement_meets r (turns_ratio (v_turns v0) (v_turns x))) RS).
Qed.

(** For every winding of every virtual magnetic the second result holds a combination
    offered, of the same physical windings.  That it is wired the same way is not so. *)
Theorem C32_recorded_partial : forall coil dimension inductance requirement ratios reference u l name v x,
  calculate_virtual_magnetics coil dimension inductance requirement ratios reference = Ok (u, l) ->
  In (name, v) l -> In x v ->
  exists c, find (v_name x) u = Some c /\ In c (calculate_coil_combinations coil (List.length ratios + 1)) /\
    exists w, made_by coil dimension w x /\ cb_indexes c = windings_of w.
Proof.
  intros coil dimension inductance requirement ratios reference u l name v x H I X.
  unfold calculate_virtual_magnetics in H.
  set (offered := calculate_coil_combinations coil (List.length ratios + 1)) in *.
  assert (AD : forall c, In c offered -> exists w, describes coil w c) by (intros c C; exact (C32_combinations _ _ _ C)).
  destruct (primaries _ _ _ _ [] []) as [[u1 v1]| | |] eqn:P; try discriminate. cbn [bind fst snd] in H.
  destruct (ratios_loop dimension offered ratios u1 v1) as [[u2 v2]| | |] eqn:R; try discriminate. cbn [bind fst snd] in H.
  destruct (label_all reference 0 v2) as [m| | |] eqn:L; try discriminate. cbn [bind] in H. injection H as <- <-.
  destruct (primaries_good coil dimension inductance requirement offered AD
    (filter (fun c => side_eqb (cb_side c) PRIMARY) offered) [] [] u1 v1) as [R1 G1]; auto.
  { intros c C. apply filter_In in C. destruct C as [C S]. split; [exact C|]. apply side_eqb_eq. exact S. }
  { intros k c F. discriminate. }
  { intros y []. }
  destruct (ratios_good coil dimension inductance requirement offered AD ratios [] u1 v1 u2 v2 R1 G1 R) as [R2 G2].
  destruct (label_all_parts _ _ _ _ L) as [LS _].
  assert (IV : In v v2) by (rewrite <- LS; exact (in_map snd _ _ I)).
  destruct (G2 v IV) as [[w0 [ws [v0 [vs [E [WI _]]]]]] N].
  destruct (N x X) as [c F]. exists c. split; [exact F|]. destruct (R2 _ _ F) as [CO K]. split; [exact CO|].
  assert (W : exists w, made_by coil dimension w x /\ v_name x = joined (windings_of w)).
  { exact (Forall2_left_of _ _ _ _ _ _ WI X). }
  destruct W as [w [M NM]]. exists w. split; [exact M|].
  destruct (AD c CO) as [w' D]. apply joined_inj; [rewrite (proj1 (proj2 D)); apply windings_nonempty|apply windings_nonempty|].
  congruence.
Qed.

(** References are all different. *)
Theorem C32_references_distinct : forall coil dimension inductance requirement ratios reference u l,
  calculate_virtual_magnetics coil dimension inductance requirement ratios reference = Ok (u, l) -> NoDup (map fst l).
Proof.
  intros coil dimension inductance requirement ratios reference u l H. unfold calculate_virtual_magnetics in H.
  destruct (primaries _ _ _ _ [] []) as [[u1 v1]| | |] eqn:P; try discriminate. cbn [bind fst snd] in H.
  destruct (ratios_loop _ _ ratios u1 v1) as [[u2 v2]| | |] eqn:R; try discriminate. cbn [bind fst snd] in H.
  destruct (label_all reference 0 v2) as [m| | |] eqn:L; try discriminate. cbn [bind] in H. injection H as <- <-.
  destruct (label_all_parts _ _ _ _ L) as [LS LN]. destruct v2 as [|v v2].
  - destruct m; [constructor|discriminate].
  - destruct (LN ltac:(discriminate)) as [r [_ E]]. rewrite E.
    apply FinFun.Injective_map_NoDup; [|apply seq_NoDup].
    intros i j X.
    assert (AI : forall a b c, (a ++ b = a ++ c -> b = c)%string) by (induction a as [|ch a IH]; cbn; intros b c Q; [exact Q|injection Q as Q; exact (IH _ _ Q)]).
    apply AI, AI in X. pose proof (stoul_to_string i) as SI. rewrite X, stoul_to_string in SI. congruence.
Qed.

(** * Where it goes wrong *)

Definition three_windings : list winding :=
  [mkWinding "a" None 10 1 PRIMARY; mkWinding "b" None 10 1 PRIMARY; mkWinding "c" None 10 1 SECONDARY].
Definition anything : dwt := mk_dwt (Some 0%Q) None None.
Definition outlined (r : outcome (used * list (string * list vwinding))) :=
  match r with
  | Ok (u, l) => Some (map (fun kc => (fst kc, cb_turns (snd kc), cb_is_parallel (snd kc))) u,
                       map (fun x => (map v_name (snd x), map v_turns (snd x))) l)
  | _ => None
  end.

(** Series and parallel of the same two windings go by one name: the magnetic offered
    has the two in series, 20 turns, what is on record is the parallel of 10; and the
    magnetic with the two in parallel, which would do as well, is not offered. *)
Theorem C32_series_parallel_confused_refuted : 
  outlined (calculate_virtual_magnetics three_windings (fun _ => 1%Q) (fun _ => 1%Q) anything [anything] (Some (Some "X"%string))) =
  Some ([("0", 10, false); ("0,1", 10, true); ("1", 10, false); ("2", 10, false)]%string,
        [(["0"; "1"], [10; 10]); (["0"; "2"], [10; 10]); (["1"; "0"], [10; 10]); (["1"; "2"], [10; 10]);
         (["0,1"; "2"], [20; 10])]%string).
Proof. vm_compute. reflexivity. Qed.

(** Groupings are told apart by the flattened list of windings: the first winding with
    the second, against the third, is taken for the first against the other two. *)
Theorem C32_groupings_confused_refuted : exists u l,
  calculate_virtual_magnetics
    [mkWinding "a" None 10 1 PRIMARY; mkWinding "b" None 20 1 PRIMARY; mkWinding "c" None 30 1 PRIMARY]
    (fun _ => 1%Q) (fun _ => 1%Q) anything [anything] (Some (Some "X"%string)) = Ok (u, l) /\
  In ["0"; "1,2"]%string (map (fun x => map v_name (snd x)) l) /\
  ~ In ["0,1"; "2"]%string (map (fun x => map v_name (snd x)) l) /\
  In "0,1"%string (map (fun c => joined (cb_indexes c)) (calculate_coil_combinations
    [mkWinding "a" None 10 1 PRIMARY; mkWinding "b" None 20 1 PRIMARY; mkWinding "c" None 30 1 PRIMARY] 2)).
Proof.
  match goal with |- exists u l, ?x = Ok (u, l) /\ _ =>
    let y := eval vm_compute in x in
    match y with Ok (?a, ?b) => exists a, b end end.
  split; [vm_compute; reflexivity|]. split; [|split].
  - cbn. tauto.
  - cbn. intros H. repeat (destruct H as [H|H]; [discriminate|]). exact H.
  - vm_compute. tauto.
Qed.

(** Parallels are not held to the number of windings that can be spared: two windings
    are wanted of four, yet all four are offered as one. *)
Theorem C32_parallels_unlimited_refuted : exists c,
  In c (calculate_coil_combinations
    [mkWinding "a" None 10 1 PRIMARY; mkWinding "b" None 10 1 PRIMARY; mkWinding "c" None 10 1 PRIMARY; mkWinding "d" None 10 1 PRIMARY] 2) /\
  List.length (cb_indexes c) = 4.
Proof.
  set (coil := [mkWinding "a" None 10 1 PRIMARY; mkWinding "b" None 10 1 PRIMARY; mkWinding "c" None 10 1 PRIMARY; mkWinding "d" None 10 1 PRIMARY]).
  assert (X : existsb (fun c => List.length (cb_indexes c) =? 4) (calculate_coil_combinations coil 2) = true) by (vm_compute; reflexivity).
  apply existsb_exists in X. destruct X as [c [I L]]. exists c. split; [exact I|]. apply Nat.eqb_eq. exact L.
Qed.

(** A magnetic without manufacturer information: undefined behaviour. *)
Theorem C32_no_manufacturer_refuted : exists msg,
  calculate_virtual_magnetics [mkWinding "a" None 10 1 PRIMARY] (fun _ => 1%Q) (fun _ => 1%Q) anything [] None = UB msg.
Proof. eexists. vm_compute. reflexivity. Qed.

(** * C69: back to the physical windings *)

Lemma devirtualize_windings_spec : forall data v excitations idle todo done r,
  devirtualize_windings data v excitations idle todo done = Ok r ->
  exists new, r = done ++ new /\ List.length new = List.length todo /\
  forall k iw e, nth_error todo k = Some iw -> nth_error new k = Some e ->
    devirtualize_winding data v excitations idle (done ++ firstn k new) iw = Ok e.
Proof.
  intros data v excitations idle todo. induction todo as [|iw todo IH]; intros done r H; cbn [devirtualize_windings] in H.
  - injection H as <-. exists []. rewrite app_nil_r. repeat split. intros k iw e K. destruct k; discriminate.
  - destruct (devirtualize_winding data v excitations idle done iw) as [e| | |] eqn:E; try discriminate. cbn [bind] in H.
    destruct (IH _ _ H) as [new [-> [L A]]]. exists (e :: new). rewrite <- app_assoc. cbn [app]. split; [reflexivity|].
    split; [cbn; lia|]. intros [|k] iw' e' K1 K2; cbn in K1, K2.
    + injection K1 as <-. injection K2 as <-. cbn [firstn]. rewrite app_nil_r. exact E.
    + specialize (A k iw' e' K1 K2). rewrite <- app_assoc in A. exact A.
Qed.

Lemma each_spec : forall (A B : Type) (f : A -> outcome B) l r, each f l = Ok r ->
  Forall2 (fun x y => f x = Ok y) l r.
Proof.
  intros A B f l. induction l as [|x l IH]; intros r H; cbn [each] in H.
  - injection H as <-. constructor.
  - destruct (f x) as [y| | |] eqn:E; try discriminate. cbn [bind] in H.
    destruct (each f l) as [ys| | |] eqn:E2; try discriminate. cbn [bind] in H. injection H as <-.
    constructor; [exact E|]. apply IH. reflexivity.
Qed.

(** Every operating point gets one excitation per physical winding. *)
Theorem C69_one_each : forall coil data v idle points r,
  devirtualize_mas coil data v idle points = Ok r ->
  Forall2 (fun before after => List.length after = List.length coil) points r.
Proof.
  intros coil data v idle points r H. apply each_spec in H. refine (Forall2_weaken _ _ _ _ _ _ _ H).
  intros x y E. cbn in E. destruct (devirtualize_windings_spec _ _ _ _ _ _ _ E) as [new [-> [L _]]].
  cbn. rewrite L. unfold numbered. rewrite combine_length, seq_length. lia.
Qed.

Definition same_data (a b : option (list Q)) : Prop :=
  match a, b with Some x, Some y => Forall2 Qeq x y | None, None => True | _, _ => False end.

(** The first virtual winding a physical winding is in, and what is on record of it. *)
Definition belongs (data : used) (v : list vwinding) (i k : nat) (c : combination) : Prop :=
  exists x, nth_error v k = Some x /\ find (v_name x) data = Some c /\ In i (cb_indexes c) /\
  forall k' x' c', k' < k -> nth_error v k' = Some x' -> find (v_name x') data = Some c' -> ~ In i (cb_indexes c').

Lemma holder_belongs : forall data v i k c s, holder data i s v = Some (k, c) -> s <= k /\ belongs data v i (k - s) c.
Proof.
  intros data v. induction v as [|x v IH]; intros i k c s H; cbn [holder] in H; [discriminate|].
  destruct (holds data i x) as [d|] eqn:D.
  - injection H as <- <-. split; [lia|]. rewrite Nat.sub_diag. exists x. unfold holds in D.
    destruct (find (v_name x) data) as [d'|] eqn:F; [|discriminate].
    destruct (existsb (Nat.eqb i) (cb_indexes d')) eqn:B; [|discriminate]. injection D as <-.
    split; [reflexivity|]. split; [reflexivity|]. split; [|intros; lia].
    apply existsb_exists in B. destruct B as [j [J E]]. apply Nat.eqb_eq in E. congruence.
  - destruct (IH i k c (S s) H) as [L [y [N [F [I A]]]]]. split; [lia|]. exists y.
    replace (k - s) with (S (k - S s)) by lia. split; [exact N|]. split; [exact F|]. split; [exact I|].
    intros [|k'] x' c' K N' F'.
    + cbn in N'. injection N' as <-. unfold holds in D. rewrite F' in D. intros J.
      destruct (existsb (Nat.eqb i) (cb_indexes c')) eqn:B; [discriminate|].
      assert (existsb (Nat.eqb i) (cb_indexes c') = true); [|congruence].
      apply existsb_exists. exists i. split; [exact J|apply Nat.eqb_refl].
    + apply (A k' x' c'); [lia|exact N'|exact F'].
Qed.

Lemma belongs_unique : forall data v i k c k' c', belongs data v i k c -> belongs data v i k' c' -> k = k' /\ c = c'.
Proof.
  intros data v i k c k' c' [x [N [F [I A]]]] [x' [N' [F' [I' A']]]].
  destruct (Nat.lt_trichotomy k k') as [L|[->|L]].
  - exfalso. exact (A' k x c L N F I).
  - split; [reflexivity|]. congruence.
  - exfalso. exact (A k' x' c' L N' F' I').
Qed.

Lemma holder_none : forall data v i s, holder data i s v = None ->
  forall x c, In x v -> find (v_name x) data = Some c -> ~ In i (cb_indexes c).
Proof.
  intros data v i. induction v as [|y v IH]; intros s H x c X F J; [destruct X|]. cbn [holder] in H.
  destruct (holds data i y) as [d|] eqn:D; [discriminate|]. destruct X as [<-|X]; [|exact (IH _ H x c X F J)].
  unfold holds in D. rewrite F in D. destruct (existsb (Nat.eqb i) (cb_indexes c)) eqn:B; [discriminate|].
  assert (existsb (Nat.eqb i) (cb_indexes c) = true); [|congruence].
  apply existsb_exists. exists i. split; [exact J|apply Nat.eqb_refl].
Qed.

Lemma numbered_nth : forall (A : Type) (u : list A) k x, nth_error u k = Some x -> nth_error (numbered u) k = Some (k, x).
Proof.
  intros A u. unfold numbered.
  assert (G : forall (u : list A) s k (x : A), nth_error u k = Some x ->
       nth_error (combine (seq s (List.length u)) u) k = Some (s + k, x)).
  { clear u. induction u as [|y u IH]; intros s q x X; [destruct q; discriminate|].
    destruct q as [|q]; cbn in *; [rewrite Nat.add_0_r; congruence|]. rewrite (IH (S s) q x X). f_equal. f_equal. lia. }
  intros k x X. exact (G u 0 k x X).
Qed.

(** A winding by itself keeps the excitation of its virtual winding; in a parallel one of
    equal turns as well; in series the voltage is kept and the current is in
    proportion to the turns. *)
Theorem C69_excitations_partial : forall coil data v idle excitations r i w k c e,
  devirtualize_windings data v excitations idle (numbered coil) [] = Ok r ->
  nth_error coil i = Some w -> nth_error r i = Some e -> belongs data v i k c ->
  0 < cb_turns c ->
  exists e0, nth_error excitations k = Some e0 /\ e_frequency e = e_frequency e0 /\
    (cb_turns c = w_turns w -> same_data (e_current e) (e_current e0) /\ same_data (e_voltage e) (e_voltage e0)) /\
    (cb_is_parallel c = false -> e_voltage e = e_voltage e0 /\
       forall d, e_current e0 = Some d ->
         exists d', e_current e = Some d' /\
           Forall2 (fun x y => (y * inject_Z (Z.of_nat (cb_turns c)) == x * inject_Z (Z.of_nat (w_turns w)))%Q) d d').
Proof.
  intros coil data v idle excitations r i w k c e H W E B T.
  destruct (devirtualize_windings_spec _ _ _ _ _ _ _ H) as [new [-> [L A]]]. cbn [app] in *.
  specialize (A i (i, w) e (numbered_nth _ _ _ _ W) E). unfold devirtualize_winding in A. cbn [fst snd] in A.
  destruct (holder data i 0 v) as [[k' c']|] eqn:HO.
  2:{ exfalso. destruct B as [x [N [F [I _]]]]. apply nth_error_In in N. exact (holder_none _ _ _ _ HO x c N F I). }
  destruct (holder_belongs _ _ _ _ _ _ HO) as [_ B']. rewrite Nat.sub_0_r in B'.
  destruct (belongs_unique _ _ _ _ _ _ _ B B') as [<- <-].
  destruct (nth_error excitations k) as [e0|] eqn:X; [|discriminate]. exists e0. split; [reflexivity|].
  assert (TZ : ~ (inject_Z (Z.of_nat (cb_turns c)) == 0)%Q).
  { intros Z. assert (Z.of_nat (cb_turns c) = 0%Z); [|lia]. apply inject_Z_injective. exact Z. }
  assert (ONE : cb_turns c = w_turns w -> (turns_ratio (w_turns w) (cb_turns c) == 1)%Q).
  { intros EQ. unfold turns_ratio. rewrite EQ. rewrite EQ in TZ. field. exact TZ. }
  assert (SM : forall p d, (p == 1)%Q -> Forall2 Qeq (map (fun x => (x * p)%Q) d) d).
  { intros p d P1. induction d as [|x d IH]; constructor; [rewrite P1; ring|exact IH]. }
  assert (SR : forall o, same_data o o).
  { intros [d|]; [|exact I]. cbn. induction d; constructor; [reflexivity|assumption]. }
  destruct (cb_is_parallel c) eqn:P.
  - unfold with_proportional_voltage in A. destruct (e_voltage e0) as [d|] eqn:V; [|discriminate]. injection A as <-. cbn.
    split; [reflexivity|]. split; [|discriminate]. intros EQ. split; [apply SR|]. apply SM, ONE, EQ.
  - unfold with_proportional_current in A. destruct (e_current e0) as [d|] eqn:V; [|discriminate]. injection A as <-. cbn.
    split; [reflexivity|]. split.
    + intros EQ. split; [apply SM, ONE, EQ|apply SR].
    + intros _. split; [reflexivity|]. intros d0 D0. injection D0 as <-. eexists. split; [reflexivity|].
      clear - TZ. induction d as [|x d IH]; constructor; [|exact IH]. unfold turns_ratio. field. exact TZ.
Qed.

(** Two windings of 10 and 30 turns in series: they should carry the same current, and
    get a quarter and three quarters of it. *)
Definition pair_in_series : used :=
  insert "0,1"%string (in_series (alone (0, mkWinding "a" None 10 1 PRIMARY)) (alone (1, mkWinding "b" None 30 1 PRIMARY))) [].
Theorem C69_series_current_refuted : exists r e1 e2,
  devirtualize_mas [mkWinding "a" None 10 1 PRIMARY; mkWinding "b" None 30 1 PRIMARY] pair_in_series
    [mkVWinding "0,1"%string None PRIMARY 40 1 None] (fun _ => []) [[mkExcitation 1 (Some [4%Q]) (Some [8%Q])]] = Ok [r] /\
  r = [e1; e2] /\ same_data (e_current e1) (Some [1%Q]) /\ same_data (e_current e2) (Some [3%Q]) /\
  e_voltage e1 = Some [8%Q] /\ e_voltage e2 = Some [8%Q].
Proof.
  eexists _, _, _. split; [vm_compute; reflexivity|]. split; [reflexivity|].
  repeat split; repeat constructor.
Qed.

(** Two windings in parallel: each gets the whole current. *)
Definition pair_in_parallel : used :=
  insert "0,1"%string (in_parallel (alone (0, mkWinding "a" None 10 1 PRIMARY)) (alone (1, mkWinding "b" None 10 1 PRIMARY))) [].
Theorem C69_parallel_current_refuted : exists r e1 e2,
  devirtualize_mas [mkWinding "a" None 10 1 PRIMARY; mkWinding "b" None 10 1 PRIMARY] pair_in_parallel
    [mkVWinding "0,1"%string None PRIMARY 10 2 None] (fun _ => []) [[mkExcitation 1 (Some [4%Q]) (Some [8%Q])]] = Ok [r] /\
  r = [e1; e2] /\ e_current e1 = Some [4%Q] /\ e_current e2 = Some [4%Q].
Proof. eexists _, _, _. split; [vm_compute; reflexivity|]. repeat split. Qed.

(** A winding that is not used is not left idle: it is given the sinusoid; and if it is
    the first, there is no excitation to read the frequency from. *)
Theorem C69_unused_winding_refuted :
  (exists r, devirtualize_mas [mkWinding "a" None 10 1 PRIMARY; mkWinding "b" None 10 1 PRIMARY]
     (insert "0"%string (alone (0, mkWinding "a" None 10 1 PRIMARY)) []) [mkVWinding "0"%string None PRIMARY 10 1 None]
     (fun _ => [1%Q]) [[mkExcitation 1 (Some [4%Q]) (Some [8%Q])]] = Ok [r] /\
   option_map e_current (nth_error r 1) = Some (Some [1%Q])) /\
  exists msg, devirtualize_mas [mkWinding "a" None 10 1 PRIMARY; mkWinding "b" None 10 1 PRIMARY]
     (insert "1"%string (alone (1, mkWinding "b" None 10 1 PRIMARY)) []) [mkVWinding "1"%string None PRIMARY 10 1 None]
     (fun _ => [1%Q]) [[mkExcitation 1 (Some [4%Q]) (Some [8%Q])]] = UB msg.
Proof. split; eexists; [split|]; vm_compute; reflexivity. Qed.

(** Not vacuous: an inductance and a ratio that some combinations meet and some do not. *)
Example C32_witness :
  outlined (calculate_virtual_magnetics three_windings (fun _ => 1%Q) (fun v => inject_Z (Z.of_nat (v_turns v)))
     (mk_dwt (Some (15#1)) None None) [mk_dwt None (Some (2#1)) None] (Some (Some "X"%string))) =
  Some ([("0,1", 20, false); ("2", 10, false)]%string, [(["0,1"; "2"]%string, [20; 10])]).
Proof. vm_compute. reflexivity. Qed.
Example C69_witness : belongs pair_in_series [mkVWinding "0,1"%string None PRIMARY 40 1 None] 1 0
  (in_series (alone (0, mkWinding "a" None 10 1 PRIMARY)) (alone (1, mkWinding "b" None 30 1 PRIMARY))).
Proof. eexists. split; [reflexivity|]. split; [vm_compute; reflexivity|]. split; [cbn; auto|]. intros; lia. Qed.

Print Assumptions C32_combinations.
Print Assumptions C32_pairs_offered.
Print Assumptions C32_virtual_magnetics.
Print Assumptions C32_recorded_partial.
Print Assumptions C32_references_distinct.
Print Assumptions C69_one_each.
Print Assumptions C69_excitations_partial.
