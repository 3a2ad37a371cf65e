(** Specification: which column carries which gap. *)
From Coq Require Import ZArith QArith Qabs List Bool String Lia Lqa Arith.
From Verif Require Import Base QAux UtilsNumModel UtilsNumProofs GappingModel GappingProofs.
Import ListNotations.
Open Scope Q_scope.

(** ** Vocabulary *)

(** The gap stands on the column: seen from above it has its coordinates, and it has its section;
    the winding window lies beside it. *)
Definition on (b : body) (c : column) (g : gap) : Prop :=
  (exists p, g_at g = Some p /\ px p = px (c_at c) /\ pz p = pz (c_at c)) /\
  g_shape g = Some (c_shape c) /\ g_area g = Some (c_area c) /\
  g_section g = Some (c_width c, c_depth c) /\ g_parallel g = b_window b.

(** And in the middle of its height, half of what is left of the column away from its ends. *)
Definition in_middle (b : body) (c : column) (g : gap) : Prop :=
  on b c g /\ g_at g = Some (c_at c) /\ g_normal g = Some (c_height c / 2 - g_length g / 2).

(** What was asked for of a gap. *)
Definition asked (g : gap) : kind * Q := (g_kind g, g_length g).

Definition is_residual (g : gap) : Prop := g_kind g = Residual.

(** The column the coil is wound on and the others: the first central column and all the lateral
    ones, or, if there is no central one, the first column and the ones after it. *)
Inductive winding (b : body) : column -> list column -> Prop :=
| winding_central before c after : b_columns b = (before ++ c :: after)%list ->
    Forall (fun x => c_role x = Lateral) before -> c_role c = Central ->
    winding b c (before ++ filter (fun x => negb (is_central x)) after)
| winding_lateral c after : b_columns b = c :: after ->
    Forall (fun x => c_role x = Lateral) (c :: after) -> winding b c after.

(** A gapping without coordinates, as written by hand or by the factories. *)
Definition unplaced (l : list gap) : Prop := Forall (fun g => g_at g = None) l.

(** ** The columns *)

Lemma filter_lateral : forall l, Forall (fun x => c_role x = Lateral) l ->
  filter is_central l = [] /\ filter (fun c => negb (is_central c)) l = l.
Proof.
  intros l F. induction F as [|c l H F [A B]]; [split; reflexivity|].
  cbn. unfold is_central in *. rewrite H. cbn. rewrite A, B. split; reflexivity.
Qed.

Lemma winding_wound : forall b c rest, winding b c rest ->
  wound_column b = Some c /\ return_columns b = rest.
Proof.
  intros b c rest W. unfold wound_column, return_columns, centrals, laterals.
  destruct W as [before c after E F C|c after E F].
  - destruct (filter_lateral before F) as [A B].
    rewrite E, !filter_app, A, B. cbn [filter app].
    assert (I : is_central c = true) by (unfold is_central; now rewrite C).
    rewrite I. cbn. split; reflexivity.
  - destruct (filter_lateral _ F) as [A B]. rewrite E, A, B. split; reflexivity.
Qed.

Lemma wound_winding : forall b, b_columns b <> [] -> exists c rest, winding b c rest.
Proof.
  intros b N.
  assert (H : forall l, (exists u c v, l = (u ++ c :: v)%list /\ Forall (fun x => c_role x = Lateral) u /\
                                      c_role c = Central) \/
                        Forall (fun x => c_role x = Lateral) l).
  { induction l as [|x l IH]; [right; constructor|]. destruct (c_role x) eqn:R.
    - left. exists [], x, l. split; [reflexivity|]. split; [constructor|exact R].
    - destruct IH as [(u & c & v & E & F & C)|F].
      + left. exists (x :: u), c, v. split; [cbn; now rewrite E|]. split; [constructor; assumption|exact C].
      + right. constructor; assumption. }
  destruct (H (b_columns b)) as [(u & c & v & E & F & C)|F].
  - exists c. eexists. eapply winding_central; eassumption.
  - destruct (b_columns b) as [|c l] eqn:E; [congruence|].
    exists c, l. eapply winding_lateral; [exact E|exact F].
Qed.

Lemma middle_in : forall b c k x, in_middle b c (middle b (c, (k, x))) /\ asked (middle b (c, (k, x))) = (k, x).
Proof.
  intros. split; [|reflexivity]. split; [|split; reflexivity].
  split; [|split; [reflexivity|split; [reflexivity|split; reflexivity]]].
  eexists. split; [reflexivity|]. split; reflexivity.
Qed.

(** ** Cases of the distribution *)

Definition subs (l : list gap) : list gap := filter (fun g => kind_eqb (g_kind g) Subtractive) l.

Lemma of_kind_length : forall l,
  (List.length (of_kind Subtractive l) + List.length (of_kind Additive l) +
   List.length (of_kind Residual l) = List.length l)%nat.
Proof.
  intro l. induction l as [|g l IH]; [reflexivity|]. unfold of_kind in *.
  cbn [filter]. destruct (g_kind g); cbn; lia.
Qed.

Lemma trimmed_same : forall b l, of_kind Subtractive l <> [] \/ of_kind Additive l <> [] ->
  trimmed b l = l.
Proof.
  intros b l H. unfold trimmed.
  assert (E : (List.length (of_kind Subtractive l) + List.length (of_kind Additive l) <> 0)%nat).
  { destruct H as [H|H].
    - destruct (of_kind Subtractive l); [congruence|]. cbn. lia.
    - destruct (of_kind Additive l); [congruence|]. cbn. lia. }
  apply Nat.eqb_neq in E. rewrite E. reflexivity.
Qed.

Lemma process_unplaced : forall b l, b_family b = Other -> unplaced l ->
  process_gap b l = distribute b l.
Proof.
  intros b l F U. unfold process_gap. rewrite F. destruct l as [|g r]; [reflexivity|].
  inversion U as [|? ? H ?]; subst. rewrite H. reflexivity.
Qed.

(** When the gaps go down the winding column: some are ground, or there are spacers among at least
    as many gaps as columns without there being one spacer for each. *)
Definition goes_down (b : body) (l : list gap) : Prop :=
  (exists g, In g l /\ g_kind g = Subtractive) \/
  ((exists g, In g l /\ g_kind g = Additive) /\
   (List.length (b_columns b) <= List.length l)%nat /\
   ~ ((forall g, In g l -> g_kind g = Additive) /\ List.length l = List.length (b_columns b))).

Lemma in_of_kind : forall k l, (exists g, In g l /\ g_kind g = k) <-> of_kind k l <> [].
Proof.
  intros k l. split.
  - intros (g & I & K) E. assert (J : In g (of_kind k l)).
    { apply filter_In. split; [exact I|]. apply kind_eqb_spec. exact K. }
    rewrite E in J. exact J.
  - intro N. destruct (of_kind k l) as [|g r] eqn:E; [congruence|].
    assert (J : In g (of_kind k l)) by (rewrite E; left; reflexivity).
    apply filter_In in J as [I K]. apply kind_eqb_spec in K. exists g. split; assumption.
Qed.

Lemma all_of_kind : forall k l, List.length (of_kind k l) = List.length l ->
  forall g, In g l -> g_kind g = k.
Proof.
  intros k l. induction l as [|x l IH]; intros E g I; [destruct I|].
  unfold of_kind in *. cbn [filter] in E.
  assert (L : (List.length (filter (fun x => kind_eqb (g_kind x) k) l) <= List.length l)%nat).
  { clear. induction l as [|x l IH]; [reflexivity|]. cbn [filter]. destruct (kind_eqb _ _); cbn; lia. }
  destruct (kind_eqb (g_kind x) k) eqn:K; cbn in E; [|lia].
  destruct I as [<- |I]; [apply kind_eqb_spec; exact K|]. apply IH; [lia|exact I].
Qed.

Lemma distribute_down : forall b l c rest, winding b c rest -> goes_down b l ->
  distribute b l =
  Ok (stored l match wound b c (of_kind Subtractive l ++ of_kind Additive l)%list with
               | None => None
               | Some t => match lay b (returned (of_kind Residual l) rest) with
                           | None => None
                           | Some u => Some (t ++ u)%list
                           end
               end).
Proof.
  intros b l c rest W D. destruct (winding_wound b c rest W) as [WC RC].
  pose proof (of_kind_length l) as L.
  assert (T : trimmed b l = l).
  { apply trimmed_same. destruct D as [D|[D _]]; [left|right]; now apply in_of_kind. }
  assert (A : (List.length (of_kind Subtractive l) <> 0)%nat \/
              (List.length (of_kind Additive l) <> 0)%nat /\
              (List.length (b_columns b) <= List.length l)%nat /\
              (List.length (of_kind Additive l) <> List.length l \/
               List.length l <> List.length (b_columns b))).
  { destruct D as [D|(D & D1 & D2)].
    - left. apply in_of_kind in D. destruct (of_kind Subtractive l); [congruence|cbn; lia].
    - right. apply in_of_kind in D. split; [destruct (of_kind Additive l); [congruence|cbn; lia]|].
      split; [exact D1|].
      destruct (Nat.eq_dec (List.length (of_kind Additive l)) (List.length l)) as [E|E]; [|left; exact E].
      right. intro F. apply D2. split; [apply all_of_kind; exact E|exact F]. }
  unfold distribute. rewrite T, WC, RC, app_length.
  set (s := List.length (of_kind Subtractive l)) in *.
  set (a := List.length (of_kind Additive l)) in *.
  set (r := List.length (of_kind Residual l)) in *.
  set (n := List.length (b_columns b)) in *.
  assert (B1 : Nat.eqb (s + a + r) 0 = false) by (apply Nat.eqb_neq; lia).
  assert (B2 : Nat.ltb (s + a + r) n && Nat.eqb s 0 = false).
  { apply andb_false_iff. destruct A as [A|(A & A1 & A2)].
    - right. apply Nat.eqb_neq. exact A.
    - left. apply Nat.ltb_ge. lia. }
  assert (B3 : (Nat.eqb r n || Nat.eqb a n) && Nat.eqb (s + a + r) n = false).
  { destruct (Nat.eqb (s + a + r) n) eqn:E; [|apply andb_false_r]. apply Nat.eqb_eq in E.
    rewrite andb_true_r. apply orb_false_iff. rewrite !Nat.eqb_neq. lia. }
  rewrite B1, B2, B3. reflexivity.
Qed.

(** ** C156: every gap on its column *)

Lemma nth_error_Forall2 : forall (A B : Type) (P : A -> B -> Prop) l r,
  List.length l = List.length r ->
  (forall k x, nth_error l k = Some x -> exists y, nth_error r k = Some y /\ P x y) -> Forall2 P l r.
Proof.
  intros A B P l. induction l as [|x l IH]; intros [|y r] L H; try discriminate; [constructor|].
  constructor.
  - destruct (H 0%nat x eq_refl) as (z & Z & Q). cbn in Z. congruence.
  - apply IH; [cbn in L; lia|]. intros k z Z. exact (H (S k) z Z).
Qed.

Lemma stored_true : forall l r g, stored l r = (true, g) -> r = Some g.
Proof. intros l [x|] g H; cbn in H; congruence. Qed.

Lemma ok_pair : forall (A : Type) (x y : A), Ok x = Ok y -> x = y.
Proof. intros A x y H. congruence. Qed.

(** The gaps of the returned columns. *)
Lemma returned_spec : forall b residual rest u, Forall is_residual residual ->
  lay b (returned residual rest) = Some u ->
  Forall2 (fun c g => in_middle b c g /\ is_residual g) rest u /\
  ((List.length rest <= List.length residual)%nat ->
     map g_length u = map g_length (firstn (List.length rest) residual)) /\
  ((List.length residual < List.length rest)%nat -> Forall (fun g => g_length g = residual_gap) u).
Proof.
  intros b residual rest u R H. apply lay_some in H as [S ->]. unfold returned in *.
  destruct (Nat.ltb (List.length residual) (List.length rest)) eqn:B.
  - apply Nat.ltb_lt in B. split; [|split; [intro; lia|]].
    + clear. induction rest as [|c rest IH]; cbn; constructor; [|exact IH].
      split; [apply middle_in|reflexivity].
    + intros _. clear. induction rest as [|c rest IH]; cbn; constructor; [reflexivity|exact IH].
  - apply Nat.ltb_ge in B. split; [|split; [intros _|intro; lia]].
    + clear S. revert rest B. induction R as [|g l K R IH]; intros [|c rest] B; cbn in *; try constructor; try lia.
      * split; [apply middle_in|exact K].
      * apply IH. lia.
    + clear S R. revert residual B. induction rest as [|c rest IH]; intros [|g l] B; cbn in *; try reflexivity; try lia.
      f_equal. apply IH. lia.
Qed.

Lemma of_kind_is : forall k l, Forall (fun g => g_kind g = k) (of_kind k l).
Proof.
  intros. apply Forall_forall. intros g I. apply filter_In in I as [_ I]. now apply kind_eqb_spec.
Qed.

Lemma map_nth_Forall2 : forall (l r : list gap),
  Forall2 (fun x y => asked y = asked x) l r -> map asked r = map asked l.
Proof. intros l r F. induction F as [|x y l r H F IH]; [reflexivity|]. cbn. congruence. Qed.

Lemma two_right : forall b c l r, Forall2 (fun g y => on b c y /\ asked y = asked g) l r -> Forall (on b c) r.
Proof. intros b c l r F. induction F as [|x y l r [H _] F IH]; constructor; assumption. Qed.

Lemma two_left : forall b c l r, Forall2 (fun g y => on b c y /\ asked y = asked g) l r ->
  Forall2 (fun x y => asked y = asked x) l r.
Proof. intros b c l r F. induction F as [|x y l r [_ H] F IH]; constructor; assumption. Qed.

(** Ground gaps, and spacers mixed with other gaps, all go down the winding column: the ground ones
    first, then the spacers, each with the length asked for. Every other column carries one residual
    gap in its middle: the ones given if they suffice, of 5 micrometres otherwise. *)
Theorem C156_down : forall b l c rest r, b_family b = Other -> unplaced l -> winding b c rest ->
  goes_down b l -> process_gap b l = Ok (true, r) ->
  exists u v, r = (u ++ v)%list /\ Forall (on b c) u /\
    map asked u = map asked (filter (fun g => kind_eqb (g_kind g) Subtractive) l ++
                             filter (fun g => kind_eqb (g_kind g) Additive) l) /\
    Forall2 (fun c g => in_middle b c g /\ is_residual g) rest v /\
    let given := filter (fun g => kind_eqb (g_kind g) Residual) l in
    ((List.length rest <= List.length given)%nat ->
       map g_length v = map g_length (firstn (List.length rest) given)) /\
    ((List.length given < List.length rest)%nat -> Forall (fun g => g_length g = 5 # 1000000) v).
Proof.
  intros b l c rest r F U W D H. rewrite (process_unplaced b l F U) in H.
  rewrite (distribute_down b l c rest W D) in H. apply ok_pair, stored_true in H.
  set (non := (of_kind Subtractive l ++ of_kind Additive l)%list) in *.
  destruct (wound b c non) as [u|] eqn:E; [|discriminate].
  destruct (lay b (returned (of_kind Residual l) rest)) as [v|] eqn:V; [|discriminate].
  assert (HH : r = (u ++ v)%list) by congruence. subst r. exists u, v. split; [reflexivity|].
  apply wound_some in E as [L N]. apply returned_spec in V as [V1 [V2 V3]]; [|apply of_kind_is].
  assert (F2 : Forall2 (fun g y => on b c y /\ asked y = asked g) non u).
  { apply nth_error_Forall2; [now rewrite L|]. intros k g G.
    destruct (N k g G) as (o & e & A & _). eexists. split; [exact A|]. split; [|reflexivity].
    split; [|split; [reflexivity|split; [reflexivity|split; reflexivity]]].
    eexists. split; [reflexivity|]. split; reflexivity. }
  split; [exact (two_right _ _ _ _ F2)|]. split; [exact (map_nth_Forall2 _ _ (two_left _ _ _ _ F2))|].
  split; [exact V1|]. split; [exact V2|exact V3].
Qed.

(** No gap at all: a residual one of 5 micrometres in the middle of every column. *)
Theorem C156_ungapped : forall b r, b_family b = Other -> process_gap b [] = Ok (true, r) ->
  Forall2 (fun c g => in_middle b c g /\ asked g = (Residual, 5 # 1000000)) (b_columns b) r.
Proof.
  intros b r F H. rewrite (process_unplaced b [] F) in H by constructor.
  unfold distribute, trimmed in H. cbn in H.
  assert (E : lay b (map (fun c => (c, (Residual, residual_gap))) (b_columns b)) = Some r).
  { apply ok_pair in H. apply stored_true in H. exact H. }
  apply lay_some in E as [_ ->]. clear H. induction (b_columns b) as [|c cs IH]; cbn; constructor; [|exact IH].
  apply middle_in.
Qed.

(** The gap of [l] a column of index [k] takes when there are fewer gaps than columns: its own, or
    the last one. *)
Definition own_or_last (l : list gap) (k : nat) (g : gap) : Prop :=
  nth_error l k = Some g \/ (nth_error l k = None /\ exists init, l = (init ++ [g])%list).

Lemma repeated_spec : forall b cs l z, (l <> [] -> True) ->
  lay b (repeated cs l z) = Some (map (middle b) (repeated cs l z)) ->
  forall k c, nth_error cs k = Some c ->
  exists g, (nth_error l k = Some g \/
             nth_error l k = None /\ (l = [] /\ g = z \/ exists init, l = (init ++ [g])%list)) /\
    nth_error (map (middle b) (repeated cs l z)) k = Some (middle b (c, (g_kind g, g_length g))).
Proof.
  intros b cs. induction cs as [|x cs IH]; intros l z _ H [|k] c C; try discriminate.
  - cbn in C. assert (x = c) by congruence. subst x. destruct l as [|g l].
    + exists z. split; [|reflexivity]. right. split; [reflexivity|]. left. split; reflexivity.
    + exists g. split; [|reflexivity]. left. reflexivity.
  - cbn in C. destruct l as [|g l].
    + destruct (IH [] z) with (k := k) (c := c) as (y & Y & M); [auto| |exact C|].
      { cbn [repeated lay] in H. destruct (Qlt_bool _ 0); [discriminate|].
        destruct (lay_spec b (repeated cs [] z)) as [[_ E]|[_ E]]; [exact E|rewrite E in H; discriminate]. }
      exists y. split; [|exact M]. destruct Y as [Y|[_ [[_ Y]|[i Y]]]].
      * destruct k; discriminate.
      * right. split; [reflexivity|]. left. split; [reflexivity|exact Y].
      * destruct i; discriminate.
    + destruct (IH l g) with (k := k) (c := c) as (y & Y & M); [auto| |exact C|].
      { cbn [repeated lay] in H. destruct (Qlt_bool _ 0); [discriminate|].
        destruct (lay_spec b (repeated cs l g)) as [[_ E]|[_ E]]; [exact E|rewrite E in H; discriminate]. }
      exists y. split; [|exact M]. cbn [nth_error]. destruct Y as [Y|[N [[-> ->]|[i ->]]]].
      * left. exact Y.
      * right. split; [exact N|]. right. exists []. reflexivity.
      * right. split; [exact N|]. right. exists (g :: i). reflexivity.
Qed.

(** Fewer spacers and residual gaps than columns, none ground: each column takes its own gap in its
    middle, and the columns that are left take the last one again. *)
Theorem C156_few : forall b l r, b_family b = Other -> unplaced l -> l <> [] ->
  (forall g, In g l -> g_kind g <> Subtractive) -> (List.length l < List.length (b_columns b))%nat ->
  process_gap b l = Ok (true, r) ->
  List.length r = List.length (b_columns b) /\
  forall k c, nth_error (b_columns b) k = Some c ->
    exists g x, own_or_last l k g /\ nth_error r k = Some x /\ in_middle b c x /\ asked x = asked g.
Proof.
  intros b l r F U N S L H. rewrite (process_unplaced b l F U) in H.
  pose proof (of_kind_length l) as K.
  assert (S0 : of_kind Subtractive l = []).
  { destruct (of_kind Subtractive l) as [|g t] eqn:E; [reflexivity|]. exfalso.
    assert (I : In g (of_kind Subtractive l)) by (rewrite E; left; reflexivity).
    apply filter_In in I as [I J]. apply kind_eqb_spec in J. exact (S g I J). }
  assert (T : trimmed b l = l).
  { unfold trimmed. replace (Nat.ltb (List.length (b_columns b)) (List.length (of_kind Residual l))) with false.
    - rewrite andb_false_r. reflexivity.
    - symmetry. apply Nat.ltb_ge. lia. }
  unfold distribute in H. rewrite T, S0, app_length in H. rewrite S0 in K. cbn [List.length] in *.
  replace (0 + List.length (of_kind Additive l) + List.length (of_kind Residual l))%nat
    with (List.length l) in H by lia.
  assert (B1 : Nat.eqb (List.length l) 0 = false) by (apply Nat.eqb_neq; destruct l; [congruence|cbn; lia]).
  rewrite B1 in H. apply Nat.ltb_lt in L. rewrite L in H. cbn [Nat.eqb andb] in H.
  apply ok_pair, stored_true in H. pose proof (lay_some _ _ _ H) as [SH E].
  split.
  { rewrite E, map_length. clear. revert l. generalize (bare Residual 0).
    induction (b_columns b) as [|c cs IH]; intros z l; [reflexivity|]. destruct l; cbn; f_equal; apply IH. }
  intros k c C. rewrite E in H.
  destruct (repeated_spec b (b_columns b) l (bare Residual 0) (fun _ => Logic.I) H k c C) as (g & G & M).
  exists g. eexists. split; [|split; [rewrite E; exact M|apply middle_in]].
  destruct G as [G|[G1 [[G2 _]|G2]]]; [left; exact G|congruence|]. right. split; assumption.
Qed.

(** One spacer for every column, or one residual gap for every column: each in the middle of its
    own. *)
Theorem C156_each : forall b l r k, b_family b = Other -> unplaced l ->
  (forall g, In g l -> g_kind g = k) -> k <> Subtractive ->
  List.length l = List.length (b_columns b) -> process_gap b l = Ok (true, r) ->
  Forall2 (in_middle b) (b_columns b) r /\ map asked r = map asked l.
Proof.
  intros b l r k F U A N L H. rewrite (process_unplaced b l F U) in H.
  assert (KO : forall j, j <> k -> of_kind j l = []).
  { intros j J. destruct (of_kind j l) as [|g t] eqn:E; [reflexivity|]. exfalso.
    assert (I : In g (of_kind j l)) by (rewrite E; left; reflexivity).
    apply filter_In in I as [I G]. apply kind_eqb_spec in G. apply J. rewrite <- G. apply A. exact I. }
  pose proof (of_kind_length l) as K.
  assert (S0 : of_kind Subtractive l = []) by (apply KO; congruence).
  assert (T : trimmed b l = l).
  { unfold trimmed. replace (Nat.ltb (List.length (b_columns b)) (List.length (of_kind Residual l))) with false.
    - rewrite andb_false_r. reflexivity.
    - symmetry. apply Nat.ltb_ge. lia. }
  assert (E : lay b (combine (b_columns b) (map asked l)) = Some r).
  { unfold distribute in H. rewrite T, S0, app_length in H. rewrite S0 in K. cbn [List.length] in *.
    replace (0 + List.length (of_kind Additive l) + List.length (of_kind Residual l))%nat
      with (List.length l) in H by lia.
    destruct (Nat.eqb (List.length l) 0) eqn:Z.
    - apply Nat.eqb_eq in Z. apply ok_pair, stored_true in H.
      destruct l; [|discriminate]. destruct (b_columns b); [|discriminate]. exact H.
    - rewrite L, Nat.ltb_irrefl, Nat.eqb_refl, andb_true_r in H. cbn [andb] in H.
      assert (B : Nat.eqb (List.length (of_kind Residual l)) (List.length (b_columns b)) ||
                  Nat.eqb (List.length (of_kind Additive l)) (List.length (b_columns b)) = true).
      { apply orb_true_iff. rewrite !Nat.eqb_eq. destruct k; [congruence| |].
        - right. rewrite (KO Residual) in K by congruence. cbn in K. lia.
        - left. rewrite (KO Additive) in K by congruence. cbn in K. lia. }
      rewrite B, Nat.eqb_refl in H. cbn [andb] in H. apply ok_pair, stored_true in H. exact H. }
  apply lay_some in E as [_ ->]. clear - L. revert l L.
  induction (b_columns b) as [|c cs IH]; intros [|g l] L; try discriminate; [split; constructor|].
  cbn in L. destruct (IH l ltac:(lia)) as [I1 I2]. split.
  - cbn. constructor; [apply middle_in|exact I1].
  - cbn. f_equal. exact I2.
Qed.

(** Residual gaps beyond the columns are dropped. *)
Theorem C156_many : forall b l, b_family b = Other -> unplaced l ->
  (forall g, In g l -> g_kind g = Residual) -> (List.length (b_columns b) < List.length l)%nat ->
  forall r, process_gap b l = Ok (true, r) <->
            process_gap b (firstn (List.length (b_columns b)) l) = Ok (true, r).
Proof.
  intros b l F U A L r. set (n := List.length (b_columns b)) in *.
  set (l' := firstn n l).
  assert (U' : unplaced l').
  { apply Forall_forall. intros g I. apply (proj1 (Forall_forall _ _) U).
    rewrite <- (firstn_skipn n l). apply in_or_app. left. exact I. }
  assert (A' : forall g, In g l' -> g_kind g = Residual).
  { intros g I. apply A. rewrite <- (firstn_skipn n l). apply in_or_app. left. exact I. }
  rewrite (process_unplaced b l F U), (process_unplaced b l' F U').
  assert (KO : forall x j, (forall g, In g x -> g_kind g = Residual) -> j <> Residual -> of_kind j x = []).
  { intros x j X J. destruct (of_kind j x) as [|g t] eqn:E; [reflexivity|]. exfalso.
    assert (I : In g (of_kind j x)) by (rewrite E; left; reflexivity).
    apply filter_In in I as [I G]. apply kind_eqb_spec in G. apply J. rewrite <- G. apply X. exact I. }
  assert (KA : forall x, (forall g, In g x -> g_kind g = Residual) -> of_kind Residual x = x).
  { intros x X. unfold of_kind. clear - X. induction x as [|g x IH]; [reflexivity|]. cbn [filter].
    rewrite (X g (or_introl eq_refl)). cbn. f_equal. apply IH. intros y I. apply X. right. exact I. }
  assert (LL : List.length l' = n) by (unfold l'; rewrite firstn_length; lia).
  assert (T : trimmed b l = l').
  { unfold trimmed. rewrite (KO l Subtractive), (KO l Additive), (KA l) by (assumption || congruence).
    fold n. cbn [List.length Nat.add Nat.eqb andb]. apply Nat.ltb_lt in L as L2. rewrite L2.
    unfold l'. f_equal. lia. }
  assert (T' : trimmed b l' = l').
  { unfold trimmed. rewrite (KA l') by assumption. fold n. rewrite LL, Nat.ltb_irrefl, andb_false_r. reflexivity. }
  unfold distribute. rewrite T, T'.
  rewrite (KO l Subtractive), (KO l Additive), (KO l' Subtractive), (KO l' Additive), (KA l')
    by (assumption || congruence).
  reflexivity.
Qed.

(** ** C157: the same core however it is written *)

(** What is accepted for one gapping is accepted for the other, with the same gaps. *)
Definition same_core (b : body) (l m : list gap) : Prop :=
  forall r, process_gap b l = Ok (true, r) <-> process_gap b m = Ok (true, r).

Lemma unplaced_repeat : forall k x n, unplaced (repeat (bare k x) n).
Proof. intros. apply Forall_forall. intros g I. apply repeat_spec in I. now subst. Qed.

Lemma unplaced_app : forall l m, unplaced l -> unplaced m -> unplaced (l ++ m).
Proof. intros. apply Forall_app. split; assumption. Qed.

Lemma of_kind_repeat : forall k j x n,
  of_kind k (repeat (bare j x) n) = if kind_eqb j k then repeat (bare j x) n else [].
Proof.
  intros. induction n as [|n IH]; [destruct (kind_eqb j k); reflexivity|].
  unfold of_kind in *. cbn [repeat filter g_kind bare]. rewrite IH. destruct (kind_eqb j k); reflexivity.
Qed.

Lemma of_kind_app : forall k l m, of_kind k (l ++ m) = (of_kind k l ++ of_kind k m)%list.
Proof. intros. apply filter_app. Qed.

Lemma returned_default : forall k rest, List.length rest = k ->
  returned (repeat (bare Residual residual_gap) k) rest = returned [] rest.
Proof.
  intros k rest L. unfold returned. rewrite repeat_length, L, Nat.ltb_irrefl.
  destruct rest as [|c rest].
  - cbn in L. subst k. reflexivity.
  - replace (Nat.ltb (List.length (@nil gap)) k) with true
      by (symmetry; apply Nat.ltb_lt; cbn in *; lia).
    subst k. clear. set (l := c :: rest). clearbody l. clear. induction l as [|c l IH]; [reflexivity|].
    cbn [List.length repeat map combine g_kind g_length bare]. f_equal. exact IH.
Qed.

(** A ground gap alone, and the same gap with a default residual gap for every other column as the
    factory writes it; likewise any number of distributed ones. *)
Theorem C157_distributed : forall b c rest x n, b_family b = Other -> winding b c rest ->
  S (List.length rest) = List.length (b_columns b) -> (0 < n)%nat ->
  same_core b (repeat (bare Subtractive x) n)
              (create_distributed_gapping x n (List.length (b_columns b))).
Proof.
  intros b c rest x n F W L N r. unfold create_distributed_gapping.
  set (k := (List.length (b_columns b) - 1)%nat).
  assert (D1 : goes_down b (repeat (bare Subtractive x) n)).
  { left. exists (bare Subtractive x). split; [|reflexivity]. destruct n; [lia|]. left. reflexivity. }
  assert (D2 : goes_down b (repeat (bare Subtractive x) n ++ repeat (bare Residual residual_gap) k)).
  { left. exists (bare Subtractive x). split; [|reflexivity]. destruct n; [lia|]. left. reflexivity. }
  rewrite (process_unplaced b _ F (unplaced_repeat _ _ _)).
  rewrite (process_unplaced b _ F (unplaced_app _ _ (unplaced_repeat _ _ _) (unplaced_repeat _ _ _))).
  rewrite (distribute_down b _ c rest W D1), (distribute_down b _ c rest W D2).
  rewrite !of_kind_app, !of_kind_repeat. cbn [kind_eqb app]. rewrite !app_nil_r, ?app_nil_l.
  rewrite (returned_default k rest) by (unfold k; lia).
  destruct (wound b c (repeat (bare Subtractive x) n)) as [t|]; [|split; intro H; cbn in H; discriminate].
  destruct (lay b (returned [] rest)); cbn [stored]; [reflexivity|].
  split; intro H; discriminate.
Qed.

Theorem C157_ground : forall b c rest x, b_family b = Other -> winding b c rest ->
  S (List.length rest) = List.length (b_columns b) ->
  same_core b [bare Subtractive x] (create_ground_gapping x (List.length (b_columns b))).
Proof.
  intros b c rest x F W L.
  exact (C157_distributed b c rest x 1 F W L (le_n 1)).
Qed.

Lemma repeated_all : forall (cs : list column) k x j z, (0 < j <= List.length cs)%nat \/ z = bare k x ->
  repeated cs (repeat (bare k x) j) z = map (fun c => (c, (k, x))) cs.
Proof.
  intro cs. induction cs as [|c cs IH]; intros k x j z H; [reflexivity|].
  destruct j as [|j].
  - destruct H as [H|H]; [lia|]. subst z. cbn. f_equal.
    rewrite <- (IH k x 0%nat (bare k x) (or_intror eq_refl)). reflexivity.
  - cbn. f_equal. apply IH. right. reflexivity.
Qed.

Lemma combine_all : forall (cs : list column) (k : kind) (x : Q),
  combine cs (map (fun g => (g_kind g, g_length g)) (repeat (bare k x) (List.length cs))) =
  map (fun c => (c, (k, x))) cs.
Proof.
  intros. induction cs as [|c cs IH]; [reflexivity|]. cbn. f_equal. exact IH.
Qed.

Lemma distribute_all : forall b k x j, k <> Subtractive -> (0 < j <= List.length (b_columns b))%nat ->
  distribute b (repeat (bare k x) j) =
  Ok (stored (repeat (bare k x) j) (lay b (map (fun c => (c, (k, x))) (b_columns b)))).
Proof.
  intros b k x j K J.
  assert (S0 : of_kind Subtractive (repeat (bare k x) j) = [])
    by (rewrite of_kind_repeat; destruct k; [congruence| |]; reflexivity).
  pose proof (of_kind_length (repeat (bare k x) j)) as L. rewrite repeat_length in L.
  assert (T : trimmed b (repeat (bare k x) j) = repeat (bare k x) j).
  { unfold trimmed. replace (Nat.ltb (List.length (b_columns b)) (List.length (of_kind Residual (repeat (bare k x) j)))) with false.
    - rewrite andb_false_r. reflexivity.
    - symmetry. apply Nat.ltb_ge. lia. }
  unfold distribute. rewrite T, S0, app_length. rewrite S0 in L. cbn [List.length] in *.
  replace (0 + List.length (of_kind Additive (repeat (bare k x) j)) +
           List.length (of_kind Residual (repeat (bare k x) j)))%nat with j by lia.
  assert (B1 : Nat.eqb j 0 = false) by (apply Nat.eqb_neq; lia). rewrite B1. cbn [Nat.eqb].
  rewrite andb_true_r.
  destruct (Nat.ltb j (List.length (b_columns b))) eqn:B2.
  - rewrite repeated_all by (left; lia). reflexivity.
  - apply Nat.ltb_ge in B2. assert (E : j = List.length (b_columns b)) by lia. subst j.
    rewrite Nat.eqb_refl, andb_true_r.
    assert (B : Nat.eqb (List.length (of_kind Residual (repeat (bare k x) (List.length (b_columns b))))) (List.length (b_columns b)) ||
                Nat.eqb (List.length (of_kind Additive (repeat (bare k x) (List.length (b_columns b))))) (List.length (b_columns b)) = true).
    { apply orb_true_iff. rewrite !Nat.eqb_eq, !of_kind_repeat.
      destruct k; [congruence| |]; cbn [kind_eqb]; rewrite ?repeat_length; [right|left]; reflexivity. }
    rewrite B, combine_all. reflexivity.
Qed.

(** One spacer, some of them, or one for every column as the factory writes it. *)
Theorem C157_spacer : forall b x j, b_family b = Other -> (0 < j <= List.length (b_columns b))%nat ->
  same_core b (repeat (bare Additive x) j) (create_spacer_gapping x (List.length (b_columns b))).
Proof.
  intros b x j F J r. unfold create_spacer_gapping.
  rewrite !(process_unplaced b _ F (unplaced_repeat _ _ _)).
  rewrite !distribute_all by (congruence || lia).
  destruct (lay b _); cbn [stored]; [reflexivity|]. split; intro H; discriminate.
Qed.

(** No gap, some default residual gaps, or one for every column as the factory writes it. *)
Theorem C157_residual : forall b j, b_family b = Other -> b_columns b <> [] ->
  same_core b (repeat (bare Residual residual_gap) j) (create_residual_gapping (List.length (b_columns b))).
Proof.
  intros b j F N r. unfold create_residual_gapping.
  assert (P : (0 < List.length (b_columns b))%nat) by (destruct (b_columns b); [congruence|cbn; lia]).
  destruct (le_lt_dec j (List.length (b_columns b))) as [J|J].
  - rewrite !(process_unplaced b _ F (unplaced_repeat _ _ _)).
    rewrite (distribute_all b Residual residual_gap (List.length (b_columns b))) by (congruence || lia).
    destruct j as [|j].
    + unfold distribute, trimmed. cbn.
      destruct (lay b _); cbn [stored]; [reflexivity|]. split; intro H; discriminate.
    + rewrite distribute_all by (congruence || lia).
      destruct (lay b _); cbn [stored]; [reflexivity|]. split; intro H; discriminate.
  - rewrite (C156_many b _ F (unplaced_repeat _ _ _)); [|intros g I; apply repeat_spec in I; now subst|now rewrite repeat_length].
    assert (E : firstn (List.length (b_columns b)) (repeat (bare Residual residual_gap) j) =
                repeat (bare Residual residual_gap) (List.length (b_columns b))).
    { replace j with (List.length (b_columns b) + (j - List.length (b_columns b)))%nat by lia.
      rewrite repeat_app, firstn_app, repeat_length, Nat.sub_diag. cbn [firstn].
      rewrite app_nil_r. rewrite <- (repeat_length (bare Residual residual_gap) (List.length (b_columns b))) at 1.
      apply firstn_all. }
    rewrite E. reflexivity.
Qed.

(** ** Witnesses *)

(** An E core: legs of 5 x 10 mm and 10 x 10 mm, 20 mm high. *)
Definition central_leg : column := Column Central Rectangular (Point 0 0 0) (1 # 50) (1 # 100) (1 # 100) (1 # 10000).
Definition lateral_leg (x : Q) : column := Column Lateral Rectangular (Point x 0 0) (1 # 50) (1 # 200) (1 # 100) (1 # 20000).
Definition e_core : body := Body Other [central_leg; lateral_leg (3 # 200); lateral_leg (- (3 # 200))] (Some (3 # 400)).

Lemma e_winding : winding e_core central_leg [lateral_leg (3 # 200); lateral_leg (- (3 # 200))].
Proof. apply (winding_central e_core [] central_leg _ eq_refl); [constructor|reflexivity]. Qed.

Example C156_down_witness : exists r, unplaced [bare Subtractive (1 # 1000)] /\
  goes_down e_core [bare Subtractive (1 # 1000)] /\
  process_gap e_core [bare Subtractive (1 # 1000)] = Ok (true, r) /\ List.length r = 3%nat.
Proof.
  eexists. split; [repeat constructor|]. split.
  - left. eexists. split; [left; reflexivity|reflexivity].
  - split; vm_compute; reflexivity.
Qed.

Example C156_few_witness : exists r,
  process_gap e_core [bare Additive (1 # 1000)] = Ok (true, r) /\
  map asked r = [(Additive, 1 # 1000); (Additive, 1 # 1000); (Additive, 1 # 1000)].
Proof. eexists. split; vm_compute; reflexivity. Qed.

Example C156_each_witness : exists r,
  process_gap e_core [bare Residual (1 # 100000); bare Residual (2 # 100000); bare Residual (3 # 100000)] = Ok (true, r) /\
  map asked r = [(Residual, 1 # 100000); (Residual, 2 # 100000); (Residual, 3 # 100000)].
Proof. eexists. split; vm_compute; reflexivity. Qed.

Example C157_witness : exists r, create_distributed_gapping (1 # 1000) 3 3 =
    [bare Subtractive (1 # 1000); bare Subtractive (1 # 1000); bare Subtractive (1 # 1000);
     bare Residual (5 # 1000000); bare Residual (5 # 1000000)] /\
  process_gap e_core (create_distributed_gapping (1 # 1000) 3 3) = Ok (true, r) /\
  process_gap e_core (repeat (bare Subtractive (1 # 1000)) 3) = Ok (true, r) /\ List.length r = 5%nat.
Proof. eexists. split; [reflexivity|]. split; [vm_compute; reflexivity|]. split; vm_compute; reflexivity. Qed.

Print Assumptions C156_down.
Print Assumptions C156_ungapped.
Print Assumptions C156_few.
Print Assumptions C156_each.
Print Assumptions C156_many.
Print Assumptions C157_distributed.
Print Assumptions C157_ground.
Print Assumptions C157_spacer.
Print Assumptions C157_residual.
