(** Properties of wires chosen from the catalogue: C149 (the nearest wire), C150
    (wires for an area, a frequency, a resistance, and litz instead of a solid
    wire), C151 (relative cost and extreme dimensions). *)
From Coq Require Import Reals List String ZArith Lia Lra Psatz.
From Verif Require Import Base WireModel WireProperties WireChoiceModel.
Import ListNotations.
Local Open Scope outcome_scope.
Local Open Scope R_scope.

(** * Vocabulary *)
(** a wire that may be chosen for this type and standard *)
Definition candidate (t : option kind) (st : option standard) (s : stock) : Prop :=
  type (figures s) <> Litz /\ (forall k, t = Some k -> type (figures s) = k)
  /\ (forall x, st = Some x -> standard_of s = Some x).
(** the conducting dimension by which a wire is told *)
Definition size (s : stock) (x : R) : Prop :=
  match type (figures s) with
  | Litz => False
  | RoundWire => diameter (figures s) = Some x
  | Rectangular | Planar => height (figures s) = Some x
  | Foil => width (figures s) = Some x
  end.
(** every wire that may be chosen has its dimension and an outer one *)
Definition well_described bundle (t : option kind) (st : option standard) (db : list stock) : Prop :=
  forall s, In s db -> candidate t st s -> (exists x, size s x) /\ exists o, maximum_outer_dimension bundle s = Ok o.

Lemma qualifies_iff : forall t st s, qualifies t st s = true <-> candidate t st s.
Proof.
  intros t st s. unfold qualifies, candidate. rewrite !Bool.andb_true_iff, Bool.negb_true_iff.
  assert (K : forall a b, is_kind a b = true <-> a = b) by (intros [] []; cbn; split; congruence).
  assert (S : forall a b, is_standard a b = true <-> a = b) by (intros [] []; cbn; split; congruence).
  assert (L : is_kind (type (figures s)) Litz = false <-> type (figures s) <> Litz).
  { rewrite <- K. destruct (is_kind (type (figures s)) Litz); split; congruence. }
  rewrite L. split.
  - intros ((A & B) & C). split; [exact C|]. split.
    + intros k ->. now apply K.
    + intros x ->. destruct (standard_of s) as [y|]; [|discriminate]. f_equal. now apply S.
  - intros (C & B & A). split; [split|exact C].
    + destruct st as [x|]; [|reflexivity]. rewrite (A x eq_refl). now apply S.
    + destruct t as [k|]; [|reflexivity]. apply K, B. reflexivity.
Qed.
Lemma compared_size : forall s x, size s x -> compared (figures s) = Ok x.
Proof. intros s x. unfold size, compared. destruct (type (figures s)); intro H; try contradiction; rewrite H; reflexivity. Qed.
Lemma size_unique : forall s x y, size s x -> size s y -> x = y.
Proof. intros s x y A B. apply compared_size in A, B. congruence. Qed.

Section Nearest.
Variable bundle : stock -> outcome R.
Variable x : R.
Hypothesis X : 0 < x.
Variables (t : option kind) (st : option standard).
Definition gap_to (s : stock) (d : R) : Prop := exists y, size s y /\ d = Rabs (y - x) / x.

(** what the search knows after the wires [seen] *)
Definition knows (seen : list stock) (acc : search) : Prop :=
  match chosen acc, best acc with
  | None, None => forall s, In s seen -> ~ candidate t st s
  | Some c, Some m => In c seen /\ candidate t st c /\ gap_to c m
      /\ (forall s, In s (ties acc) -> In s seen /\ candidate t st s /\ gap_to s m)
      /\ (forall s d, In s seen -> candidate t st s -> gap_to s d -> m < d \/ (d = m /\ (s = c \/ In s (ties acc))))
  | _, _ => False
  end.

Lemma gap_unique : forall s d d', gap_to s d -> gap_to s d' -> d = d'.
Proof. intros s d d' (y & A & ->) (y' & A' & ->). now rewrite (size_unique s y y' A A'). Qed.

Lemma look_knows : forall seen s acc, knows seen acc -> candidate t st s -> (exists y, size s y) ->
  exists acc', look x s acc = Ok acc' /\ knows (seen ++ [s]) acc'.
Proof.
  intros seen s acc K C (y & Y). unfold look. rewrite (compared_size s y Y). cbn [bind].
  destruct (Req_EM_T x 0); [lra|]. set (d := Rabs (y - x) / x). assert (G : gap_to s d) by (exists y; auto).
  unfold knows in K. destruct (chosen acc) as [c|] eqn:Ec, (best acc) as [m|] eqn:Em; try contradiction.
  - destruct K as (Ic & Cc & Gc & T & A). destruct (Rlt_dec d m) as [L|L]; [|destruct (Req_EM_T d m) as [E|E]].
    + eexists. split; [reflexivity|]. unfold knows. cbn [chosen best ties]. split; [apply in_or_app; right; left; reflexivity|].
      split; [exact C|]. split; [exact G|]. split; [intros s' []|].
      intros s' d' I' C' G'. apply in_app_or in I'. destruct I' as [I'|[<-|[]]].
      * destruct (A s' d' I' C' G') as [|(-> & _)]; left; lra.
      * right. split; [exact (gap_unique _ _ _ G' G) | left; reflexivity].
    + eexists. split; [reflexivity|]. unfold knows. cbn [chosen best ties]. try rewrite Ec; try rewrite Em.
      split; [apply in_or_app; left; exact Ic|]. split; [exact Cc|]. split; [exact Gc|]. split.
      * intros s' I'. apply in_app_or in I'. destruct I' as [I'|[<-|[]]].
        -- destruct (T s' I') as (T1 & T2). split; [apply in_or_app; left; exact T1 | exact T2].
        -- split; [apply in_or_app; right; left; reflexivity|]. split; [exact C | now rewrite <- E].
      * intros s' d' I' C' G'. apply in_app_or in I'. destruct I' as [I'|[<-|[]]].
        -- destruct (A s' d' I' C' G') as [|(-> & [->|I2])]; [left; assumption | right; auto |].
           right. split; [reflexivity|]. right. apply in_or_app. left. exact I2.
        -- right. split; [rewrite (gap_unique _ _ _ G' G); exact E|]. right. apply in_or_app. right. left. reflexivity.
    + eexists. split; [reflexivity|]. unfold knows. rewrite Ec, Em.
      split; [apply in_or_app; left; exact Ic|]. split; [exact Cc|]. split; [exact Gc|]. split.
      * intros s' I'. destruct (T s' I') as (T1 & T2). split; [apply in_or_app; left; exact T1 | exact T2].
      * intros s' d' I' C' G'. apply in_app_or in I'. destruct I' as [I'|[<-|[]]]; [exact (A s' d' I' C' G')|].
        rewrite (gap_unique _ _ _ G' G). left. lra.
  - eexists. split; [reflexivity|]. unfold knows. cbn [chosen best ties]. split; [apply in_or_app; right; left; reflexivity|].
      split; [exact C|]. split; [exact G|]. split; [intros s' []|].
    intros s' d' I' C' G'. apply in_app_or in I'. destruct I' as [I'|[<-|[]]]; [exfalso; exact (K s' I' C')|].
    right. split; [exact (gap_unique _ _ _ G' G) | left; reflexivity].
Qed.

Lemma scan_knows : forall db seen acc, knows seen acc ->
  (forall s, In s db -> candidate t st s -> exists y, size s y) ->
  exists acc', scan_stock x t st db acc = Ok acc' /\ knows (seen ++ db) acc'.
Proof.
  induction db as [|s db IH]; intros seen acc K H.
  - exists acc. rewrite app_nil_r. split; [reflexivity | exact K].
  - cbn [scan_stock]. destruct (qualifies t st s) eqn:Q.
    + apply qualifies_iff in Q. destruct (look_knows seen s acc K Q (H s (or_introl eq_refl) Q)) as (acc' & E & K').
      rewrite E. cbn [bind]. destruct (IH (seen ++ [s]) acc' K') as (acc2 & E2 & K2); [intros s' I; apply H; right; exact I|].
      exists acc2. split; [exact E2|]. now rewrite <- app_assoc in K2.
    + assert (K' : knows (seen ++ [s]) acc).
      { assert (N : ~ candidate t st s) by (rewrite <- qualifies_iff; congruence).
        unfold knows in *. destruct (chosen acc), (best acc); try contradiction.
        - destruct K as (Ic & Cc & Gc & T & A). split; [apply in_or_app; left; exact Ic|]. split; [exact Cc|]. split; [exact Gc|]. split.
          + intros s' I'. destruct (T s' I') as (T1 & T2). split; [apply in_or_app; left; exact T1 | exact T2].
          + intros s' d' I' C' G'. apply in_app_or in I'. destruct I' as [I'|[<-|[]]]; [exact (A s' d' I' C' G') | contradiction].
        - intros s' I'. apply in_app_or in I'. destruct I' as [I'|[<-|[]]]; [exact (K s' I') | exact N]. }
      destruct (IH (seen ++ [s]) acc K') as (acc2 & E2 & K2); [intros s' I; apply H; right; exact I|].
      exists acc2. split; [exact E2|]. now rewrite <- app_assoc in K2.
Qed.

Lemma thinnest_least : forall l c m, maximum_outer_dimension bundle c = Ok m ->
  (forall s, In s l -> exists o, maximum_outer_dimension bundle s = Ok o) ->
  exists s o, thinnest bundle m c l = Ok s /\ In s (c :: l) /\ maximum_outer_dimension bundle s = Ok o
    /\ forall s' o', In s' (c :: l) -> maximum_outer_dimension bundle s' = Ok o' -> o <= o'.
Proof.
  induction l as [|a l IH]; intros c m M H.
  - exists c, m. cbn [thinnest]. repeat split; auto; [left; reflexivity|]. intros s' o' [<-|[]] E. rewrite M in E. injection E. lra.
  - cbn [thinnest]. destruct (H a (or_introl eq_refl)) as (oa & Ea). rewrite Ea. cbn [bind].
    assert (H' : forall s, In s l -> exists o, maximum_outer_dimension bundle s = Ok o) by (intros s I; apply H; right; exact I).
    destruct (Rlt_dec oa m) as [L|L].
    + destruct (IH a oa Ea H') as (s & o & E & I & Eo & Min). exists s, o. split; [exact E|]. split; [right; exact I|]. split; [exact Eo|].
      intros s' o' [<-|I'] E'; [|exact (Min s' o' I' E')]. rewrite M in E'. injection E' as <-.
      pose proof (Min a oa (or_introl eq_refl) Ea). lra.
    + destruct (IH c m M H') as (s & o & E & I & Eo & Min). exists s, o. split; [exact E|].
      split; [destruct I as [<-|I]; [left; reflexivity | right; right; exact I]|]. split; [exact Eo|].
      intros s' o' [<-|[<-|I']] E'; [exact (Min _ _ (or_introl eq_refl) E')| |exact (Min _ _ (or_intror I') E')].
      rewrite Ea in E'. injection E' as <-. pose proof (Min c m (or_introl eq_refl) M). lra.
Qed.
End Nearest.

(** C149.  The wire found is a candidate of the catalogue, none is nearer to the
    dimension, and of those as near none is thinner outside. *)
Theorem C149_nearest : forall bundle db x t st a, 0 < x -> well_described bundle t st db ->
  In a db -> candidate t st a ->
  exists s y o, find_by_dimension bundle db x t st = Ok (Some s) /\ In s db /\ candidate t st s /\ size s y
    /\ maximum_outer_dimension bundle s = Ok o
    /\ forall s' y' o', In s' db -> candidate t st s' -> size s' y' -> maximum_outer_dimension bundle s' = Ok o' ->
         Rabs (y - x) <= Rabs (y' - x) /\ (Rabs (y - x) = Rabs (y' - x) -> o <= o').
Proof.
  intros bundle db x t st a X W Ia Ca.
  assert (K0 : knows x t st [] (mkSearch None None [])) by (cbn; auto).
  destruct (scan_knows x X t st db [] _ K0) as (acc & E & K).
  { intros s I C. destruct (W s I C) as (S & _). exact S. }
  cbn [app] in K. unfold knows in K. unfold find_by_dimension. rewrite E. cbn [bind].
  destruct (chosen acc) as [c|], (best acc) as [m|]; try contradiction; [|exfalso; exact (K a Ia Ca)].
  destruct K as (Ic & Cc & Gc & T & A).
  assert (Dist : forall y y', Rabs (y - x) / x <= Rabs (y' - x) / x -> Rabs (y - x) <= Rabs (y' - x)).
  { intros y y' L. apply (Rmult_le_reg_r (/ x)); [apply Rinv_0_lt_compat; exact X | exact L]. }
  assert (Fin : forall s o, In s (c :: ties acc) -> maximum_outer_dimension bundle s = Ok o ->
     (forall s' o', In s' (c :: ties acc) -> maximum_outer_dimension bundle s' = Ok o' -> o <= o') ->
     exists y, In s db /\ candidate t st s /\ size s y /\
     forall s' y' o', In s' db -> candidate t st s' -> size s' y' -> maximum_outer_dimension bundle s' = Ok o' ->
         Rabs (y - x) <= Rabs (y' - x) /\ (Rabs (y - x) = Rabs (y' - x) -> o <= o')).
  { intros s o Is Eo Min.
    assert (B : In s db /\ candidate t st s /\ gap_to x s m) by (destruct Is as [<-|Is]; [auto | exact (T s Is)]).
    destruct B as (B1 & B2 & (y & B3 & B4)). exists y. split; [exact B1|]. split; [exact B2|]. split; [exact B3|].
    intros s' y' o' I' C' S' O'. destruct (A s' (Rabs (y' - x) / x) I' C') as [L|(L & Q)]; [exists y'; auto| |].
    - split; [apply Dist; lra|]. intro Eq. rewrite B4, Eq in L. lra.
    - split; [apply Dist; lra|]. intros _. apply (Min s' o'); [|exact O']. destruct Q as [->|Q]; [left; reflexivity | right; exact Q]. }
  destruct (W c Ic Cc) as (_ & oc & Oc).
  destruct (ties acc) as [|s1 l] eqn:El.
  - destruct (Fin c oc (or_introl eq_refl) Oc) as (y & F1 & F2 & F3 & F4).
    { intros s' o' [<-|[]] E'. rewrite Oc in E'. injection E'. lra. }
    exists c, y, oc. auto 10.
  - rewrite Oc. cbn [bind].
    destruct (thinnest_least bundle (s1 :: l) c oc Oc) as (s & o & Es & Is & Eo & Min).
    { intros s I. destruct (T s I) as (T1 & T2 & _). exact (proj2 (W s T1 T2)). }
    rewrite Es. cbn [bind]. destruct (Fin s o Is Eo Min) as (y & F1 & F2 & F3 & F4). exists s, y, o. auto 10.
Qed.

(** C149.  A wire of the dimension itself is found when there is one. *)
Theorem C149_same : forall bundle db x t st a, 0 < x -> well_described bundle t st db ->
  In a db -> candidate t st a -> size a x ->
  exists s, find_by_dimension bundle db x t st = Ok (Some s) /\ In s db /\ candidate t st s /\ size s x.
Proof.
  intros bundle db x t st a X W Ia Ca Sa.
  destruct (C149_nearest bundle db x t st a X W Ia Ca) as (s & y & o & E & I & C & S & O & N).
  exists s. repeat split; auto; try apply C. destruct (W a Ia Ca) as (_ & oa & Oa).
  destruct (N a x oa Ia Ca Sa Oa) as (L & _). unfold Rminus at 2 in L. rewrite Rplus_opp_r, Rabs_R0 in L.
  assert (y = x); [|now subst y]. pose proof (Rabs_pos (y - x)). destruct (Req_dec (y - x) 0) as [|Z]; [lra|].
  pose proof (Rabs_pos_lt _ Z). lra.
Qed.

(** C149.  An incomplete candidate anywhere in the catalogue makes every search for
    its type and standard fail. *)
Theorem C149_incomplete : forall bundle db x t st a, In a db -> candidate t st a -> (forall y, ~ size a y) ->
  exists e, find_by_dimension bundle db x t st = Throw e.
Proof.
  intros bundle db x t st a I C N.
  assert (G : forall acc, exists e, scan_stock x t st db acc = Throw e).
  { induction db as [|s db IH]; [destruct I|]. intro acc. cbn [scan_stock]. destruct I as [->|I].
    - rewrite (proj2 (qualifies_iff t st a) C). unfold look, compared. unfold size in N. destruct C as (L & _).
      destruct (type (figures a)); try congruence;
        match goal with |- context [required ?o _] => destruct o as [y|]; [exfalso; exact (N y eq_refl) | eexists; reflexivity] end.
    - destruct (qualifies t st s); [|apply IH, I]. destruct (look x s acc) as [acc'|e|e|] eqn:E; cbn [bind]; [apply IH, I | eauto | |];
        exfalso; revert E; unfold look, compared; destruct (type (figures s)); cbn [bind required];
        try discriminate; match goal with |- context [required ?o _] => destruct o end; cbn [bind required]; try discriminate;
        destruct (Req_EM_T x 0); try discriminate; destruct (best acc); try discriminate;
        repeat (destruct (Rlt_dec _ _); try discriminate); destruct (Req_EM_T _ _); discriminate. }
  destruct (G (mkSearch None None [])) as (e & E). exists e. unfold find_by_dimension. now rewrite E.
Qed.

(** C149, refuted: without a candidate there is no error but a wire without data, as
    for every search of litz. *)
Theorem C149_none_refuted : forall bundle db x t st, (forall s, In s db -> ~ candidate t st s) ->
  find_by_dimension bundle db x t st = Ok None.
Proof.
  intros bundle db x t st H. unfold find_by_dimension.
  assert (E : forall acc, scan_stock x t st db acc = Ok acc).
  { intro acc. induction db as [|s db IH]; [reflexivity|]. cbn [scan_stock].
    assert (Q : qualifies t st s = false).
    { destruct (qualifies t st s) eqn:Q; [|reflexivity]. apply qualifies_iff in Q. exfalso. exact (H s (or_introl eq_refl) Q). }
    rewrite Q. apply IH. intros s' I. apply H. right. exact I. }
  now rewrite E.
Qed.
Theorem C149_litz_refuted : forall bundle db x st, find_by_dimension bundle db x (Some Litz) st = Ok None.
Proof.
  intros bundle db x st. apply C149_none_refuted. intros s _ (L & K & _). exact (L (K Litz eq_refl)).
Qed.

(** * C150 *)
Lemma root_area : forall a, 0 <= a -> PI * (sqrt (4 * a / PI) / 2) ^ 2 = a.
Proof.
  intros a A. pose proof PI_RGT_0 as P. assert (Q : 0 <= 4 * a / PI) by (apply Rmult_le_pos; [lra | left; apply Rinv_0_lt_compat, P]).
  replace ((sqrt (4 * a / PI) / 2) ^ 2) with (sqrt (4 * a / PI) * sqrt (4 * a / PI) / 4) by field.
  rewrite sqrt_sqrt by exact Q. field. lra.
Qed.

(** C150.  The exact wire for an area conducts through that area. *)
Theorem C150_area : forall bundle copper outer p db a o, 0 <= a -> outer (sqrt (4 * a / PI)) = Ok o ->
  exists s, wire_for_area bundle copper outer db a true = Ok (Some s)
    /\ type (figures s) = RoundWire /\ conducting_area p (figures s) = Ok a /\ outer_diameter s = Some o.
Proof.
  intros bundle copper outer p db a o A O. unfold wire_for_area, round_of, exact_round. rewrite O. cbn [bind].
  eexists. split; [reflexivity|]. split; [reflexivity|]. split; [|reflexivity].
  unfold conducting_area, count. cbn [conductors figures type diameter required bind]. f_equal.
  change (INR 1) with 1. rewrite Rmult_1_r. apply root_area, A.
Qed.

(** C150.  The exact wire for a frequency is the thickest round wire that conducts
    through all its area at that frequency. *)
Theorem C150_frequency : forall bundle copper outer p db f t, 0 < f -> 0 < resistivity copper t -> 0 < permeability copper ->
  exists d, 0 < d /\ (forall o, d < dbl_max -> outer d = Ok o ->
    exists s a, wire_for_frequency bundle copper outer db f t true = Ok (Some s) /\ diameter (figures s) = Some d
      /\ conducting_area p (figures s) = Ok a /\ effective_area p (figures s) f t = Ok a)
    /\ forall w d' a a', round_conductors w 1 d' -> material_of w = Some copper -> d < d' ->
         conducting_area p w = Ok a -> effective_area p w f t = Ok a' -> a' < a.
Proof.
  intros bundle copper outer p db f t F Re Pe. destruct (skin_some copper f t F Re Pe) as (s & S & D).
  exists (s * 2). destruct D as (S0 & Ds). split; [lra|]. split.
  - intros o B O. unfold wire_for_frequency. rewrite S. unfold round_of, exact_round. rewrite O. cbn [bind].
    set (w := mkWire RoundWire (Some 1%nat) (Some (s * 2)) None None None (Some copper)).
    assert (R : round_conductors w 1 (s * 2)) by (split; [split; [lia | left; reflexivity]|]; split; [lra | right; split; reflexivity]).
    assert (K : conducts w copper t) by (repeat split; assumption).
    destruct (C141_round_conductors p w 1 (s * 2) copper t f R K) as (a & A & _ & _ & E & _).
    exists (mkStock w None (Some o) None None 0), a. cbn [figures]. split; [reflexivity|]. split; [reflexivity|]. split; [exact A|].
    apply (E s F (conj S0 Ds)). lra.
  - intros w d' a a' R M L A E. assert (K : conducts w copper t) by (repeat split; assumption).
    destruct (C141_round_conductors p w 1 d' copper t f R K) as (a2 & A2 & V & _ & _ & E2).
    rewrite (E2 s F (conj S0 Ds) ltac:(lra)) in E. rewrite A in A2. injection A2 as <-. injection E as <-. rewrite V.
    pose proof PI_RGT_0. change (INR 1) with 1. assert (0 < PI * (d' / 2 - s) ^ 2) by (apply Rmult_lt_0_compat; [assumption | apply pow_lt; lra]). lra.
Qed.

(** C150.  When the catalogue has a wire of exactly the wanted resistance, the wire
    found has it. *)
Theorem C150_resistance : forall bundle copper outer p db r t a, 0 < r -> 0 < resistivity copper t ->
  well_described bundle (Some RoundWire) (Some Iec) db ->
  In a db -> candidate (Some RoundWire) (Some Iec) a -> size a (sqrt (4 * (resistivity copper t / r) / PI)) ->
  exists s, wire_for_resistance bundle copper outer db r t = Ok (Some s) /\ In s db
    /\ (conductors (figures s) = Some 1%nat \/ conductors (figures s) = None ->
        exists area, conducting_area p (figures s) = Ok area /\ resistivity copper t / area = r).
Proof.
  intros bundle copper outer p db r t a R Re W I C S. pose proof PI_RGT_0 as P.
  assert (Q : 0 < resistivity copper t / r) by (apply Rdiv_lt_0_compat; assumption).
  assert (X : 0 < sqrt (4 * (resistivity copper t / r) / PI)) by (apply sqrt_lt_R0, Rdiv_lt_0_compat; lra).
  destruct (C149_same bundle db _ _ _ a X W I C S) as (s & E & Is & Cs & Ss).
  exists s. unfold wire_for_resistance, wire_for_area, round_of. split; [exact E|]. split; [exact Is|]. intro N.
  destruct Cs as (_ & K & _). specialize (K RoundWire eq_refl). unfold size in Ss. rewrite K in Ss.
  exists (resistivity copper t / r). split; [|field; lra].
  unfold conducting_area, count. rewrite K, Ss. cbn [required].
  destruct N as [-> | ->]; cbn [bind]; change (INR 1) with 1; rewrite Rmult_1_r, root_area by lra; reflexivity.
Qed.

Lemma half_away_near : forall x, 0 <= x -> (0 <= half_away x)%Z /\ IZR (half_away x) - 1 / 2 <= x < IZR (half_away x) + 1 / 2.
Proof.
  intros x X. unfold half_away. destruct (Rlt_dec x 0); [lra|]. destruct (base_Int_part (x + 1 / 2)) as (A & B).
  split; [|lra]. assert (-1 < Int_part (x + 1 / 2))%Z; [|lia]. apply lt_IZR. lra.
Qed.

(** C150.  The strands of the litz that replaces a solid wire have together its
    area to half a strand, of the strand that was looked for. *)
Theorem C150_litz_count : forall bundle db old skin st strand n, 0 <= old -> 0 < skin ->
  litz_instead bundle db old skin st = Ok (strand, n) ->
  (0 <= n)%Z /\ Rabs (IZR n * (PI * (skin / 2) ^ 2) - old) <= PI * (skin / 2) ^ 2 / 2.
Proof.
  intros bundle db old skin st strand n O S H. unfold litz_instead in H.
  destruct (find_by_dimension _ _ _ _ _) as [f|e|e|]; cbn [bind] in H; try discriminate.
  pose proof PI_RGT_0 as P. set (u := PI * (skin / 2) ^ 2) in *. assert (En : n = half_away (old / u)) by congruence. subst n.
  assert (U : 0 < u) by (apply Rmult_lt_0_compat; [exact P | apply pow_lt; lra]).
  assert (Q : 0 <= old / u) by (apply Rmult_le_pos; [exact O | left; apply Rinv_0_lt_compat, U]).
  destruct (half_away_near (old / u) Q) as (N & B). split; [exact N|].
  assert (E : old = old / u * u) by (field; lra). revert B E. clear N. generalize (half_away (old / u)). generalize (old / u). intros q z B E.
  pose proof (Rmult_le_compat_r u _ _ (Rlt_le _ _ U) (proj1 B)) as B1. pose proof (Rmult_lt_compat_r u _ _ U (proj2 B)) as B2.
  apply Rabs_le. lra.
Qed.
(** Refuted: a wire thin against the skin depth is replaced by litz of no strand at
    all, and since the strand is another one the area is not kept. *)
Theorem C150_litz_refuted :
  (forall bundle db old skin st strand n, 0 < skin -> 0 <= old < PI * (skin / 2) ^ 2 / 2 ->
     litz_instead bundle db old skin st = Ok (strand, n) -> n = 0%Z)
  /\ exists db, forall bundle, exists old strand d n, litz_instead bundle db old 1 Iec = Ok (Some strand, n)
     /\ diameter (figures strand) = Some d /\ IZR n * (PI * (d / 2) ^ 2) = 4 * old /\ 0 < old.
Proof.
  split.
  - intros bundle db old skin st strand n S (O & L) H.
    destruct (C150_litz_count bundle db old skin st strand n O S H) as (N & B).
    unfold litz_instead in H. destruct (find_by_dimension _ _ _ _ _) as [f|e|e|]; cbn [bind] in H; try discriminate.
    pose proof PI_RGT_0 as P. set (u := PI * (skin / 2) ^ 2) in *. assert (En : n = half_away (old / u)) by congruence. subst n.
    assert (U : 0 < u) by (apply Rmult_lt_0_compat; [exact P | apply pow_lt; lra]).
    assert (Q : 0 <= old / u) by (apply Rmult_le_pos; [exact O | left; apply Rinv_0_lt_compat, U]).
    destruct (half_away_near (old / u) Q) as (_ & A).
    assert (M : old / u < 1 / 2) by (apply (Rmult_lt_reg_r u); [exact U|]; unfold Rdiv at 1; rewrite Rmult_assoc, Rinv_l by lra; lra).
    assert (half_away (old / u) < 1)%Z by (apply lt_IZR; lra). lia.
  - exists [mkStock (mkWire RoundWire (Some 1%nat) (Some 2) None None None None) (Some Iec) (Some (21 / 10)) None None 0].
    intro bundle. exists PI.
    assert (E : half_away (PI / (PI * (1 / 2) ^ 2)) = 4%Z).
    { pose proof PI_RGT_0 as P. replace (PI / (PI * (1 / 2) ^ 2)) with 4 by (field; lra).
      destruct (half_away_near 4 ltac:(lra)) as (_ & A). assert (half_away 4 < 5)%Z by (apply lt_IZR; lra).
      assert (3 < half_away 4)%Z by (apply lt_IZR; lra). lia. }
    unfold litz_instead. rewrite E. unfold find_by_dimension. cbn [scan_stock qualifies figures type standard_of is_standard is_kind negb andb].
    unfold look, compared. cbn [figures type diameter required bind best]. destruct (Req_EM_T 1 0); [lra|].
    cbn [bind scan_stock chosen ties]. eexists _, 2, 4%Z. split; [reflexivity|]. split; [reflexivity|]. pose proof PI_RGT_0. split; [field | lra].
Qed.

(** C150.  The round wire looked for instead of litz has the area of all its strands. *)
Theorem C150_round_instead : forall p w d a, type w = Litz -> conducting_area p w = Ok a -> 0 <= a ->
  wanted_dimension p w = Ok d -> PI * (d / 2) ^ 2 = a.
Proof.
  intros p w d a T A P H. unfold wanted_dimension in H. rewrite T, A in H. cbn [bind] in H. injection H as <-.
  replace (sqrt (a / PI) * 2 / 2) with (sqrt (a / PI)) by field. pose proof PI_RGT_0.
  rewrite pow2_sqrt by (apply Rmult_le_pos; [exact P | left; apply Rinv_0_lt_compat; lra]). field. lra.
Qed.

(** * C151 *)
Lemma zok : forall a b : Z, Ok a = Ok b -> a = b.
Proof. congruence. Qed.
(** C151.  More strands, or a higher grade of enamel, never cost less. *)
Theorem C151_cost : forall k n n' c g g' x y, (n <= n')%Z -> (g <= g')%Z ->
  (relative_cost k (Some n) c = Ok x -> relative_cost k (Some n') c = Ok y -> (x <= y)%Z)
  /\ (relative_cost k (Some n) (EnamelledBy (Some g)) = Ok x -> relative_cost k (Some n) (EnamelledBy (Some g')) = Ok y -> (x <= y)%Z).
Proof.
  intros k n n' c g g' x y N G.
  assert (S : forall b, ((if b <? n then 1 else 0) <= (if b <? n' then 1 else 0))%Z).
  { intro b. destruct (Z.ltb_spec b n), (Z.ltb_spec b n'); lia. }
  pose proof (S 100%Z). pose proof (S 500%Z). pose proof (S 1000%Z). unfold relative_cost. split.
  - destruct k; cbn [bind]; destruct c as [|[l|]|[gr|]|]; intros E E'; try discriminate; apply zok in E, E'; lia.
  - destruct k; cbn [bind]; intros E E'; apply zok in E, E'; lia.
Qed.
(** Refuted for insulation: three layers cost less than two. *)
Theorem C151_layers_refuted : exists x y,
  relative_cost RoundWire (Some 1%Z) (InsulatedBy (Some 2%Z)) = Ok x
  /\ relative_cost RoundWire (Some 1%Z) (InsulatedBy (Some 3%Z)) = Ok y /\ (y < x)%Z.
Proof. exists 4%Z, 3%Z. repeat split. Qed.

(** C151.  The minimum and maximum dimensions: every side of a round or litz wire
    with an outer diameter is that diameter; of a flat wire the maximum is the
    longer of its outer sides. *)
Theorem C151_extremes : forall bundle s,
  ((type (figures s) = RoundWire \/ type (figures s) = Litz) -> forall d, outer_diameter s = Some d ->
     maximum_outer_dimension bundle s = Ok d /\ minimum_outer_dimension s = Ok d)
  /\ (type (figures s) <> RoundWire -> type (figures s) <> Litz -> forall x y, outer_width s = Some x -> outer_height s = Some y ->
     exists m, maximum_outer_dimension bundle s = Ok m /\ x <= m /\ y <= m /\ (m = x \/ m = y)).
Proof.
  intros bundle s. unfold maximum_outer_dimension, maximum_outer_width, maximum_outer_height, minimum_outer_dimension. split.
  - intros T d D. destruct T as [-> | ->]; rewrite D; cbn [bind value required]; (split; [f_equal; apply Rmax_left; lra | reflexivity]).
  - intros N1 N2 x y X Y. destruct (type (figures s)); try congruence; rewrite X, Y; cbn [bind];
      (exists (Rmax x y); split; [reflexivity|]; split; [apply Rmax_l|]; split; [apply Rmax_r|]; unfold Rmax; destruct (Rle_dec x y); auto).
Qed.
(** Refuted for the minimum: of a rectangular wire set on its edge it is the longer
    side. *)
Theorem C151_minimum_refuted : forall s x y, type (figures s) = Rectangular -> outer_width s = Some x -> outer_height s = Some y ->
  x < y -> minimum_outer_dimension s = Ok y.
Proof. intros s x y T X Y L. unfold minimum_outer_dimension. rewrite T, Y. reflexivity. Qed.

Definition rack : list stock :=
  [mkStock (mkWire RoundWire (Some 1%nat) (Some 1) None None None None) (Some Iec) (Some (12 / 10)) None None 1;
   mkStock (mkWire RoundWire (Some 1%nat) (Some 3) None None None None) (Some Iec) (Some (31 / 10)) None None 2;
   mkStock (mkWire RoundWire (Some 1%nat) (Some 1) None None None None) (Some Iec) (Some (11 / 10)) None None 3].
Example C149_witness : forall bundle, well_described bundle (Some RoundWire) (Some Iec) rack
  /\ candidate (Some RoundWire) (Some Iec) (nth 0 rack (mkStock (mkWire RoundWire None None None None None None) None None None None 0))
  /\ exists s, find_by_dimension bundle rack 2 (Some RoundWire) (Some Iec) = Ok (Some s) /\ tag s = 3%nat.
Proof.
  intro bundle.
  assert (W : well_described bundle (Some RoundWire) (Some Iec) rack).
  { intros s [<-|[<-|[<-|[]]]] _; split; eexists; reflexivity. }
  assert (C : forall s, In s rack -> candidate (Some RoundWire) (Some Iec) s).
  { intros s [<-|[<-|[<-|[]]]]; (split; [discriminate|]; split; intros k E; injection E as <-; reflexivity). }
  split; [exact W|]. split; [apply C; left; reflexivity|].
  destruct (C149_nearest bundle rack 2 (Some RoundWire) (Some Iec) _ ltac:(lra) W (or_introl eq_refl) (C _ (or_introl eq_refl)))
    as (s & y & o & E & I & Cs & S & O & N).
  exists s. split; [exact E|].
  destruct I as [<-|[<-|[<-|[]]]]; [exfalso|exfalso|reflexivity].
  - unfold size in S. cbn in S. injection S as <-. cbn in O. injection O as <-.
    destruct (N _ 1 (Rmax (11 / 10) (11 / 10)) (or_intror (or_intror (or_introl eq_refl))) (C _ (or_intror (or_intror (or_introl eq_refl)))) eq_refl eq_refl) as (_ & H).
    specialize (H eq_refl). rewrite !Rmax_left in H; lra.
  - unfold size in S. cbn in S. injection S as <-. cbn in O. injection O as <-.
    destruct (N _ 1 (Rmax (11 / 10) (11 / 10)) (or_intror (or_intror (or_introl eq_refl))) (C _ (or_intror (or_intror (or_introl eq_refl)))) eq_refl eq_refl) as (_ & H).
    assert (Q : Rabs (3 - 2) = Rabs (1 - 2)) by (rewrite (Rabs_pos_eq (3 - 2)), (Rabs_left (1 - 2)); lra).
    specialize (H Q). rewrite !Rmax_left in H; lra.
Qed.
Example C150_witness : forall bundle, candidate (Some RoundWire) (Some Iec) (nth 1 rack (mkStock (mkWire RoundWire None None None None None None) None None None None 0))
  /\ size (nth 1 rack (mkStock (mkWire RoundWire None None None None None None) None None None None 0)) 3
  /\ well_described bundle (Some RoundWire) (Some Iec) rack.
Proof.
  intro bundle. split; [split; [discriminate|]; split; intros k E; injection E as <-; reflexivity|]. split; [reflexivity|].
  intros s [<-|[<-|[<-|[]]]] _; split; eexists; reflexivity.
Qed.
Example C151_witness : relative_cost Litz (Some 600%Z) (EnamelledBy (Some 2%Z)) = Ok 5%Z.
Proof. reflexivity. Qed.

Print Assumptions C149_nearest.
Print Assumptions C149_same.
Print Assumptions C149_incomplete.
Print Assumptions C150_area.
Print Assumptions C150_frequency.
Print Assumptions C150_resistance.
Print Assumptions C150_litz_count.
Print Assumptions C151_cost.
