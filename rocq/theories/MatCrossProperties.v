(** C218 and C219: materials similar to a reference material. *)
From Coq Require Import QArith Qabs List Bool Arith Lia Lqa Permutation Sorting.
From Verif Require Import Base QAux UtilsNumModel UtilsNumProofs WireAdviseModel WireAdviseProofs CrossModel CrossProofs MatCrossModel.
Import ListNotations.
Local Open Scope Q_scope.

(** * What is returned *)
(** The figure has a weight and the reference has it. *)
Definition compared (ref : material) (weight : trait -> Q) (t : trait) : Prop := 0 < weight t /\ value t ref <> None.
Definition suitable (ref : material) (weight : trait -> Q) (maker : option nat) (any_type : bool) (m : material) : Prop :=
  x_name m <> x_name ref /\ (forall k, maker = Some k -> x_maker m = k) /\ x_application m = x_application ref /\
  (any_type = false -> x_type m = x_type ref) /\
  (compared ref weight Curie -> x_curie m <> None) /\ (compared ref weight VolumetricLosses -> x_losses m <> None).
(** How far a figure is from that of the reference. *)
Definition off (ref : material) (t : trait) (m : material) : Q :=
  match value t ref, value t m with Some r, Some v => Qabs (r - v) | _, _ => 0 end.
Definition as_close (ref : material) (weight : trait -> Q) (a b : material) : Prop :=
  forall t, compared ref weight t -> off ref t a <= off ref t b.

(** ** Proofs *)
Lemma measured_in : forall t r l x d, In (x, d) (measured t r l) <-> In x l /\ exists v, value t (fst x) = Some v /\ d = Qabs (r - v).
Proof.
  intros t r. induction l as [|y q IH]; intros x d; cbn [measured]; [split; [intros []|intros ([] & _)]|].
  destruct (value t (fst y)) as [v|] eqn:E; cbn [In]; rewrite IH.
  - split.
    + intros [X|(X & Y)]; [|auto]. assert (X1 : y = x) by congruence. assert (X2 : Qabs (r - v) = d) by congruence. subst x d. split; [auto|]. exists v. auto.
    + intros ([<-|X] & v' & V & D); [left; rewrite D; congruence|right; eauto].
  - split; [intros (X & Y); auto|]. intros ([<-|X] & v' & V & D); [congruence|eauto].
Qed.
Lemma by_trait_cases : forall ref weight l t, (~ compared ref weight t /\ by_trait ref weight l t = l) \/
  (exists r, compared ref weight t /\ value t ref = Some r /\ by_trait ref weight l t = grade (weight t) (map fst (measured t r l)) (map snd (measured t r l))).
Proof.
  intros ref weight l t. unfold by_trait, compared. destruct (Qle_bool (weight t) 0) eqn:E.
  - left. split; [|reflexivity]. intros (A & _). qb. lra.
  - destruct (value t ref) as [r|] eqn:V; [right; exists r|left].
    + split; [split; [qb; lra|discriminate]|]. auto.
    + split; [|reflexivity]. intros (_ & A). now apply A.
Qed.
Lemma by_trait_in : forall ref weight l t m, (exists s, In (m, s) (by_trait ref weight l t)) <->
  (exists s, In (m, s) l) /\ (compared ref weight t -> value t m <> None).
Proof.
  intros ref weight l t m. destruct (by_trait_cases ref weight l t) as [(N & ->)|(r & C & V & ->)].
  - split; [intro H; split; [exact H|intro; contradiction]|intros (H & _); exact H].
  - split.
    + intros (s & X). apply grade_in in X. destruct X as (y & d & I0 & E). apply measured_in in I0. destruct I0 as (I0 & v & V1 & _).
      assert (Y : m = fst y) by congruence. subst m. split; [exists (snd y); destruct y; exact I0|]. intros _. congruence.
    + intros ((s & I0) & K). specialize (K C). destruct (value t m) as [v|] eqn:V1; [|now elim K].
      eexists. apply grade_in. exists (m, s), (Qabs (r - v)). split; [apply measured_in; split; [exact I0|exists v; auto]|reflexivity].
Qed.
Lemma by_trait_order : forall ref weight l t, in_order _ above l -> in_order _ above (by_trait ref weight l t).
Proof.
  intros ref weight l t O. destruct (by_trait_cases ref weight l t) as [(N & ->)|(r & C & V & ->)]; [exact O|]. apply grade_order. now rewrite !map_length.
Qed.
Lemma by_trait_bounds : forall ref weight l t lo hi, (forall x, In x l -> lo <= snd x <= hi) ->
  forall x, In x (by_trait ref weight l t) -> lo <= snd x <= hi + cmax 0 (weight t).
Proof.
  intros ref weight l t lo hi B x X. pose proof (cmax_ge_l 0 (weight t)) as Z. pose proof (cmax_ge_r 0 (weight t)) as Z'.
  destruct (by_trait_cases ref weight l t) as [(N & E)|(r & (C & _) & V & E)]; rewrite E in X; [specialize (B x X); split; lra|].
  apply grade_in in X. destruct X as (y & d & I0 & ->). pose proof (extremes (map snd (measured t r l)) d (in_map snd _ _ I0)) as XT.
  apply measured_in in I0. specialize (B y (proj1 I0)). destruct (term_spec (weight t) _ _ d ltac:(lra) XT) as (T & _). cbn [snd].
  set (tt := term _ _ _ _) in *. split; lra.
Qed.
Lemma by_trait_dominance : forall ref weight l t, (forall a b, In a l -> In b l -> as_close ref weight (fst a) (fst b) -> snd b <= snd a) ->
  forall a b, In a (by_trait ref weight l t) -> In b (by_trait ref weight l t) -> as_close ref weight (fst a) (fst b) -> snd b <= snd a.
Proof.
  intros ref weight l t B a b A0 B0 BT. destruct (by_trait_cases ref weight l t) as [(N & E)|(r & C & V & E)]; rewrite E in A0, B0; [now apply B|].
  apply grade_in in A0. apply grade_in in B0. destruct A0 as (x & d & IA & ->), B0 as (y & e & IB & ->). cbn [fst snd] in *.
  pose proof (extremes (map snd (measured t r l)) d (in_map snd _ _ IA)) as XA. pose proof (extremes (map snd (measured t r l)) e (in_map snd _ _ IB)) as XB.
  apply measured_in in IA. apply measured_in in IB. destruct IA as (IA & va & VA & DA), IB as (IB & vb & VB & DB).
  pose proof (BT t C) as DE. unfold off in DE. rewrite V, VA, VB, <- DA, <- DB in DE. destruct C as (C & _).
  destruct (term_spec (weight t) _ _ d ltac:(lra) XA) as (_ & T). specialize (T e (conj DE (proj2 XB))). specialize (B x y IA IB BT).
  set (t1 := term _ _ _ d) in *. set (t2 := term _ _ _ e) in *. lra.
Qed.
Fixpoint total (weight : trait -> Q) (ts : list trait) : Q := match ts with [] => 0 | t :: r => cmax 0 (weight t) + total weight r end.
Lemma fold_spec : forall ref weight ts l,
  (forall m, (exists s, In (m, s) (fold_left (by_trait ref weight) ts l)) <-> (exists s, In (m, s) l) /\ forall t, In t ts -> compared ref weight t -> value t m <> None) /\
  (in_order _ above l -> in_order _ above (fold_left (by_trait ref weight) ts l)) /\
  (forall lo hi, (forall x, In x l -> lo <= snd x <= hi) -> forall x, In x (fold_left (by_trait ref weight) ts l) -> lo <= snd x <= hi + total weight ts) /\
  ((forall a b, In a l -> In b l -> as_close ref weight (fst a) (fst b) -> snd b <= snd a) ->
   forall a b, In a (fold_left (by_trait ref weight) ts l) -> In b (fold_left (by_trait ref weight) ts l) -> as_close ref weight (fst a) (fst b) -> snd b <= snd a).
Proof.
  intros ref weight. induction ts as [|t ts IH]; intro l; cbn [fold_left total].
  - split; [|split; [|split]]; [|auto| |auto].
    + intro m. split; [intro H; split; [exact H|intros t []]|intros (H & _); exact H].
    + intros lo hi B x X. specialize (B x X). split; lra.
  - destruct (IH (by_trait ref weight l t)) as (A & B & C & D). split; [|split; [|split]].
    + intro m. rewrite A, by_trait_in. split.
      * intros ((H & K) & J). split; [exact H|]. intros u [<-|U]; [exact K|apply J, U].
      * intros (H & K). split; [split; [exact H|apply K; left; reflexivity]|]. intros u U. apply K. right. exact U.
    + intro O. apply B, by_trait_order, O.
    + intros lo hi H x X. destruct (C lo (hi + cmax 0 (weight t)) (by_trait_bounds ref weight l t lo hi H) x X) as (P & P'). split; lra.
    + intro H. apply D, by_trait_dominance, H.
Qed.
Lemma every_trait : forall t, In t traits.
Proof. intros []; cbn; auto 8. Qed.
Lemma start_spec : forall ref maker any db, let l := map (fun m => (m, 0)) (filter (takes_part ref maker any) db) in
  in_order _ above l /\ (forall x, In x l -> snd x = 0) /\ (forall m, (exists s, In (m, s) l) <-> In m db /\ takes_part ref maker any m = true).
Proof.
  intros ref maker any db l. subst l. split; [|split].
  - induction (filter (takes_part ref maker any) db) as [|k cs IH]; cbn; constructor; [exact IH|]. apply Forall_forall. intros x X. apply in_map_iff in X. destruct X as (k' & <- & X). reflexivity.
  - intros x X. apply in_map_iff in X. destruct X as (k & <- & X). reflexivity.
  - intro m. rewrite <- filter_In. split.
    + intros (s & X). apply in_map_iff in X. destruct X as (k & E & X). congruence.
    + intro X. exists 0. apply in_map_iff. exists m. auto.
Qed.
Lemma takes_part_iff : forall ref maker any m, takes_part ref maker any m = true <->
  x_name m <> x_name ref /\ (forall k, maker = Some k -> x_maker m = k) /\ x_application m = x_application ref /\ (any = false -> x_type m = x_type ref).
Proof.
  intros. unfold takes_part. rewrite !andb_true_iff, orb_true_iff, negb_true_iff, Nat.eqb_neq, !Nat.eqb_eq. split.
  - intros (((A & B) & C) & D). split; [exact A|]. split; [intros k ->; now apply Nat.eqb_eq|]. split; [exact C|]. intros ->. destruct D as [D|D]; [discriminate|exact D].
  - intros (A & B & C & D). split; [split; [split; [exact A|]|exact C]|].
    + destruct maker as [k|]; [apply Nat.eqb_eq; auto|reflexivity].
    + destruct any; [left; reflexivity|right; auto].
Qed.

(** * Theorems *)
(** C218: the result is the beginning, as long as asked for, of a ranking of exactly the
    suitable materials, best score first. *)
Theorem C218_ranking : forall ref weight maker any_type most db, exists rest,
  let found := similar_materials ref weight maker any_type most db in
  StronglySorted (fun x y => snd y <= snd x) (found ++ rest) /\
  (forall m, (exists s, In (m, s) (found ++ rest)) <-> In m db /\ suitable ref weight maker any_type m) /\
  (List.length found <= most)%nat /\ (rest = [] \/ List.length found = most).
Proof.
  intros ref weight maker any_type most db. unfold similar_materials.
  destruct (start_spec ref maker any_type db) as (O & _ & M). set (l := map _ _) in *. destruct (fold_spec ref weight traits l) as (A & B & _).
  set (full := fold_left (by_trait ref weight) traits l) in *. exists (skipn most full). cbv zeta. rewrite firstn_skipn. split; [|split; [|split]].
  - specialize (B O). clear - B. induction B as [|x r S IH F]; constructor; [exact IH|]. eapply Forall_impl; [|exact F]. intros y Y. unfold above in Y. cbn in Y. qb. lra.
  - intro m. rewrite A, M, takes_part_iff. unfold suitable. split.
    + intros ((I0 & P) & K). split; [exact I0|]. destruct P as (P1 & P2 & P3 & P4). repeat (split; [assumption|]). split; [exact (K Curie (every_trait Curie))|exact (K VolumetricLosses (every_trait VolumetricLosses))].
    + intros (I0 & P1 & P2 & P3 & P4 & P5 & P6). split; [split; [exact I0|auto]|]. intros t _ C. destruct t; cbn [value]; try discriminate; auto.
  - apply firstn_le_length.
  - rewrite firstn_length. destruct (Nat.le_gt_cases (List.length full) most) as [G|G]; [left; apply skipn_all2, G|right; lia].
Qed.
(** C219: scores lie between zero and the sum of the weights, and a material as close in
    every figure compared never scores less. *)
Theorem C219_bounds : forall ref weight maker any_type most db m s, (forall t, 0 <= weight t) -> In (m, s) (similar_materials ref weight maker any_type most db) ->
  0 <= s <= weight InitialPermeability + weight Remanence + weight CoerciveForce + weight Saturation + weight Curie + weight VolumetricLosses + weight Resistivity.
Proof.
  intros ref weight maker any_type most db m s W I0. unfold similar_materials in I0. apply firstn_in in I0.
  destruct (start_spec ref maker any_type db) as (_ & Z & _). set (l := map _ _) in *. destruct (fold_spec ref weight traits l) as (_ & _ & C & _).
  assert (CM : forall t, cmax 0 (weight t) == weight t). { intro t. apply Qle_antisym; [apply cmax_le; [apply W|apply Qle_refl]|apply cmax_ge_r]. }
  destruct (C 0 0 ltac:(intros x X; rewrite (Z x X); split; apply Qle_refl) _ I0) as (P & P'). cbn [snd] in P, P'. cbn [total traits] in P'. rewrite !CM in P'. split; lra.
Qed.
Theorem C219_dominance : forall ref weight maker any_type most db a sa b sb,
  In (a, sa) (similar_materials ref weight maker any_type most db) -> In (b, sb) (similar_materials ref weight maker any_type most db) ->
  as_close ref weight a b -> sb <= sa.
Proof.
  intros ref weight maker any_type most db a sa b sb IA IB AC. unfold similar_materials in IA, IB. apply firstn_in in IA. apply firstn_in in IB.
  destruct (start_spec ref maker any_type db) as (_ & Z & _). set (l := map _ _) in *. destruct (fold_spec ref weight traits l) as (_ & _ & _ & D).
  refine (D _ _ _ IA IB AC). intros x y X Y _. rewrite (Z x X), (Z y Y). apply Qle_refl.
Qed.
(** A material without losses is left out whatever the rest, and however small the weight
    of losses, although without that weight it comes first. *)
Theorem C218_missing_refuted : exists ref db m, (forall t, t <> VolumetricLosses -> off ref t m == 0) /\
  (forall w, 0 < w -> forall s, ~ In (m, s) (similar_materials ref (fun t => match t with VolumetricLosses => w | _ => 1 end) None true 1 db)) /\
  map fst (similar_materials ref (fun t => match t with VolumetricLosses => 0 | _ => 1 end) None true 1 db) = [m].
Proof.
  set (ref := mkMaterial 0 1 1 1 10 10 10 10 (Some 10) (Some 10) 10). set (m := mkMaterial 1 1 1 1 10 10 10 10 (Some 10) None 10).
  exists ref, [mkMaterial 2 1 1 1 20 20 20 20 (Some 20) (Some 20) 20; m], m. split; [|split].
  - intros t N. destruct t; reflexivity.
  - intros w W s I0. match type of I0 with In _ (similar_materials ?r ?wt ?mk ?ty ?k ?db) => destruct (C218_ranking r wt mk ty k db) as (rest & _ & E & _) end.
    destruct (E m) as (E1 & _). destruct E1 as (_ & _ & _ & _ & _ & _ & K); [exists s; apply in_or_app; left; exact I0|]. apply K; [|reflexivity]. split; [exact W|discriminate].
  - vm_compute. reflexivity.
Qed.

(** * Cases *)
Definition w_reference : material := mkMaterial 0 1 1 1 10 10 10 10 (Some 10) (Some 10) 10.
Definition w_materials : list material :=
  [mkMaterial 1 1 1 1 30 10 10 10 (Some 10) (Some 20) 10; mkMaterial 2 1 1 1 20 10 10 10 (Some 10) (Some 15) 10;
   mkMaterial 3 1 2 1 10 10 10 10 (Some 10) (Some 10) 10; mkMaterial 0 1 1 1 10 10 10 10 (Some 10) (Some 10) 10].
Example C218_witness : map (fun x => x_name (fst x)) (similar_materials w_reference (fun _ => 1) (Some 1%nat) false 5 w_materials) = [2; 1]%nat.
Proof. vm_compute. reflexivity. Qed.
Example C219_witness : match similar_materials w_reference (fun _ => 1) (Some 1%nat) false 5 w_materials with
  | [(a, sa); (b, sb)] => sb < sa /\ off w_reference InitialPermeability a < off w_reference InitialPermeability b
  | _ => False
  end.
Proof. vm_compute. split; reflexivity. Qed.

Print Assumptions C218_ranking.
Print Assumptions C219_bounds.
Print Assumptions C219_dominance.
Print Assumptions C218_missing_refuted.
