(** Properties of the sizes and filling factors of wires: C145 (independence of
    earlier questions), C146 (agreement with the catalogue). *)
From Coq Require Import Reals List String ZArith Bool Lia Lra Permutation.
From Verif Require Import Base WireModel WireTableModel.
Import ListNotations.
Local Open Scope outcome_scope.
Local Open Scope R_scope.

(** * Vocabulary *)
(** The answer to [q] after the questions of [history], asked of a catalogue [db]. *)
Definition answer spline (db : catalogue) (history : list query) (q : query) : outcome R :=
  fst (ask spline (after spline (fresh db) history) q).
(** No other catalogue is loaded. *)
Definition same_catalogue (history : list query) : Prop := forall db, ~ In (Replace db) history.
(** Questions about the outer size of a wire, or the area of a rectangular one. *)
Definition about_size (q : query) : Prop :=
  match q with
  | OuterRound _ _ _ | OuterRoundIns _ _ _ _ | OuterWidth _ _ _ | OuterHeight _ _ _ | RectangularArea _ _ _ => True
  | _ => False
  end.
(** Questions about the filling factor of a round wire without air around it. *)
Definition about_copper (q : query) : Prop :=
  match q with
  | FillingRound _ _ _ air | FillingRoundIns _ _ _ _ air => air = false
  | _ => False
  end.
(** No question counted the air around the wire. *)
Definition without_air (history : list query) : Prop :=
  forall q, In q history ->
    match q with
    | FillingRound _ _ _ air | FillingRoundIns _ _ _ _ air => air = false
    | _ => True
    end.

(** * Lemmas *)
Lemma key_eqb_eq : forall a b, key_eqb a b = true <-> a = b.
Proof.
  intros a b. destruct a, b; cbn; split; intro H; try discriminate; try congruence;
    repeat (rewrite andb_true_iff in *);
    repeat match goal with
           | H : _ /\ _ |- _ => destruct H
           | H : (_ =? _)%Z = true |- _ => apply Z.eqb_eq in H
           | H : String.eqb _ _ = true |- _ => apply String.eqb_eq in H
           end; subst; try reflexivity; inversion H; subst;
    rewrite ?Z.eqb_refl, ?String.eqb_refl; repeat split; reflexivity.
Qed.
Lemma key_eqb_refl : forall a, key_eqb a a = true. Proof. intro a. now apply key_eqb_eq. Qed.

Section Sort.
Context {A B : Type}.
Variable g : A -> B.
Definition under (p : R * A) : R * B := (fst p, g (snd p)).
Lemma insert_map : forall p l, map under (insert p l) = insert (under p) (map under l).
Proof.
  intros p l. induction l as [|q l IH]; [reflexivity|]. cbn [insert map].
  change (fst (under p)) with (fst p). change (fst (under q)) with (fst q).
  destruct (Rle_dec (fst p) (fst q)); [reflexivity|]. cbn [map]. now rewrite IH.
Qed.
Lemma sorted_map : forall l, map under (sorted l) = sorted (map under l).
Proof. induction l as [|p l IH]; [reflexivity|]. cbn [sorted map]. rewrite insert_map, IH. reflexivity. Qed.
Lemma distinct_map : forall l last, map under (distinct last l) = distinct last (map under l).
Proof.
  induction l as [|p l IH]; intro last; [reflexivity|]. cbn [distinct map]. change (fst (under p)) with (fst p).
  destruct last as [x|]; [destruct (Req_EM_T (fst p) x)|]; cbn [map]; now rewrite ?IH.
Qed.
Lemma last_map : forall l p, fst (last (map under l) (under p)) = fst (last l p).
Proof.
  induction l as [|q l IH]; intro p; [reflexivity|]. destruct l as [|r l]; [reflexivity|].
  change (last (map under (q :: r :: l)) (under p)) with (last (map under (r :: l)) (under p)).
  rewrite IH. reflexivity.
Qed.
End Sort.

(** Tables that say the same about the coating *)
Definition same_size (a b : outcome (option tables)) : Prop :=
  match a, b with
  | Ok (Some t), Ok (Some t') => t_min t = t_min t' /\ t_max t = t_max t' /\ t_coating t = t_coating t'
  | Ok None, Ok None => True
  | Throw e, Throw e' => e = e'
  | UB e, UB e' => e = e'
  | OutOfFuel, OutOfFuel => True
  | _, _ => False
  end.
Lemma same_size_refl : forall a, same_size a a.
Proof. intros [[t|]|e|e|]; cbn; auto. Qed.
Lemma same_size_sym : forall a b, same_size a b -> same_size b a.
Proof. intros [[t|]|e|e|] [[t'|]|e'|e'|]; cbn; intuition congruence. Qed.

Definition with_air (r : request) (air : bool) : request :=
  mkRequest (r_axis r) (r_count r) (r_grade r) (r_layers r) (r_thickness r) (r_coating r) (r_standard r) (r_kind r) air.

Lemma selected_air : forall r air e, selected (with_air r air) e = selected r e.
Proof. reflexivity. Qed.
Lemma point_air : forall r air e,
  match point_of (with_air r air) e, point_of r e with
  | Ok p, Ok q => fst p = fst q /\ fst (snd p) = fst (snd q)
  | Throw e, Throw e' => e = e'
  | UB e, UB e' => e = e'
  | OutOfFuel, OutOfFuel => True
  | _, _ => False
  end.
Proof.
  intros r air e. unfold point_of. cbn [r_axis r_kind r_air with_air].
  destruct (match r_axis r with Diameter => value (e_outer_diameter e) | Width => value (e_outer_width e)
            | Height => value (e_outer_height e) end) as [o|x|x|]; cbn [bind]; auto.
  destruct (match r_kind r with
            | Litz => _
            | _ => _ end) as [d|x|x|]; cbn [bind]; auto.
  destruct (value (e_count e)) as [n|x|x|]; cbn [bind]; auto.
  destruct (r_axis r); cbn [bind]; auto.
  - destruct (match e_area e with Some a => Ok a | None => _ end) as [a|x|x|]; cbn [bind]; auto.
  - destruct (match e_area e with Some a => Ok a | None => _ end) as [a|x|x|]; cbn [bind]; auto.
Qed.

(** the dimension and the coating of each point *)
Definition sizes (l : list point) : list (R * R) := map (under fst) l.
Lemma points_air : forall r air db,
  match points (with_air r air) db, points r db with
  | Ok l, Ok l' => sizes l = sizes l'
  | Throw e, Throw e' => e = e'
  | UB e, UB e' => e = e'
  | OutOfFuel, OutOfFuel => True
  | _, _ => False
  end.
Proof.
  intros r air db. induction db as [|e db IH]; [reflexivity|]. cbn [points]. rewrite selected_air.
  destruct (selected r e) as [b|x|x|]; cbn [bind]; auto. destruct b; [|exact IH].
  pose proof (point_air r air e) as P.
  destruct (point_of (with_air r air) e) as [p|x|x|], (point_of r e) as [q|y|y|]; cbn [bind]; try contradiction; auto.
  destruct (points (with_air r air) db) as [l|x|x|], (points r db) as [l'|y|y|]; cbn [bind]; try contradiction; auto.
  unfold sizes in *. cbn [map]. rewrite IH. destruct P as (P1 & P2). unfold under. now rewrite P1, P2.
Qed.

Lemma build_air : forall spline r air db, same_size (build spline (with_air r air) db) (build spline r db).
Proof.
  intros spline r air db. unfold build. pose proof (points_air r air db) as P.
  destruct (points (with_air r air) db) as [l|x|x|], (points r db) as [l'|y|y|]; cbn [bind]; try contradiction; auto.
  assert (S : map (under fst) (sorted l) = map (under fst) (sorted l')).
  { rewrite !sorted_map. unfold sizes in P. now rewrite P. }
  destruct (sorted l) as [|p s] eqn:E, (sorted l') as [|p' s'] eqn:E'; try discriminate S; [exact I|].
  cbn [same_size t_min t_max t_coating].
  assert (Hd : under fst p = under fst p') by (cbn in S; congruence).
  split; [unfold under in Hd; congruence|]. split.
  - rewrite <- (last_map fst (p :: s) p), <- (last_map fst (p' :: s') p'). rewrite S, Hd. reflexivity.
  - change (fun q : R * (R * R) => (fst q, fst (snd q))) with (fun q : R * (R * R) => @under (R * R) R fst q).
    f_equal. rewrite !(distinct_map fst). now rewrite S.
Qed.

(** The thicknesses that insulated round wires can have are told apart by the key. *)
Lemma Int_part_half : forall z, Int_part (IZR z + 1 / 2) = z.
Proof.
  intro z. destruct (base_Int_part (IZR z + 1 / 2)) as (A & B).
  assert (Int_part (IZR z + 1 / 2) < z + 1)%Z by (apply lt_IZR; rewrite plus_IZR; lra).
  assert (z < Int_part (IZR z + 1 / 2) + 1)%Z by (apply lt_IZR; rewrite plus_IZR; lra). lia.
Qed.
Lemma shown_known : forall t t', known_thickness t = true -> known_thickness t' = true -> shown t = shown t' -> t = t'.
Proof.
  assert (V : forall t, known_thickness t = true -> exists z, t * 1000000000000 = IZR z).
  { intros t H. unfold known_thickness in H. rewrite !orb_true_iff in H. unfold reqb in H.
    destruct H as [[[[H|H]|H]|H]|H]; destruct (Req_EM_T t _) as [->|]; try discriminate.
    - exists 50800000%Z. lra.
    - exists 76200000%Z. lra.
    - exists 38100000%Z. lra.
    - exists 25400000%Z. lra.
    - exists 127000000%Z. lra. }
  intros t t' H H' E. destruct (V t H) as (z & Z), (V t' H') as (z' & Z'). unfold shown in E.
  rewrite Z, Z', !Int_part_half in E. subst z'. lra.
Qed.

(** What can be filed under a key. *)
Definition files (k : key) (r : request) : Prop :=
  match k with
  | KRound g s => exists air, r = round_request g s air
  | KRoundIns l z s => exists t air, known_thickness t = true /\ shown t = z /\ r = round_ins_request l t s air
  | KWidth g s => r = mkRequest Width 1 (Some g) None None (Some Enamelled) None Rectangular false
  | KHeight g s => r = mkRequest Height 1 (Some g) None None (Some Enamelled) None Rectangular false
  | KLitz _ _ | KLitzIns _ _ _ => r_kind r = Litz
  end.

Section History.
Variable spline : list (R * R) -> R -> R.
Variable db : catalogue.

Definition well_filed (s : state) : Prop :=
  database s = db
  /\ (forall k t, lookup k (filed s) = Some t -> exists r, files k r /\ build spline r db = Ok (Some t))
  /\ (forall k p, slookup k (areas s) = Some p -> build_area spline (Some k) db = Ok (Some p)).

Lemma tables_for_filed : forall s k r, well_filed s -> files k r -> well_filed (snd (tables_for spline s k r)).
Proof.
  intros s k r (D & F & A) K. unfold tables_for. destruct (lookup k (filed s)) eqn:L; [repeat split; assumption|].
  rewrite D. destruct (build spline r db) as [[t|]|e|e|] eqn:B; cbn [snd]; try (repeat split; assumption).
  split; [reflexivity|]. split; [|exact A]. cbn [filed lookup]. intros k' t' H.
  destruct (key_eqb k' k) eqn:E; [|exact (F k' t' H)]. apply key_eqb_eq in E. subst k'.
  injection H as <-. exists r. split; assumption.
Qed.

Lemma filling_state : forall s k r x, snd (filling_factor spline s k r x) = snd (tables_for spline s k r).
Proof. intros s k r x. unfold filling_factor. destruct (tables_for spline s k r) as [o s']. reflexivity. Qed.
Definition outer_request (r : request) : request :=
  match r_kind r with
  | Rectangular | Foil | Planar =>
      mkRequest (r_axis r) (r_count r) (r_grade r) (r_layers r) (r_thickness r) (r_coating r) None (r_kind r) false
  | _ => mkRequest (r_axis r) (r_count r) (r_grade r) (r_layers r) (r_thickness r) (r_coating r) (r_standard r) (r_kind r) false
  end.
Lemma outer_state : forall s k r x, snd (outer_dimension spline s k r x) = snd (tables_for spline s k (outer_request r)).
Proof.
  intros s k r x. unfold outer_dimension. fold (outer_request r).
  destruct (tables_for spline s k (outer_request r)) as [o s']. reflexivity.
Qed.

Lemma checks_known : forall l t, insulated_checks l t = None -> known_thickness t = true.
Proof. intros l t. unfold insulated_checks. destruct (_ || _)%bool; [discriminate|]. destruct (known_thickness t); [reflexivity | discriminate]. Qed.

Lemma ask_filed : forall s q, (forall d, q <> Replace d) -> well_filed s -> well_filed (snd (ask spline s q)).
Proof.
  intros s q N W. destruct q; cbn [ask].
  - rewrite filling_state. apply tables_for_filed; [exact W|]. cbn. eauto.
  - rewrite outer_state. apply tables_for_filed; [exact W|]. exists false. reflexivity.
  - destruct (insulated_checks layers thickness) eqn:C; [exact W|]. rewrite filling_state. apply tables_for_filed; [exact W|].
    exists thickness, air. split; [exact (checks_known _ _ C)|]. split; reflexivity.
  - destruct (insulated_checks layers thickness) eqn:C; [exact W|]. rewrite outer_state. apply tables_for_filed; [exact W|].
    exists thickness, false. split; [exact (checks_known _ _ C)|]. split; reflexivity.
  - rewrite filling_state. apply tables_for_filed; [exact W | reflexivity].
  - rewrite filling_state. apply tables_for_filed; [exact W | reflexivity].
  - unfold packing_factor. destruct (lookup _ (packed s)); [exact W|].
    destruct (build_packing _ _ _ _ _ _ _) as [[t|]|e|e|]; try exact W.
  - rewrite outer_state. apply tables_for_filed; [exact W | reflexivity].
  - rewrite outer_state. apply tables_for_filed; [exact W | reflexivity].
  - destruct (slookup standard (areas s)) eqn:L; [exact W|]. destruct W as (D & F & A).
    rewrite D. destruct (build_area spline (Some standard) db) as [[t|]|e|e|] eqn:B; cbn [snd]; try (repeat split; assumption).
    split; [reflexivity|]. split; [exact F|]. cbn [areas slookup]. intros k p H.
    destruct (String.eqb_spec k standard) as [->|]; [|exact (A k p H)]. injection H as <-. exact B.
  - exfalso. exact (N db0 eq_refl).
Qed.

Lemma after_filed : forall history s, same_catalogue history -> well_filed s -> well_filed (after spline s history).
Proof.
  induction history as [|q history IH]; intros s N W; [exact W|]. cbn [after]. apply IH.
  - intros d I. exact (N d (or_intror I)).
  - apply ask_filed; [|exact W]. intros d ->. exact (N d (or_introl eq_refl)).
Qed.

Lemma fresh_filed : well_filed (fresh db).
Proof. repeat split; cbn; intros; discriminate. Qed.

(** Under the keys of sizes all the tables agree. *)
Definition sized (k : key) : Prop :=
  match k with KLitz _ _ | KLitzIns _ _ _ => False | _ => True end.
Lemma files_same : forall k r r', sized k -> files k r -> files k r' -> same_size (build spline r db) (build spline r' db).
Proof.
  intros k r r' S F F'. destruct k as [g s|l z s|g s|l z s|g s|g s]; try contradiction; cbn [files] in F, F'.
  - destruct F as (air & ->), F' as (air' & ->).
    change (round_request g s air) with (with_air (round_request g s air') air). apply build_air.
  - destruct F as (t & air & K & Z & ->), F' as (t' & air' & K' & Z' & ->).
    rewrite (shown_known t t' K K' ltac:(congruence)).
    change (round_ins_request l t' s air) with (with_air (round_ins_request l t' s air') air). apply build_air.
  - subst. apply same_size_refl.
  - subst. apply same_size_refl.
Qed.

Lemma tables_for_same : forall s k r, well_filed s -> sized k -> files k r ->
  same_size (fst (tables_for spline s k r)) (build spline r db).
Proof.
  intros s k r (D & F & A) S K. unfold tables_for. destruct (lookup k (filed s)) as [t|] eqn:L.
  - destruct (F k t L) as (r' & K' & B). cbn [fst]. rewrite <- B. apply files_same with k; assumption.
  - rewrite D. destruct (build spline r db) as [[t|]|e|e|]; cbn; auto.
Qed.

Lemma outer_same : forall s s' k r x, well_filed s -> well_filed s' -> sized k -> files k (outer_request r) ->
  fst (outer_dimension spline s k r x) = fst (outer_dimension spline s' k r x).
Proof.
  intros s s' k r x W W' S K. unfold outer_dimension. fold (outer_request r).
  pose proof (tables_for_same s k _ W S K) as T. pose proof (tables_for_same s' k _ W' S K) as T'.
  destruct (tables_for spline s k (outer_request r)) as [o u], (tables_for spline s' k (outer_request r)) as [o' u'].
  cbn [fst] in *. destruct (build spline (outer_request r) db) as [[t|]|e|e|];
    destruct o as [[v|]|y|y|], o' as [[v'|]|y'|y'|]; cbn in T, T' |- *; try contradiction; try congruence.
  destruct T as (T1 & T2 & T3), T' as (T1' & T2' & T3'). rewrite T1, T2, T3, T1', T2', T3'. reflexivity.
Qed.

Lemma size_same : forall s s' q, about_size q -> well_filed s -> well_filed s' ->
  fst (ask spline s q) = fst (ask spline s' q).
Proof.
  intros s s' q Q W W'. destruct q; cbn [about_size] in Q; try contradiction; cbn [ask].
  - apply outer_same; [exact W | exact W' | exact I | exists false; reflexivity].
  - destruct (insulated_checks layers thickness) eqn:C; [reflexivity|].
    apply outer_same; [exact W | exact W' | exact I|].
    exists thickness, false. split; [exact (checks_known _ _ C)|]. split; reflexivity.
  - apply outer_same; [exact W | exact W' | exact I | reflexivity].
  - apply outer_same; [exact W | exact W' | exact I | reflexivity].
  - destruct W as (D & _ & A), W' as (D' & _ & A'). rewrite D, D'.
    destruct (slookup standard (areas s)) as [p|] eqn:L; [pose proof (A _ _ L) as B|];
      (destruct (slookup standard (areas s')) as [p'|] eqn:L'; [pose proof (A' _ _ L') as B'|]).
    + rewrite B in B'. injection B' as <-. reflexivity.
    + rewrite B. reflexivity.
    + rewrite B'. reflexivity.
    + destruct (build_area spline (Some standard) db) as [[t|]|e|e|]; reflexivity.
Qed.
End History.

(** * C145 *)
(** C145.  The outer sizes of round and rectangular wires and the areas of
    rectangular ones do not depend on what was asked before, by whoever, as long as
    no other catalogue is loaded. *)
Theorem C145_sizes : forall spline db history q, same_catalogue history -> about_size q ->
  answer spline db history q = answer spline db [] q.
Proof.
  intros spline db history q N Q. unfold answer. apply size_same with db; [exact Q| |].
  - apply after_filed; [exact N | apply fresh_filed].
  - apply fresh_filed.
Qed.

Section Dry.
Variable spline : list (R * R) -> R -> R.
Variable db : catalogue.

(** Nothing of round wires was built with the air around them. *)
Definition dry (s : state) : Prop :=
  database s = db
  /\ forall k t, lookup k (filed s) = Some t ->
       match k with
       | KRound g std => build spline (round_request g std false) db = Ok (Some t)
       | KRoundIns l z std => exists th, known_thickness th = true /\ shown th = z
           /\ build spline (round_ins_request l th std false) db = Ok (Some t)
       | _ => True
       end.

Lemma tables_for_dry : forall s k r, dry s ->
  match k with
  | KRound g std => r = round_request g std false
  | KRoundIns l z std => exists th, known_thickness th = true /\ shown th = z /\ r = round_ins_request l th std false
  | _ => True
  end -> dry (snd (tables_for spline s k r)).
Proof.
  intros s k r (D & F) K. unfold tables_for. destruct (lookup k (filed s)) eqn:L; [split; assumption|].
  rewrite D. destruct (build spline r db) as [[t|]|e|e|] eqn:B; cbn [snd]; try (split; assumption).
  split; [reflexivity|]. cbn [filed lookup]. intros k' t' H.
  destruct (key_eqb k' k) eqn:E; [|exact (F k' t' H)]. apply key_eqb_eq in E. subst k'. injection H as <-.
  destruct k; auto; [now subst r|]. destruct K as (th & K1 & K2 & ->). eauto.
Qed.

Lemma ask_dry : forall s q, (forall d, q <> Replace d) -> without_air [q] -> dry s -> dry (snd (ask spline s q)).
Proof.
  intros s q N A W. specialize (A q (or_introl eq_refl)). destruct q; cbn [ask].
  - subst air. rewrite filling_state. apply tables_for_dry; [exact W | reflexivity].
  - rewrite outer_state. apply tables_for_dry; [exact W | reflexivity].
  - subst air. destruct (insulated_checks layers thickness) eqn:C; [exact W|]. rewrite filling_state.
    apply tables_for_dry; [exact W|]. exists thickness. split; [exact (checks_known _ _ C)|]. split; reflexivity.
  - destruct (insulated_checks layers thickness) eqn:C; [exact W|]. rewrite outer_state.
    apply tables_for_dry; [exact W|]. exists thickness. split; [exact (checks_known _ _ C)|]. split; reflexivity.
  - rewrite filling_state. apply tables_for_dry; [exact W | exact I].
  - rewrite filling_state. apply tables_for_dry; [exact W | exact I].
  - unfold packing_factor. destruct (lookup _ (packed s)); [exact W|].
    destruct (build_packing _ _ _ _ _ _ _) as [[t|]|e|e|]; exact W.
  - rewrite outer_state. apply tables_for_dry; [exact W | exact I].
  - rewrite outer_state. apply tables_for_dry; [exact W | exact I].
  - destruct (slookup standard (areas s)); [exact W|].
    destruct (build_area spline (Some standard) (database s)) as [[t|]|e|e|]; exact W.
  - exfalso. exact (N db0 eq_refl).
Qed.

Lemma after_dry : forall history s, same_catalogue history -> without_air history -> dry s -> dry (after spline s history).
Proof.
  induction history as [|q history IH]; intros s N A W; [exact W|]. cbn [after]. apply IH.
  - intros d I. exact (N d (or_intror I)).
  - intros q' I. exact (A q' (or_intror I)).
  - apply ask_dry; [|intros q' [<-|[]]; exact (A q (or_introl eq_refl)) | exact W]. intros d ->. exact (N d (or_introl eq_refl)).
Qed.

Lemma filling_dry : forall s s' k r x, dry s -> dry s' ->
  match k with
  | KRound g std => r = round_request g std false
  | KRoundIns l z std => exists th, known_thickness th = true /\ shown th = z /\ r = round_ins_request l th std false
  | _ => False
  end -> fst (filling_factor spline s k r x) = fst (filling_factor spline s' k r x).
Proof.
  intros s s' k r x (D & F) (D' & F') K.
  assert (G : forall s, database s = db -> (forall k t, lookup k (filed s) = Some t ->
       match k with
       | KRound g std => build spline (round_request g std false) db = Ok (Some t)
       | KRoundIns l z std => exists th, known_thickness th = true /\ shown th = z
           /\ build spline (round_ins_request l th std false) db = Ok (Some t)
       | _ => True
       end) -> fst (tables_for spline s k r) = build spline r db).
  { intros u Du Fu. unfold tables_for. destruct (lookup k (filed u)) as [t|] eqn:L.
    - specialize (Fu k t L). cbn [fst]. destruct k; try contradiction; [now subst r|].
      destruct K as (th & K1 & K2 & ->), Fu as (th' & K1' & K2' & B).
      rewrite (shown_known th th' K1 K1' ltac:(congruence)). congruence.
    - rewrite Du. destruct (build spline r db) as [[t|]|e|e|]; reflexivity. }
  unfold filling_factor. pose proof (G s D F) as T. pose proof (G s' D' F') as T'.
  destruct (tables_for spline s k r) as [o u], (tables_for spline s' k r) as [o' u']. cbn [fst] in *. congruence.
Qed.
End Dry.

(** C145.  The filling factors of round wires, the air around them not counted, do
    not depend on earlier questions among which none counted the air.  Partial: the
    others depend on them, see below. *)
Theorem C145_filling_partial : forall spline db history q, same_catalogue history -> without_air history ->
  about_copper q -> answer spline db history q = answer spline db [] q.
Proof.
  intros spline db history q N A Q. unfold answer.
  assert (F0 : dry spline db (fresh db)) by (split; [reflexivity | intros k t H; discriminate H]).
  pose proof (after_dry spline db history (fresh db) N A F0) as W. cbn [after].
  destruct q; cbn [about_copper] in Q; try contradiction; subst air; cbn [ask].
  - apply filling_dry with db; [exact W | exact F0 | reflexivity].
  - destruct (insulated_checks layers thickness) eqn:C; [reflexivity|].
    apply filling_dry with db; [exact W | exact F0|]. exists thickness. split; [exact (checks_known _ _ C)|]. split; reflexivity.
Qed.

Lemma first_wins : forall spline db k r x v r' x',
  fst (filling_factor spline (fresh db) k r x) = Ok v ->
  fst (filling_factor spline (snd (filling_factor spline (fresh db) k r x)) k r' x')
  = fst (filling_factor spline (fresh db) k r x').
Proof.
  intros spline db k r x v r' x' H. rewrite filling_state. unfold filling_factor in *. unfold tables_for in *.
  cbn [lookup filed fresh database] in *. destruct (build spline r db) as [[t|]|e|e|]; cbn [fst snd bind] in *; try discriminate.
  cbn [lookup filed]. rewrite key_eqb_refl. reflexivity.
Qed.

(** C145, refuted for filling factors.  The first question about a grade decides for
    all the later ones whether the air is counted, how many layers of serving there
    are, and of what grade the strands: they get the answer to their own diameter
    with the options of the first. *)
Theorem C145_filling_refuted : forall spline db d d' std v,
  (forall g a a', answer spline db [] (FillingRound d g std a) = Ok v ->
     answer spline db [FillingRound d g std a] (FillingRound d' g std a')
     = answer spline db [] (FillingRound d' g std a))
  /\ (forall n n' g l l' a a', answer spline db [] (FillingServed d n g l std a) = Ok v ->
     answer spline db [FillingServed d n g l std a] (FillingServed d' n' g l' std a')
     = answer spline db [] (FillingServed d' n g l std a))
  /\ (forall n n' l t g g' a a', answer spline db [] (FillingLitzIns d n l t g std a) = Ok v ->
     answer spline db [FillingLitzIns d n l t g std a] (FillingLitzIns d' n' l t g' std a')
     = answer spline db [] (FillingLitzIns d' n l t g std a)).
Proof.
  intros spline db d d' std v. unfold answer. cbn [after ask]. repeat split; intros; eapply first_wins; eassumption.
Qed.

(** The same for the packing factor of insulated litz, which gives its outer
    diameter: the grade of the strands is the one of the first question. *)
Theorem C145_packing_refuted : forall spline db n n' l t g g' std v, v <> 0 ->
  answer spline db [] (PackingLitzIns n l t g std) = Ok v ->
  answer spline db [PackingLitzIns n l t g std] (PackingLitzIns n' l t g' std)
  = answer spline db [] (PackingLitzIns n' l t g std).
Proof.
  intros spline db n n' l t g g' std v V. unfold answer. cbn [after ask]. unfold packing_factor.
  cbn [lookup packed fresh database].
  destruct (build_packing spline (Some g) _ _ _ _ db) as [[p|]|e|e|]; cbn [fst snd]; try discriminate.
  - intros _. cbn [packed lookup]. rewrite key_eqb_refl. reflexivity.
  - intros H. injection H as <-. congruence.
Qed.

(** After another catalogue is loaded, the sizes that were asked for before are
    still the ones of the old catalogue. *)
Theorem C145_catalogue_refuted : forall spline db db' d d' g std v,
  answer spline db [] (OuterRound d g std) = Ok v ->
  answer spline db [OuterRound d g std; Replace db'] (OuterRound d' g std) = answer spline db [] (OuterRound d' g std).
Proof.
  intros spline db db' d d' g std v. unfold answer. cbn [after ask]. unfold outer_dimension. cbn [round_request r_kind r_axis r_count r_grade r_layers r_thickness r_coating r_standard].
  unfold tables_for. cbn [lookup filed fresh database snd].
  destruct (build spline _ db) as [[t|]|e|e|]; cbn [fst snd bind]; try discriminate.
  intros _. cbn [filed lookup]. rewrite key_eqb_refl. reflexivity.
Qed.

(** * C146 *)
Lemma ok_same : forall (a b : R), Ok a = Ok b -> a = b.
Proof. intros a b H. now injection H. Qed.
(** The interpolator passes through its points, in increasing order. *)
Fixpoint increasing {A : Type} (l : list (R * A)) : Prop :=
  match l with
  | p :: ((q :: _) as r) => fst p < fst q /\ increasing r
  | _ => True
  end.
Definition through (spline : list (R * R) -> R -> R) : Prop :=
  forall l x y, increasing l -> In (x, y) l -> spline l x = y.
(** Its values stay above any bound of its points. *)
Definition above_points (spline : list (R * R) -> R -> R) : Prop :=
  forall l b x, l <> [] -> (forall p, In p l -> b <= snd p) -> b <= spline l x.

Fixpoint rising {A : Type} (l : list (R * A)) : Prop :=
  match l with
  | p :: ((q :: _) as r) => fst p <= fst q /\ rising r
  | _ => True
  end.
Lemma insert_perm : forall A (p : R * A) l, Permutation (p :: l) (insert p l).
Proof.
  intros A p l. induction l as [|q l IH]; [apply Permutation_refl|]. cbn [insert].
  destruct (Rle_dec (fst p) (fst q)); [apply Permutation_refl|].
  eapply Permutation_trans; [apply perm_swap|]. apply perm_skip, IH.
Qed.
Lemma sorted_perm : forall A (l : list (R * A)), Permutation l (sorted l).
Proof.
  intros A l. induction l as [|p l IH]; [constructor|]. cbn [sorted].
  eapply Permutation_trans; [apply perm_skip, IH | apply insert_perm].
Qed.
Lemma insert_rising : forall A (p : R * A) l, rising l -> rising (insert p l).
Proof.
  intros A p l. induction l as [|q l IH]; intro H; [exact I|]. cbn [insert].
  destruct (Rle_dec (fst p) (fst q)) as [L|L]; [split; assumption|].
  destruct l as [|r l].
  - cbn. split; [lra | exact I].
  - cbn [insert] in *. destruct H as (H1 & H2). specialize (IH H2).
    destruct (Rle_dec (fst p) (fst r)); cbn; split; try assumption; try lra. 
Qed.
Lemma sorted_rising : forall A (l : list (R * A)), rising (sorted l).
Proof. intros A l. induction l as [|p l IH]; [exact I|]. cbn [sorted]. apply insert_rising, IH. Qed.

Lemma distinct_in : forall A (l : list (R * A)) last p, In p (distinct last l) -> In p l.
Proof.
  intros A l. induction l as [|q l IH]; intros last p; [auto|]. cbn [distinct].
  destruct last as [x|]; [destruct (Req_EM_T (fst q) x)|]; cbn [In]; intros; intuition eauto.
Qed.
Lemma distinct_covers : forall A (l : list (R * A)) last p, In p l -> Some (fst p) <> last ->
  exists q, In q (distinct last l) /\ fst q = fst p.
Proof.
  intros A l. induction l as [|q l IH]; intros last p H N; [destruct H|]. cbn [distinct].
  assert (G : In p (q :: l) -> exists q0, (q = q0 \/ In q0 (distinct (Some (fst q)) l)) /\ fst q0 = fst p).
  { intros [->|I]; [exists p; auto|]. destruct (Req_EM_T (fst p) (fst q)) as [E|E]; [exists q; auto|].
    destruct (IH (Some (fst q)) p I ltac:(congruence)) as (r & I' & E'). exists r. auto. }
  destruct last as [x|]; [destruct (Req_EM_T (fst q) x) as [E|E]|].
  - destruct H as [->|I]; [congruence|]. apply IH; assumption.
  - exact (G H).
  - exact (G H).
Qed.
Lemma distinct_increasing : forall A (l : list (R * A)), rising l ->
  forall last, (forall x p, last = Some x -> In p l -> x <= fst p) ->
  increasing (distinct last l) /\ (forall x p, last = Some x -> In p (distinct last l) -> x < fst p).
Proof.
  intros A l. induction l as [|q l IH]; intros H last B; [split; [exact I | intros x p _ []]|].
  assert (Hl : rising l) by (destruct l; [exact I | apply H]).
  assert (Hq : forall p, In p l -> fst q <= fst p).
  { clear IH B. revert q H. induction l as [|r l IH]; intros q H p; [intros []|]. destruct H as (H1 & H2).
    intros [->|I]; [exact H1|]. specialize (IH ltac:(destruct l; [exact Logic.I | apply H2])). specialize (IH r H2 p I). lra. }
  cbn [distinct].
  assert (G : increasing (q :: distinct (Some (fst q)) l)).
  { destruct (IH Hl (Some (fst q))) as (A1 & A2); [intros x p E I; injection E as <-; apply Hq, I|].
    destruct (distinct (Some (fst q)) l) as [|r m] eqn:E; [exact I|]. split; [|exact A1].
    apply (A2 (fst q) r eq_refl). left. reflexivity. }
  destruct last as [x|].
  - destruct (Req_EM_T (fst q) x) as [E|E].
    + subst x. apply IH; [exact Hl|]. intros x p E I. injection E as <-. apply Hq, I.
    + split; [exact G|]. intros x' p E' I. injection E' as <-.
      pose proof (B x q eq_refl (or_introl eq_refl)) as Bq. destruct I as [->|I]; [lra|].
      apply distinct_in in I. pose proof (Hq p I). lra.
  - split; [exact G|]. discriminate.
Qed.

Lemma last_in : forall A (l : list A) d, l <> [] -> In (last l d) l.
Proof.
  intros A l d. induction l as [|a l IH]; intro H; [congruence|]. destruct l as [|b l]; [left; reflexivity|].
  right. apply IH. discriminate.
Qed.
Lemma rising_first : forall A (l : list (R * A)) p q, rising (p :: l) -> In q (p :: l) -> fst p <= fst q.
Proof.
  intros A l. induction l as [|r l IH]; intros p q H [->|I]; try lra; [destruct I|].
  destruct H as (H1 & H2). pose proof (IH r q H2 I). lra.
Qed.
Lemma rising_last : forall A (l : list (R * A)) d q, rising l -> In q l -> fst q <= fst (last l d).
Proof.
  intros A l d. induction l as [|r l IH]; intros q H I; [destruct I|].
  destruct l as [|r' l]; [destruct I as [->|[]]; cbn; lra|].
  change (last (r :: r' :: l) d) with (last (r' :: l) d). destruct I as [<-|I].
  - destruct H as (H1 & H2). pose proof (IH r' H2 (or_introl eq_refl)). lra.
  - apply IH; [apply H | exact I].
Qed.

Lemma points_in : forall r db l p, points r db = Ok l -> In p l ->
  exists e, In e db /\ selected r e = Ok true /\ point_of r e = Ok p.
Proof.
  intros r db. induction db as [|e db IH]; intros l p H I; cbn [points] in H.
  - injection H as <-. destruct I.
  - destruct (selected r e) as [[|]|x|x|] eqn:S; cbn [bind] in H; try discriminate.
    + destruct (point_of r e) as [q|x|x|] eqn:P; cbn [bind] in H; try discriminate.
      destruct (points r db) as [m|x|x|] eqn:M; cbn [bind] in H; try discriminate. injection H as <-.
      destruct I as [->|I]; [exists e; repeat split; auto; left; reflexivity|].
      destruct (IH m p eq_refl I) as (e' & A & B). exists e'. split; [right; exact A | exact B].
    + destruct (IH l p H I) as (e' & A & B). exists e'. split; [right; exact A | exact B].
Qed.
Lemma points_all : forall r db l e, points r db = Ok l -> In e db -> selected r e = Ok true ->
  exists p, point_of r e = Ok p /\ In p l.
Proof.
  intros r db. induction db as [|e' db IH]; intros l e H I S; [destruct I|]. cbn [points] in H.
  destruct (selected r e') as [b|x|x|] eqn:S'; cbn [bind] in H; try discriminate. destruct b.
  - destruct (point_of r e') as [q|x|x|] eqn:P; cbn [bind] in H; try discriminate.
    destruct (points r db) as [m|x|x|] eqn:M; cbn [bind] in H; try discriminate. injection H as <-.
    destruct I as [->|I]; [exists q; split; [exact P | left; reflexivity]|].
    destruct (IH m e eq_refl I S) as (p & A & B). exists p. split; [exact A | right; exact B].
  - destruct I as [->|I]; [congruence|]. exact (IH l e H I S).
Qed.

(** Wires of the catalogue that an enamelled round wire of this grade is sized by. *)
Definition enamelled (g : Z) (std : string) (e : entry) (d o : R) : Prop :=
  e_kind e = RoundWire /\ e_standard e = Some std /\ e_diameter e = Some d /\ e_outer_diameter e = Some o
  /\ (exists c, e_coat e = Some c /\ c_type c = Some Enamelled /\ c_grade c = Some g)
  /\ exists n, e_count e = Some n.
(** All the enamelled round wires of the catalogue are complete. *)
Definition complete (db : catalogue) : Prop := forall e c, In e db -> e_kind e = RoundWire -> e_coat e = Some c ->
  c_type c <> None /\ e_count e <> None /\ e_diameter e <> None /\ e_outer_diameter e <> None.

Lemma enamelled_selected : forall g std air e d o, enamelled g std e d o -> selected (round_request g std air) e = Ok true
  /\ exists f, point_of (round_request g std air) e = Ok (d, ((o - d) / 2 / d, f)).
Proof.
  intros g std air e d o (K & S & D & O & (c & C & T & G) & (n & N)). split.
  - unfold selected. cbn [r_kind r_standard r_layers r_thickness r_count r_grade r_coating round_request].
    rewrite K, C. cbn [same_kind negb]. unfold skipped. rewrite S. cbn [has negb andb orb Nat.ltb Nat.leb bind].
    unfold grade_part. rewrite G. cbn [zis bind]. rewrite Z.eqb_refl. cbn [andb andalso].
    unfold other_parts, agrees, value. rewrite T, S. cbn [required bind andalso same_coating]. now rewrite String.eqb_refl.
  - unfold point_of. cbn [r_axis r_kind r_air round_request]. unfold value. rewrite D, O, N. cbn [required bind].
    eexists. reflexivity.
Qed.
Lemma selected_enamelled : forall g std air e p, selected (round_request g std air) e = Ok true ->
  point_of (round_request g std air) e = Ok p -> exists o, enamelled g std e (fst p) o /\ fst (snd p) = (o - fst p) / 2 / fst p.
Proof.
  intros g std air e p H P. unfold selected in H.
  cbn [r_kind r_standard r_layers r_thickness r_count r_grade r_coating round_request] in H.
  destruct (same_kind (e_kind e) RoundWire) eqn:K; cbn [negb] in H; [|discriminate].
  destruct (e_coat e) as [c|] eqn:C; [|discriminate]. unfold skipped in H. cbn [has negb andb orb Nat.ltb Nat.leb bind] in H.
  destruct (e_standard e) as [s|] eqn:S; cbn [has negb andb orb] in H; [|discriminate].
  unfold grade_part in H. destruct (c_grade c) as [x|] eqn:G; cbn [zis bind same_kind] in H; [|discriminate].
  destruct (Z.eqb_spec x g) as [->|]; cbn [andb andalso] in H; [|discriminate].
  unfold other_parts, agrees, value in H. rewrite S in H. destruct (c_type c) as [y|] eqn:T; cbn [required bind andalso] in H; [|discriminate].
  destruct y; cbn [same_coating bind andalso] in H; try discriminate.
  destruct (String.eqb_spec s std) as [->|]; [|discriminate].
  unfold point_of in P. cbn [r_axis r_kind r_air round_request] in P. unfold value in P.
  destruct (e_outer_diameter e) as [o|] eqn:O; cbn [required bind] in P; [|discriminate].
  destruct (e_diameter e) as [d|] eqn:D; cbn [required bind] in P; [|discriminate].
  destruct (e_count e) as [n|] eqn:N; cbn [required bind] in P; [|discriminate]. injection P as <-. cbn [fst snd].
  exists o. split; [|reflexivity]. repeat split; auto; [destruct (e_kind e); try discriminate; reflexivity| |]; eauto.
Qed.

Lemma complete_points : forall g std air db, complete db -> exists l, points (round_request g std air) db = Ok l.
Proof.
  intros g std air db. induction db as [|e db IH]; intro Cm; [exists []; reflexivity|].
  assert (Cm' : complete db) by (intros e' c I; apply Cm; right; exact I). destruct (IH Cm') as (l & L).
  cbn [points].
  assert (S : exists b, selected (round_request g std air) e = Ok b).
  { unfold selected. cbn [r_kind r_standard r_layers r_thickness r_count r_grade r_coating round_request].
    destruct (same_kind (e_kind e) RoundWire) eqn:K; cbn [negb]; [|eauto].
    destruct (e_coat e) as [c|] eqn:C; [|eauto]. unfold skipped. cbn [has negb andb orb Nat.ltb Nat.leb bind].
    destruct (e_standard e) as [s|] eqn:S; cbn [has negb andb orb]; [|eauto].
    unfold grade_part. cbn [same_kind bind]. unfold andalso at 1. destruct (_ && _)%bool; [|eauto].
    unfold other_parts, agrees, value. rewrite S.
    destruct (Cm e c (or_introl eq_refl) ltac:(destruct (e_kind e); try discriminate; reflexivity) C) as (T & _).
    destruct (c_type c); [|congruence]. cbn [required bind andalso]. destruct (same_coating _ _); cbn [bind andalso]; eauto. }
  destruct S as (b & S). rewrite S. cbn [bind]. destruct b; [|eauto].
  assert (P : exists p, point_of (round_request g std air) e = Ok p).
  { unfold selected in S. cbn [r_kind round_request] in S. destruct (same_kind (e_kind e) RoundWire) eqn:K; cbn [negb] in S; [|discriminate].
    destruct (e_coat e) as [c|] eqn:C; [|discriminate].
    destruct (Cm e c (or_introl eq_refl) ltac:(destruct (e_kind e); try discriminate; reflexivity) C) as (_ & N & D & O).
    unfold point_of. cbn [r_axis r_kind r_air round_request]. unfold value.
    destruct (e_outer_diameter e); [|congruence]. destruct (e_diameter e); [|congruence]. destruct (e_count e); [|congruence].
    cbn [required bind]. eauto. }
  destruct P as (p & P). rewrite P. cbn [bind]. rewrite L. cbn [bind]. eauto.
Qed.

Lemma outer_answer : forall spline db g std x l, points (round_request g std false) db = Ok l -> l <> [] ->
  exists p s, sorted l = p :: s /\ answer spline db [] (OuterRound x g std)
    = Ok (spline (map (fun q => (fst q, fst (snd q))) (distinct None (p :: s)))
            (clamped (fst p) (fst (last (p :: s) p)) x) * x * 2 + x).
Proof.
  intros spline db g std x l P N. destruct (sorted l) as [|p s] eqn:E.
  - pose proof (sorted_perm _ l) as Q. rewrite E in Q. apply Permutation_sym, Permutation_nil in Q. contradiction (N Q).
  - exists p, s. split; [reflexivity|]. unfold answer. cbn [after ask]. unfold outer_dimension, tables_for.
    cbn [round_request r_kind r_axis r_count r_grade r_layers r_thickness r_coating r_standard lookup filed fresh database].
    fold (round_request g std false). unfold build. rewrite P. cbn [bind]. rewrite E. reflexivity.
Qed.

Lemma clamped_in : forall lo hi x, lo <= x <= hi -> clamped lo hi x = x.
Proof. intros lo hi x H. unfold clamped. cbv zeta. destruct (Rlt_dec x lo); [lra|]. destruct (Rlt_dec hi x); lra. Qed.

(** C146.  Where the catalogue has an enamelled round wire of the diameter, grade and
    standard asked for, the outer diameter is the one of such a wire. *)
Theorem C146_catalogue_size : forall spline db g std e d o, through spline -> complete db ->
  In e db -> enamelled g std e d o -> 0 < d ->
  exists e' o', In e' db /\ enamelled g std e' d o' /\ answer spline db [] (OuterRound d g std) = Ok o'.
Proof.
  intros spline db g std e d o T C I E D. destruct (complete_points g std false db C) as (l & L).
  destruct (enamelled_selected g std false e d o E) as (S & f & P).
  destruct (points_all _ _ _ _ L I S) as (p0 & P' & I0). rewrite P in P'. injection P' as <-.
  destruct (outer_answer spline db g std d l L) as (p & s & Es & A); [intros ->; destruct I0|].
  pose proof (sorted_rising _ l) as Ri. pose proof (sorted_perm _ l) as Pe. rewrite Es in Ri, Pe.
  assert (Is : In (d, ((o - d) / 2 / d, f)) (p :: s)) by (eapply Permutation_in; [exact Pe | exact I0]).
  destruct (distinct_covers _ _ None _ Is ltac:(discriminate)) as (q & Iq & Eq). cbn [fst] in Eq.
  destruct (distinct_increasing _ _ Ri None ltac:(discriminate)) as (Inc & _).
  assert (Il : In q l) by (eapply Permutation_in; [apply Permutation_sym, Pe | eapply distinct_in, Iq]).
  destruct (points_in _ _ _ _ L Il) as (e' & Ie & Se & Pe').
  destruct (selected_enamelled _ _ _ _ _ Se Pe') as (o' & En & Eo). rewrite Eq in En, Eo.
  exists e', o'. split; [exact Ie|]. split; [exact En|]. rewrite A. f_equal.
  rewrite clamped_in.
  2:{ split; [exact (rising_first _ _ _ _ Ri Is) | exact (rising_last _ _ p _ Ri Is)]. }
  rewrite (T _ d (fst (snd q))); [rewrite Eo; field; lra| |].
  - clear - Inc. induction (distinct None (p :: s)) as [|a m IH]; [exact I|].
    destruct m as [|b m]; [exact I|]. destruct Inc as (H1 & H2). split; [exact H1 | apply IH, H2].
  - apply in_map_iff. exists q. split; [rewrite Eq; reflexivity | exact Iq].
Qed.

(** C146.  The outer diameter is never below the conducting one, and always given,
    when the catalogue has some wire of the grade and standard and no such wire has
    an outer diameter below its conducting one. *)
Theorem C146_coated : forall spline db g std e d o x, above_points spline -> complete db ->
  In e db -> enamelled g std e d o -> 0 < x ->
  (forall e d o, In e db -> enamelled g std e d o -> 0 < d <= o) ->
  exists y, answer spline db [] (OuterRound x g std) = Ok y /\ x <= y.
Proof.
  intros spline db g std e d o x B C I E X H. destruct (complete_points g std false db C) as (l & L).
  destruct (enamelled_selected g std false e d o E) as (S & f & P).
  destruct (points_all _ _ _ _ L I S) as (p0 & P' & I0).
  destruct (outer_answer spline db g std x l L) as (p & s & Es & A); [intros ->; destruct I0|].
  eexists. split; [exact A|]. pose proof (sorted_perm _ l) as Pe. rewrite Es in Pe.
  set (z := clamped _ _ x). assert (0 <= spline (map (fun q => (fst q, fst (snd q))) (distinct None (p :: s))) z); [|nra].
  apply B; [cbn [distinct map]; discriminate|]. intros y Y. apply in_map_iff in Y. destruct Y as (q & <- & Iq). cbn [snd].
  assert (Il : In q l) by (eapply Permutation_in; [apply Permutation_sym, Pe | eapply distinct_in, Iq]).
  destruct (points_in _ _ _ _ L Il) as (e' & Ie & Se & Pe').
  destruct (selected_enamelled _ _ _ _ _ Se Pe') as (o' & En & Eo). rewrite Eo.
  pose proof (H e' (fst q) o' Ie En) as Q. apply Rmult_le_pos; [lra|]. left. apply Rinv_0_lt_compat. lra.
Qed.

(** C146.  Thinner than every wire of the catalogue, or thicker than every one, the
    outer diameter is in proportion to the conducting one. *)
Theorem C146_beyond : forall spline db g std e d o x x' y y', complete db ->
  In e db -> enamelled g std e d o -> 0 < x -> 0 < x' ->
  ((forall e d o, In e db -> enamelled g std e d o -> x <= d /\ x' <= d)
   \/ (forall e d o, In e db -> enamelled g std e d o -> d <= x /\ d <= x')) ->
  answer spline db [] (OuterRound x g std) = Ok y -> answer spline db [] (OuterRound x' g std) = Ok y' ->
  y / x = y' / x'.
Proof.
  intros spline db g std e d o x x' y y' C I E X X' H A A'. destruct (complete_points g std false db C) as (l & L).
  destruct (enamelled_selected g std false e d o E) as (S & f & P).
  destruct (points_all _ _ _ _ L I S) as (p0 & P' & I0).
  assert (N : l <> []) by (intros ->; destruct I0).
  destruct (outer_answer spline db g std x l L N) as (p & s & Es & B). destruct (outer_answer spline db g std x' l L N) as (p1 & s1 & Es1 & B').
  rewrite Es in Es1. injection Es1 as <- <-. rewrite A in B. rewrite A' in B'. apply ok_same in B, B'. subst y y'.
  pose proof (sorted_perm _ l) as Pe. rewrite Es in Pe.
  assert (W : forall q, In q (p :: s) -> exists e o, In e db /\ enamelled g std e (fst q) o).
  { intros q Iq. assert (Il : In q l) by (eapply Permutation_in; [apply Permutation_sym, Pe | exact Iq]).
    destruct (points_in _ _ _ _ L Il) as (e' & Ie & Se & Pe'). destruct (selected_enamelled _ _ _ _ _ Se Pe') as (o' & En & _). eauto. }
  destruct (W p (or_introl eq_refl)) as (ea & oa & Ia & Ea).
  destruct (W (last (p :: s) p) (last_in _ (p :: s) p ltac:(discriminate))) as (eb & ob & Ib & Eb).
  pose proof (sorted_rising _ l) as Ri. rewrite Es in Ri.
  pose proof (rising_last _ _ p p Ri (or_introl eq_refl)) as Rl.
  set (lo := fst p) in *. set (hi := fst (last (p :: s) p)) in *.
  assert (Q : clamped lo hi x = clamped lo hi x').
  { unfold clamped. cbv zeta. destruct H as [H|H].
    - destruct (H ea lo oa Ia Ea) as (H1 & H2). destruct (Rlt_dec x lo), (Rlt_dec x' lo); repeat (destruct (Rlt_dec hi _)); lra.
    - destruct (H eb hi ob Ib Eb) as (H1 & H2).
      destruct (Rlt_dec x lo), (Rlt_dec x' lo); repeat (destruct (Rlt_dec hi _)); lra. }
  rewrite Q. field. lra.
Qed.

(** * A small catalogue *)
Definition iec : string := "IEC 60317".
Definition enamelled_wire (d o : R) : entry :=
  mkEntry RoundWire (Some (mkCoat (Some Enamelled) (Some 1%Z) None None)) (Some iec) (Some 1%nat)
    (Some d) None None (Some o) None None None None.
Definition thin_wire := enamelled_wire (1 / 1000) (11 / 10000).
Definition thick_wire := enamelled_wire (2 / 1000) (21 / 10000).
Definition shelf : catalogue := [thick_wire; thin_wire].
(** straight lines between the points, flat outside; two points are enough here *)
Definition lines (l : list (R * R)) (x : R) : R :=
  match find (fun p => reqb (fst p) x) l with
  | Some p => snd p
  | None => match l with p :: _ => fold_left (fun a q => Rmin a (snd q)) l (snd p) | [] => 0 end
  end.
Lemma lines_through : through lines.
Proof.
  intros l x y Inc I. unfold lines. destruct (find _ l) as [p|] eqn:F.
  - apply find_some in F. destruct F as (Ip & Ep). unfold reqb in Ep. destruct (Req_EM_T (fst p) x) as [E|]; [|discriminate].
    assert (U : forall (l : list (R * R)) a b, increasing l -> In a l -> In b l -> fst a = fst b -> a = b).
    { clear. induction l as [|c l IH]; intros a b Inc Ia Ib E; [destruct Ia|].
      assert (Inc' : increasing l) by (destruct l; [exact I | apply Inc]).
      assert (M : forall q, In q l -> fst c < fst q).
      { clear - Inc. revert c Inc. induction l as [|r l IH]; intros c Inc q; [intros []|]. destruct Inc as (H1 & H2).
        intros [->|Iq]; [exact H1|]. pose proof (IH r H2 q Iq). lra. }
      destruct Ia as [->|Ia], Ib as [->|Ib]; [reflexivity| | |exact (IH a b Inc' Ia Ib E)].
      - pose proof (M b Ib). lra.
      - pose proof (M a Ia). lra. }
    rewrite (U l p (x, y) Inc Ip I E). reflexivity.
  - exfalso. pose proof (find_none _ _ F (x, y) I) as N. unfold reqb in N. cbn [fst] in N. destruct (Req_EM_T x x); congruence.
Qed.
Lemma lines_above : above_points lines.
Proof.
  intros l b x N H. unfold lines. destruct (find _ l) as [p|] eqn:F.
  - apply find_some in F. apply H, F.
  - destruct l as [|p l]; [congruence|].
    assert (G : forall l a, b <= a -> (forall p, In p l -> b <= snd p) -> b <= fold_left (fun a (q : R * R) => Rmin a (snd q)) l a).
    { clear. induction l as [|q l IH]; intros a A H; [exact A|]. cbn [fold_left]. apply IH.
      - apply Rmin_glb; [exact A | apply H; left; reflexivity].
      - intros p I. apply H. right. exact I. }
    apply G; [apply H; left; reflexivity | exact H].
Qed.

Lemma enamelled_wire_ok : forall d o, enamelled 1 iec (enamelled_wire d o) d o.
Proof. intros d o. repeat split; cbn; eauto. Qed.
Lemma shelf_complete : complete shelf.
Proof. intros e c [<-|[<-|[]]] _ H; injection H as <-; repeat split; discriminate. Qed.

Lemma shelf_size : forall spline, through spline -> answer spline shelf [] (OuterRound (1 / 1000) 1 iec) = Ok (11 / 10000).
Proof.
  intros spline T.
  destruct (C146_catalogue_size spline shelf 1 iec thin_wire (1 / 1000) (11 / 10000) T shelf_complete
              (or_intror (or_introl eq_refl)) (enamelled_wire_ok _ _) ltac:(lra)) as (e & o & I & E & A).
  rewrite A. destruct E as (_ & _ & D & O & _). destruct I as [<-|[<-|[]]]; cbn in D, O; [injection D; lra | congruence].
Qed.

Definition filling_of (d o : R) (air : bool) : R := PI * (d / 2) ^ 2 * INR 1 / (if air then o ^ 2 else PI * (o / 2) ^ 2).
Lemma shelf_filling : forall spline air, through spline ->
  answer spline shelf [] (FillingRound (1 / 1000) 1 iec air) = Ok (filling_of (1 / 1000) (11 / 10000) air).
Proof.
  intros spline air T. unfold answer. cbn [after ask]. unfold filling_factor, tables_for. cbn [lookup filed fresh database].
  unfold build.
  assert (P : points (round_request 1 iec air) shelf
              = Ok [(2 / 1000, ((21 / 10000 - 2 / 1000) / 2 / (2 / 1000), filling_of (2 / 1000) (21 / 10000) air));
                    (1 / 1000, ((11 / 10000 - 1 / 1000) / 2 / (1 / 1000), filling_of (1 / 1000) (11 / 10000) air))])
    by reflexivity.
  rewrite P. cbn [bind sorted insert fst]. destruct (Rle_dec (2 / 1000) (1 / 1000)) as [L|_]; [lra|].
  cbn [distinct fst last]. destruct (Req_EM_T (2 / 1000) (1 / 1000)) as [L|_]; [lra|].
  cbn [map fst snd bind t_filling t_min t_max].
  rewrite clamped_in by lra. rewrite (T _ (1 / 1000) (filling_of (1 / 1000) (11 / 10000) air)); [reflexivity| |left; reflexivity].
  cbn [increasing fst]. split; [lra | exact I].
Qed.

Example C145_witness : forall spline, through spline ->
  answer spline shelf [FillingRound (1 / 1000) 1 iec false] (FillingRound (1 / 1000) 1 iec true)
  <> answer spline shelf [] (FillingRound (1 / 1000) 1 iec true).
Proof.
  intros spline T. destruct (C145_filling_refuted spline shelf (1 / 1000) (1 / 1000) iec (filling_of (1 / 1000) (11 / 10000) false)) as (H & _).
  rewrite (H 1%Z false true (shelf_filling spline false T)). rewrite !(shelf_filling spline _ T).
  intro E. injection E. unfold filling_of. cbn [INR]. intro Q.
  destruct (PI_ineq 1) as (_ & P). cbv [Nat.mul Nat.add sum_f_R0 tg_alt PI_tg pow INR] in P.
  assert (PI < 4) by lra. pose proof PI_RGT_0.
  assert (Q' : PI * (1 / 1000 / 2) ^ 2 * 1 / (PI * (11 / 10000 / 2) ^ 2) = 100 / 121) by (field; lra).
  rewrite Q' in Q. lra.
Qed.
Example C145_reload_witness : forall spline, through spline ->
  answer spline shelf [OuterRound (1 / 1000) 1 iec; Replace [enamelled_wire (1 / 1000) (12 / 10000)]] (OuterRound (1 / 1000) 1 iec)
    = Ok (11 / 10000).
Proof. intros spline T. rewrite (C145_catalogue_refuted _ _ _ _ _ _ _ (11 / 10000)); apply shelf_size, T. Qed.
Example C146_witness : through lines /\ above_points lines /\ complete shelf
  /\ enamelled 1 iec thin_wire (1 / 1000) (11 / 10000)
  /\ (forall e d o, In e shelf -> enamelled 1 iec e d o -> 0 < d <= o).
Proof.
  split; [exact lines_through|]. split; [exact lines_above|]. split; [exact shelf_complete|]. split; [apply enamelled_wire_ok|].
  intros e d o [<-|[<-|[]]] (_ & _ & D & O & _); cbn in D, O; injection D as <-; injection O as <-; lra.
Qed.

(** * Litz wires *)
(** The only litz wire of the catalogue. *)
Definition only_litz (db : catalogue) (e : entry) : Prop :=
  exists before after, db = before ++ e :: after /\ e_kind e = Litz
    /\ forall e', In e' (before ++ after) -> e_kind e' <> Litz.
(** A litz wire of [n] strands of diameter [d], [so] with their enamel of grade [g],
    with the coating and the outer diameter [o]. *)
Definition litz_wire (e : entry) (n : nat) (d so o : R) (g : Z) (std : string) (c : coat) : Prop :=
  e_outer_diameter e = Some o /\ e_count e = Some n /\ e_standard e = Some std /\ e_coat e = Some c
  /\ exists s, e_strand e = Some s /\ s_conducting s = d /\ s_outer s = Some so
       /\ exists sc, s_coat s = Some sc /\ c_grade sc = Some g.

Lemma only_points : forall r db e p, only_litz db e -> r_kind r = Litz -> selected r e = Ok true -> point_of r e = Ok p ->
  points r db = Ok [p].
Proof.
  intros r db e p (b & a & -> & K & H) R S P.
  assert (G : forall l, (forall e', In e' l -> e_kind e' <> Litz) -> points r l = Ok []).
  { induction l as [|x l IH]; intro F; [reflexivity|]. cbn [points].
    assert (E : selected r x = Ok false).
    { unfold selected. rewrite R. pose proof (F x (or_introl eq_refl)). destruct (e_kind x); try reflexivity. congruence. }
    rewrite E. cbn [bind]. apply IH. intros; apply F; right; assumption. }
  induction b as [|x b IH].
  - cbn [app points]. rewrite S. cbn [bind]. rewrite P. cbn [bind]. rewrite G; [reflexivity|]. intros; apply H; exact H0.
  - cbn [app points].
    assert (E : selected r x = Ok false).
    { unfold selected. rewrite R. pose proof (H x (or_introl eq_refl)). destruct (e_kind x); try reflexivity. congruence. }
    rewrite E. cbn [bind]. apply IH. intros; apply H; right; assumption.
Qed.
Lemma only_packing : forall g l t ct std db e p, only_litz db e -> packing_point g l t ct std e = Ok (Some p) ->
  packing_points g l t ct std db = Ok [p].
Proof.
  intros g l t ct std db e p (b & a & -> & K & H) P.
  assert (G : forall l0, (forall e', In e' l0 -> e_kind e' <> Litz) -> packing_points g l t ct std l0 = Ok []).
  { induction l0 as [|x l0 IH]; intro F; [reflexivity|]. cbn [packing_points].
    assert (E : packing_point g l t ct std x = Ok None).
    { unfold packing_point. pose proof (F x (or_introl eq_refl)). destruct (e_kind x); try reflexivity. congruence. }
    rewrite E. cbn [bind]. rewrite IH; [reflexivity|]. intros; apply F; right; assumption. }
  induction b as [|x b IH].
  - cbn [app packing_points]. rewrite P. cbn [bind]. rewrite G; [reflexivity|]. intros; apply H; exact H0.
  - cbn [app packing_points].
    assert (E : packing_point g l t ct std x = Ok None).
    { unfold packing_point. pose proof (H x (or_introl eq_refl)). destruct (e_kind x); try reflexivity. congruence. }
    rewrite E. cbn [bind]. rewrite IH; [reflexivity|]. intros; apply H; right; assumption.
Qed.

(** C146.  Where the catalogue has one litz wire, the filling factor of its strands is
    the copper of all of them over the round, or with the air the square, around the
    wire. *)
Theorem C146_litz_filling : forall spline db e n d so o g l std c air, through spline -> only_litz db e ->
  litz_wire e n d so o g std c -> c_type c = Some Served -> c_layers c = Some l ->
  answer spline db [] (FillingServed d 1 g l std air)
  = Ok (INR n * (PI * (d / 2) ^ 2) / (if air then o ^ 2 else PI * (o / 2) ^ 2)).
Proof.
  intros spline db e n d so o g l std c air T O (Od & Ct & Sd & Co & (s & St & Sc & So & (sc & Sk & Sg))) Ty La.
  assert (K : e_kind e = Litz) by (destruct O as (b & a & _ & K & _); exact K).
  assert (Se : selected (served_request 1 g l std air) e = Ok true).
  { unfold selected. cbn [r_kind r_standard r_layers r_thickness r_count r_grade r_coating served_request].
    rewrite K, Co. cbn [same_kind negb]. unfold skipped. rewrite Sd, La. cbn [has negb andb orb Nat.ltb Nat.leb bind].
    unfold grade_part. rewrite St. cbn [required bind]. unfold value. rewrite Sk. cbn [required bind]. rewrite Sg.
    cbn [bind]. rewrite Z.eqb_refl. cbn [andb andalso].
    unfold other_parts, agrees, value. rewrite La, Ty, Sd. cbn [required bind andalso same_coating]. rewrite Z.eqb_refl.
    cbn [bind andalso]. now rewrite String.eqb_refl. }
  assert (Po : point_of (served_request 1 g l std air) e
    = Ok (d, ((o - d) / 2 / d, PI * (d / 2) ^ 2 * INR n / (if air then o ^ 2 else PI * (o / 2) ^ 2)))).
  { unfold point_of. cbn [r_axis r_kind r_air served_request]. unfold value. rewrite Od, St, Ct. cbn [required bind].
    rewrite So, Sc. cbn [required bind]. reflexivity. }
  pose proof (only_points (served_request 1 g l std air) db e _ O eq_refl Se Po) as P.
  unfold answer. cbn [after ask]. unfold filling_factor, tables_for. cbn [lookup filed fresh database].
  unfold build. rewrite P. cbn [bind sorted insert distinct last map fst snd t_filling t_min t_max].
  rewrite clamped_in by lra. f_equal.
  rewrite (T _ d (PI * (d / 2) ^ 2 * INR n / (if air then o ^ 2 else PI * (o / 2) ^ 2))); [|exact I | left; reflexivity].
  unfold Rdiv. ring.
Qed.

(** C146.  And its packing factor is the diameter within the insulation over the one
    that its strands would have side by side, times the root of their number. *)
Theorem C146_litz_packing : forall spline db e n d so o g l t std c, through spline -> only_litz db e ->
  litz_wire e n d so o g std c -> c_type c = Some Insulated -> c_layers c = Some l -> c_thickness c = Some t ->
  answer spline db [] (PackingLitzIns n l t g std) = Ok ((o - 2 * IZR l * t) / (sqrt (INR n) * so)).
Proof.
  intros spline db e n d so o g l t std c T O (Od & Ct & Sd & Co & (s & St & Sc & So & (sc & Sk & Sg))) Ty La Th.
  assert (K : e_kind e = Litz) by (destruct O as (b & a & _ & K & _); exact K).
  assert (P : packing_point (Some g) (Some l) (Some t) (Some Insulated) (Some std) e
    = Ok (Some (INR n, (o - 2 * IZR l * t) / (sqrt (INR n) * so)))).
  { unfold packing_point. rewrite K, Co. cbn [same_kind negb]. unfold skipped. rewrite Sd, La, Th. cbn [has negb andb orb].
    unfold grade_part. rewrite St. cbn [required bind]. unfold value. rewrite Sk. cbn [required bind]. rewrite Sg. cbn [bind].
    rewrite Z.eqb_refl. cbn [andalso]. unfold other_parts, agrees, value. rewrite La, Ty, Th, Sd.
    cbn [required bind andalso same_coating]. rewrite Z.eqb_refl. cbn [bind andalso]. unfold reqb.
    destruct (Req_EM_T t t); [|congruence]. cbn [bind andalso]. rewrite String.eqb_refl. cbn [bind].
    rewrite Od, Ct. cbn [required bind]. rewrite So. reflexivity. }
  pose proof (only_packing _ _ _ _ _ db e _ O P) as Q.
  unfold answer. cbn [after ask]. unfold packing_factor. cbn [lookup packed fresh database].
  unfold build_packing. rewrite Q. cbn [bind sorted insert distinct last fst snd p_packing p_min p_max].
  rewrite clamped_in by lra. f_equal. cbn [fst]. apply T; [exact I | left; reflexivity].
Qed.

(** C145.  Insulated round wires of no layers, or of more than three, and thicknesses
    of a layer that the catalogues do not have, are refused, before and after any
    questions. *)
Theorem C145_insulated_refused : forall spline db history d l t std air,
  (l = 0 \/ (3 < l))%Z \/ ~ In t [508 / 10000000; 762 / 10000000; 381 / 10000000; 254 / 10000000; 1270 / 10000000] ->
  exists e, answer spline db history (FillingRoundIns d l t std air) = Throw e
    /\ answer spline db history (OuterRoundIns d l t std) = Throw e.
Proof.
  intros spline db history d l t std air H. unfold answer. cbn [ask].
  assert (E : exists e, insulated_checks l t = Some e).
  { unfold insulated_checks. destruct ((l =? 0)%Z || (3 <? l)%Z)%bool eqn:B; [eexists; reflexivity|].
    apply orb_false_iff in B. destruct B as (B0 & B3). apply Z.eqb_neq in B0. apply Z.ltb_ge in B3.
    destruct H as [[->|L]|N]; [congruence | lia|].
    destruct (known_thickness t) eqn:KT; [|eexists; reflexivity]. exfalso. apply N. unfold known_thickness, reqb in KT. cbn [In].
    repeat match type of KT with context [Req_EM_T ?a ?b] => destruct (Req_EM_T a b) as [->|]; [tauto|] end. discriminate. }
  destruct E as (e & E). rewrite E. exists e. split; reflexivity.
Qed.

Definition rope : entry := mkEntry Litz (Some (mkCoat (Some Served) None (Some 1%Z) None)) (Some "IEC 60317"%string) (Some 7%nat)
  None None None (Some (4 / 10000)) None None None
  (Some (mkStrand (1 / 10000) (Some (11 / 100000)) (Some (mkCoat (Some Enamelled) (Some 1%Z) None None)))).
Example C146_litz_witness : only_litz [thin_wire; rope] rope
  /\ litz_wire rope 7 (1 / 10000) (11 / 100000) (4 / 10000) 1 "IEC 60317" (mkCoat (Some Served) None (Some 1%Z) None).
Proof.
  split.
  - exists [thin_wire], []. split; [reflexivity|]. split; [reflexivity|]. intros e' [<-|[]]. discriminate.
  - unfold litz_wire. repeat split. exists (mkStrand (1 / 10000) (Some (11 / 100000)) (Some (mkCoat (Some Enamelled) (Some 1%Z) None None))).
    repeat split. eexists. split; reflexivity.
Qed.

Print Assumptions C145_sizes.
Print Assumptions C145_filling_partial.
Print Assumptions C145_filling_refuted.
Print Assumptions C146_catalogue_size.
Print Assumptions C146_coated.
Print Assumptions C146_beyond.
Print Assumptions C146_litz_filling.
Print Assumptions C146_litz_packing.
Print Assumptions C145_insulated_refused.
