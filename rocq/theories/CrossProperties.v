(** C214 to C217: cores similar to a reference core. *)
From Coq Require Import QArith Qabs List Bool String Arith Lia Lqa Permutation Sorting.
From Verif Require Import Base QAux UtilsNumModel UtilsNumProofs AdviserProofs WireAdviseModel WireAdviseProofs CrossModel CrossProofs.
Import ListNotations.
Local Open Scope Q_scope.

(** * What is similar *)
(** The figure differs from that of the reference by less than a share of it. *)
Definition inside (limit r x : Q) : Prop := ~ r == 0 /\ Qabs (r - x) / r < limit.
Definition similar (ref : core) (limit : Q) (f : figure) (c : core) : Prop :=
  match f with
  | Permeance => inside limit (c_permeance ref) (c_permeance c)
  | Window => exists r x, c_window ref = Some r /\ c_window c = Some x /\ inside limit r x
  | Volume => inside limit (fst (fst (c_box ref))) (fst (fst (c_box c))) /\
              inside limit (snd (fst (c_box ref))) (snd (fst (c_box c))) /\ inside limit (snd (c_box ref)) (snd (c_box c))
  | Area => inside limit (c_area ref) (c_area c)
  end.
(** Not saturated, and with losses alike unless anything goes. *)
Definition works (ref : core) (limit : Q) (c : core) : Prop :=
  forall loss peak, c_losses ref = Some (loss, peak) ->
    exists l b, c_losses c = Some (l, b) /\ b < c_saturation c /\ (inside limit loss l \/ 1 <= limit).
(** The figure has a weight; the volume only if the reference has three dimensions. *)
Definition matters (ref : core) (weight : figure -> Q) (f : figure) : Prop :=
  0 < weight f /\ (f = Volume -> 0 < fst (fst (c_box ref)) /\ 0 < snd (fst (c_box ref)) /\ 0 < snd (c_box ref)).
(** Another core, of the manufacturer and the material asked for, that fits. *)
Definition asked_for (ref : core) (maker : option nat) (same_material : bool) (c : core) : Prop :=
  (c_shape c <> c_shape ref \/ c_material c <> c_material ref) /\ (forall k, maker = Some k -> c_maker c = k) /\
  (same_material = true -> c_material c = c_material ref) /\ c_fits c = true.
Definition one_name_each (db : list core) : Prop := forall c c', In c db -> In c' db -> c_name c = c_name c' -> c = c'.
(** How far apart two cores are in a figure. *)
Definition apart (ref : core) (f : figure) (c : core) : Q :=
  match f with
  | Permeance => Qabs (c_permeance ref - c_permeance c)
  | Window => match c_window ref, c_window c with Some r, Some x => Qabs (r - x) | _, _ => 0 end
  | Volume => Qabs (fst (fst (c_box ref)) - fst (fst (c_box c))) / fst (fst (c_box ref)) +
              Qabs (snd (fst (c_box ref)) - snd (fst (c_box c))) / snd (fst (c_box ref)) + Qabs (snd (c_box ref) - snd (c_box c)) / snd (c_box ref)
  | Area => Qabs (c_area ref - c_area c)
  end.
Definition losses_apart (ref c : core) : Q :=
  match c_losses ref, c_losses c with Some (r, _), Some (x, _) => Qabs (r - x) | _, _ => 0 end.
Definition no_farther (ref : core) (weight : figure -> Q) (lw : Q) (a b : core) : Prop :=
  (forall f, matters ref weight f -> apart ref f a <= apart ref f b) /\ (0 < lw -> losses_apart ref a <= losses_apart ref b).

(** ** Proofs *)
Lemma within_iff : forall limit r x, within limit r x = true <-> inside limit r x.
Proof.
  intros. unfold within, inside. rewrite andb_true_iff, negb_true_iff, Qlt_bool_iff. split; intros (A & B); (split; [|exact B]).
  - intro E. apply Qeq_bool_iff in E. congruence.
  - destruct (Qeq_bool r 0) eqn:E; [|reflexivity]. apply Qeq_bool_iff in E. contradiction.
Qed.
Lemma counts_iff : forall ref weight f, counts ref weight f <-> matters ref weight f.
Proof.
  intros ref weight f. unfold counts, matters, flat. destruct (c_box ref) as ((d, h), w). cbn [fst snd].
  assert (F : (Qle_bool d 0 || Qle_bool h 0 || Qle_bool w 0)%bool = false <-> 0 < d /\ 0 < h /\ 0 < w).
  { rewrite !orb_false_iff. split; [intros ((A & B) & C); qb; repeat split; lra|]. intros (A & B & C).
    assert (K : forall q, 0 < q -> Qle_bool q 0 = false). { intros q Q0. destruct (Qle_bool q 0) eqn:E; [|reflexivity]. qb. lra. }
    rewrite (K d A), (K h B), (K w C). auto. }
  split; intros (A & B); (split; [exact A|]); intro E; apply F, B, E.
Qed.
Lemma near_iff : forall ref limit f c, (exists d, near ref limit f c = Ok (Some d)) <-> similar ref limit f c.
Proof.
  assert (C : forall limit r x, (exists d, @Ok (option Q) (close limit r x) = Ok (Some d)) <-> inside limit r x).
  { intros limit r x. unfold close. rewrite <- within_iff. destruct (within limit r x); split; auto; [eexists; reflexivity|intros (d & H); discriminate|discriminate]. }
  intros ref limit f c. destruct f; cbn [near similar].
  - apply C.
  - destruct (c_window ref) as [r|].
    + destruct (c_window c) as [x|].
      * rewrite C. split; [intro H; exists r, x; auto|]. intros (r' & x' & E & E' & H). injection E as ->. injection E' as ->. exact H.
      * split; [intros (d & H); discriminate|intros (r' & x' & _ & E & _); discriminate].
    + split; [intros (d & H); discriminate|intros (r' & x' & E & _); discriminate].
  - unfold box_distance. destruct (c_box ref) as ((d0, h0), w0), (c_box c) as ((d1, h1), w1). cbn [fst snd]. rewrite <- !within_iff.
    destruct (within limit d0 d1), (within limit h0 h1), (within limit w0 w1); cbn [andb]; split; try (intros (d & H); discriminate);
      try (intros (X & Y & Z); discriminate); [auto|intros _; eexists; reflexivity].
  - apply C.
Qed.
Lemma near_apart : forall ref limit f c d, near ref limit f c = Ok (Some d) -> d = apart ref f c.
Proof.
  assert (C : forall limit r x d, @Ok (option Q) (close limit r x) = Ok (Some d) -> d = Qabs (r - x)).
  { intros limit r x d. unfold close. destruct (within limit r x); [|discriminate]. intro H. congruence. }
  intros ref limit f c d H. destruct f; cbn [near apart] in *; try (eapply C; exact H).
  - destruct (c_window ref), (c_window c); try discriminate. eapply C; exact H.
  - unfold box_distance in H. destruct (c_box ref) as ((d0, h0), w0), (c_box c) as ((d1, h1), w1). cbn [fst snd].
    destruct (_ && _)%bool; [|discriminate]. congruence.
Qed.
Lemma contender_iff : forall ref maker same c, contender ref maker same c = true <-> asked_for ref maker same c.
Proof.
  intros. unfold contender, asked_for. rewrite !andb_true_iff, !orb_true_iff, !negb_true_iff, !Nat.eqb_neq, Nat.eqb_eq. split.
  - intros (((A & B) & C) & D). split; [destruct A; [left|right]; congruence|]. split; [|split; [|exact D]].
    + intros k ->. now apply Nat.eqb_eq.
    + intros ->. destruct C as [C|C]; [discriminate|congruence].
  - intros (A & B & C & D). split; [split; [split|]|exact D].
    + destruct A; [left|right]; congruence.
    + destruct maker as [k|]; [apply Nat.eqb_eq; auto|reflexivity].
    + destruct same; [right; symmetry; auto|left; reflexivity].
Qed.
Lemma loss_iff : forall ref limit loss peak c, c_losses ref = Some (loss, peak) -> ((exists d, loss_distance ref limit loss peak c = Some d) <-> works ref limit c).
Proof.
  intros ref limit loss peak c R. unfold loss_distance, works. split.
  - intros (d & H) lo pk E. rewrite R in E. injection E as <- <-. destruct (c_losses c) as [(l, b)|]; [|discriminate].
    destruct (Qlt_bool b (c_saturation c)) eqn:B; [|discriminate]. exists l, b. split; [reflexivity|]. split; [apply Qlt_bool_iff, B|].
    cbn [andb] in H. destruct (within limit loss l) eqn:W; [left; apply within_iff, W|]. cbn [orb] in H. destruct (Qle_bool 1 limit) eqn:L; [|discriminate].
    right. apply Qle_bool_iff, L.
  - intro H. destruct (H loss peak R) as (l & b & -> & B & W). apply Qlt_bool_iff in B. rewrite B. cbn [andb].
    replace (within limit loss l || Qle_bool 1 limit)%bool with true; [eexists; reflexivity|]. symmetry. apply orb_true_iff.
    destruct W as [W|W]; [left; apply within_iff, W|right; apply Qle_bool_iff, W].
Qed.
Lemma loss_apart : forall ref limit loss peak c d, c_losses ref = Some (loss, peak) -> loss_distance ref limit loss peak c = Some d -> fst d = losses_apart ref c.
Proof.
  intros ref limit loss peak c d R H. unfold loss_distance, losses_apart in *. rewrite R. destruct (c_losses c) as [(l, b)|]; [|discriminate].
  destruct (_ && _)%bool; [|discriminate]. injection H as <-. reflexivity.
Qed.
Lemma in_order_firstn : forall n (l : list (core * Q)), in_order _ above l -> in_order _ above (firstn n l).
Proof.
  intros n l. revert n. induction l as [|x r IH]; intros [|n] O; try constructor. inversion O; subst. apply IH; assumption.
  inversion O as [|? ? S0 F]; subst. rewrite Forall_forall in *. intros y Y. apply F. eapply firstn_in, Y.
Qed.
Lemma grade_parts : forall (A : Type) w (l : list (A * Q)) ds x, List.length l = List.length ds -> In x (grade w l ds) ->
  exists y d, In y l /\ In d ds /\ x = (fst y, snd y + term w (greatest_of ds) (least_of ds) d).
Proof.
  intros A w l ds x L X. apply (Permutation_in _ (grade_perm _ w l ds L)) in X. apply in_map_iff in X. destruct X as ((y & d) & <- & X).
  exists y, d. split; [eapply in_combine_l, X|]. split; [eapply in_combine_r, X|reflexivity].
Qed.
Lemma in_first : forall (A B : Type) w (t : list ((A * Q) * (Q * B))) x, In x (grade w (map fst t) (map (fun p => fst (snd p)) t)) <->
  exists y d, In (y, d) t /\ x = (fst y, snd y + term w (greatest_of (map (fun p => fst (snd p)) t)) (least_of (map (fun p => fst (snd p)) t)) (fst d)).
Proof.
  intros A B w t x. set (u := map (fun p => (fst p, fst (snd p))) t).
  assert (U1 : map fst t = map fst u) by (unfold u; rewrite map_map; reflexivity).
  assert (U2 : map (fun p => fst (snd p)) t = map snd u) by (unfold u; rewrite map_map; reflexivity).
  rewrite U1, U2, grade_in. split; intros (y & d & I0 & ->).
  - apply in_map_iff in I0. destruct I0 as ((y' & d') & E & I0). injection E as <- <-. exists y', d'. auto.
  - exists y, (fst d). split; [|reflexivity]. apply in_map_iff. exists (y, d). auto.
Qed.
(** What the filter by losses keeps and adds. *)
Lemma by_losses_in : forall ref lw sw limit l x, In x (plain_by_losses ref lw sw limit l) ->
  (exists y, In y l /\ fst y = fst x) /\ (0 < lw -> works ref limit (fst x)).
Proof.
  intros ref lw sw limit l x X. unfold plain_by_losses in X. destruct (Qle_bool lw 0) eqn:E.
  { split; [exists x; auto|]. intro. qb. lra. }
  destruct (c_losses ref) as [(loss, peak)|] eqn:R.
  - cbv zeta in X. set (t := plain_losses _ _) in X.
    apply grade_parts in X. 2:{ rewrite grade_length; now rewrite !map_length. }
    destruct X as (z & e & Z & _ & ->). cbn [fst]. apply in_first in Z. destruct Z as (y & d & I0 & ->). cbn [fst].
    apply plain_losses_in in I0. destruct I0 as (I0 & N). split; [exists y; auto|]. intros _. apply (loss_iff ref limit loss peak _ R). exists d. exact N.
  - split; [exists x; auto|]. intros _ loss peak K. congruence.
Qed.
Lemma by_losses_order : forall ref lw sw limit l, in_order _ above l -> in_order _ above (plain_by_losses ref lw sw limit l).
Proof.
  intros ref lw sw limit l O. unfold plain_by_losses. destruct (Qle_bool lw 0); [exact O|]. destruct (c_losses ref) as [(loss, peak)|]; [|exact O].
  cbv zeta. apply grade_order. rewrite grade_length; now rewrite !map_length.
Qed.
Lemma by_losses_bounds : forall ref lw sw limit l lo hi, 0 <= sw -> (forall x, In x l -> lo <= snd x <= hi) ->
  forall x, In x (plain_by_losses ref lw sw limit l) -> lo <= snd x <= hi + cmax 0 lw + sw.
Proof.
  intros ref lw sw limit l lo hi S B x X. pose proof (cmax_ge_l 0 lw) as Z. pose proof (cmax_ge_r 0 lw) as Z'.
  unfold plain_by_losses in X. destruct (Qle_bool lw 0) eqn:E; [specialize (B x X); split; lra|].
  destruct (c_losses ref) as [(loss, peak)|] eqn:R; [|specialize (B x X); split; lra]. cbv zeta in X. set (t := plain_losses _ _) in X.
  assert (W : 0 <= lw) by (qb; lra).
  apply grade_parts in X. 2:{ rewrite grade_length; now rewrite !map_length. }
  destruct X as (z & e & IZ & IE & ->). cbn [snd]. destruct (term_spec sw _ _ e S (extremes _ e IE)) as (T & _).
  apply in_first in IZ. destruct IZ as (y & d & I0 & ->). cbn [fst snd].
  assert (ID : In (fst d) (map (fun p => fst (snd p)) t)) by (apply in_map_iff; exists (y, d); auto).
  destruct (term_spec lw _ _ (fst d) W (extremes _ _ ID)) as (T' & _). apply plain_losses_in in I0. specialize (B y (proj1 I0)).
  clearbody t. set (t1 := term sw _ _ _) in *. set (t2 := term lw _ _ _) in *. split; lra.
Qed.
Lemma term_zero : forall w mx mn d, w == 0 -> term w mx mn d == 0.
Proof. intros w mx mn d E. unfold term. cbv zeta. destruct (Qeq_bool _ _); rewrite E; apply Qmult_0_l. Qed.
Lemma by_losses_dominance : forall ref lw sw limit l (better : core -> core -> Prop), sw == 0 ->
  (forall a b, better a b -> 0 < lw -> losses_apart ref a <= losses_apart ref b) ->
  (forall a b, In a l -> In b l -> better (fst a) (fst b) -> snd b <= snd a) ->
  forall a b, In a (plain_by_losses ref lw sw limit l) -> In b (plain_by_losses ref lw sw limit l) -> better (fst a) (fst b) -> snd b <= snd a.
Proof.
  intros ref lw sw limit l better S M B a b A0 B0 BT. unfold plain_by_losses in A0, B0. destruct (Qle_bool lw 0) eqn:E; [now apply B|].
  destruct (c_losses ref) as [(loss, peak)|] eqn:R; [|now apply B]. cbv zeta in A0, B0. set (t := plain_losses _ _) in *.
  assert (W : 0 < lw) by (qb; lra).
  apply grade_parts in A0. 2:{ rewrite grade_length; now rewrite !map_length. }
  apply grade_parts in B0. 2:{ rewrite grade_length; now rewrite !map_length. }
  destruct A0 as (za & ea & ZA & _ & ->), B0 as (zb & eb & ZB & _ & ->). cbn [fst snd] in *. rewrite !(term_zero sw) by exact S.
  apply in_first in ZA. apply in_first in ZB. destruct ZA as (x & d & IA & ->), ZB as (y & e & IB & ->). cbn [fst snd] in *.
  assert (ID : In (fst d) (map (fun p => fst (snd p)) t)) by (apply in_map_iff; exists (x, d); auto).
  assert (IE : In (fst e) (map (fun p => fst (snd p)) t)) by (apply in_map_iff; exists (y, e); auto).
  destruct (term_spec lw _ _ (fst d) ltac:(lra) (extremes _ _ ID)) as (_ & T').
  apply plain_losses_in in IA. apply plain_losses_in in IB. destruct IA as (IA & NA), IB as (IB & NB).
  pose proof (M _ _ BT W) as DE. rewrite <- (loss_apart _ _ _ _ _ _ R NA), <- (loss_apart _ _ _ _ _ _ R NB) in DE.
  specialize (T' (fst e) (conj DE (proj2 (extremes _ _ IE)))). specialize (B x y IA IB BT).
  clearbody t. set (t1 := term lw _ _ _) in *. set (t2 := term lw _ _ _) in *. lra.
Qed.

(** The whole round. *)
Lemma round_spec : forall ref weight lw sw limit most cs r, plain_filters ref weight lw sw limit most cs = Ok r ->
  (List.length r <= most)%nat /\ in_order _ above r /\
  (forall x, In x r -> In (fst x) cs /\ (forall f, matters ref weight f -> similar ref limit f (fst x)) /\ (0 < lw -> works ref limit (fst x))) /\
  (0 <= sw -> forall x, In x r -> 0 <= snd x <= cmax 0 (weight Permeance) + cmax 0 (weight Window) + cmax 0 (weight Volume) + cmax 0 (weight Area) + cmax 0 lw + sw) /\
  (sw == 0 -> forall a b, In a r -> In b r -> no_farther ref weight lw (fst a) (fst b) -> snd b <= snd a) /\
  ((lw <= 0 \/ c_losses ref = None) -> (List.length r < most)%nat -> forall c, In c cs -> (forall f, matters ref weight f -> similar ref limit f c) -> In c (map fst r)).
Proof.
  intros ref weight lw sw limit most cs r H. unfold plain_filters in H.
  apply bind_ok in H. destruct H as (a & E1 & H). apply bind_ok in H. destruct H as (b & E2 & H).
  apply bind_ok in H. destruct H as (c & E3 & H). apply bind_ok in H. destruct H as (d & E4 & H). match type of H with Ok ?x = Ok ?y => assert (HR : x = y) by congruence end. clear H. subst r.
  set (l0 := map (fun c => (c, 0)) cs) in *.
  assert (Z0 : forall x, In x l0 -> In (fst x) cs /\ snd x = 0). { intros x X. apply in_map_iff in X. destruct X as (k & <- & X). auto. }
  assert (O0 : in_order _ above l0).
  { clear. subst l0. induction cs as [|k cs IH]; cbn; constructor; [exact IH|]. apply Forall_forall. intros x X. apply in_map_iff in X. destruct X as (k' & <- & X). reflexivity. }
  split; [apply firstn_le_length|]. split.
  { apply in_order_firstn, by_losses_order, in_order_firstn. eapply plain_figure_order; [exact E4|]. eapply plain_figure_order; [exact E3|].
    eapply plain_figure_order; [exact E2|]. eapply plain_figure_order; [exact E1|]. exact O0. }
  split; [|split; [|split]].
  - intros x X. apply firstn_in in X. apply by_losses_in in X. destruct X as ((y & Y & F) & Wk). apply firstn_in in Y.
    destruct (plain_figure_in _ _ _ _ _ _ E4 y Y) as ((y3 & Y3 & F3) & N4). destruct (plain_figure_in _ _ _ _ _ _ E3 y3 Y3) as ((y2 & Y2 & F2) & N3).
    destruct (plain_figure_in _ _ _ _ _ _ E2 y2 Y2) as ((y1 & Y1 & F1) & N2). destruct (plain_figure_in _ _ _ _ _ _ E1 y1 Y1) as ((y0 & Y0 & F0) & N1).
    assert (Q1 : fst y3 = fst x) by congruence. assert (Q2 : fst y2 = fst x) by congruence. assert (Q3 : fst y1 = fst x) by congruence. assert (Q4 : fst y0 = fst x) by congruence.
    rewrite <- Q4. split; [apply Z0, Y0|]. rewrite Q4. split; [|exact Wk]. intros f Mf. apply counts_iff in Mf. apply near_iff.
    destruct f; [rewrite <- Q3; auto|rewrite <- Q2; auto|rewrite <- Q1; auto|rewrite <- F; auto].
  - intros S x X. apply firstn_in in X. eapply (by_losses_bounds ref lw sw limit (firstn (11 * most / 10) d) 0); [exact S| |exact X].
    intros y Y. apply firstn_in in Y. eapply plain_figure_bounds; [exact E4| |exact Y]. eapply plain_figure_bounds; [exact E3|].
    eapply plain_figure_bounds; [exact E2|]. intros z Z. destruct (plain_figure_bounds _ _ _ _ _ _ 0 0 E1 ltac:(intros q Q0; rewrite (proj2 (Z0 q Q0)); split; apply Qle_refl) z Z) as (P & P').
    split; [exact P|]. rewrite Qplus_0_l in P'. exact P'.
  - intros S p q IP IQ B. apply firstn_in in IP. apply firstn_in in IQ.
    assert (MN : forall f, forall a b, no_farther ref weight lw a b -> counts ref weight f -> forall d e, near ref limit f a = Ok (Some d) -> near ref limit f b = Ok (Some e) -> d <= e).
    { intros f a' b' (N & _) C d' e' ND NE. rewrite (near_apart _ _ _ _ _ ND), (near_apart _ _ _ _ _ NE). apply N, counts_iff, C. }
    eapply (by_losses_dominance ref lw sw limit _ (no_farther ref weight lw)); [exact S|intros a' b' (_ & N); exact N| |exact IP|exact IQ|exact B].
    intros x y X Y. apply firstn_in in X. apply firstn_in in Y. revert x y X Y.
    eapply (plain_figure_dominance _ _ _ _ _ _ _ E4); [apply MN|]. eapply (plain_figure_dominance _ _ _ _ _ _ _ E3); [apply MN|].
    eapply (plain_figure_dominance _ _ _ _ _ _ _ E2); [apply MN|]. eapply (plain_figure_dominance _ _ _ _ _ _ _ E1); [apply MN|].
    intros x y X Y _. rewrite (proj2 (Z0 x X)), (proj2 (Z0 y Y)). apply Qle_refl.
  - intros NL LT k K SIM. assert (P : forall f, counts ref weight f -> exists e, near ref limit f k = Ok (Some e)) by (intros f C; apply near_iff, SIM, counts_iff, C).
    destruct (plain_figure_keeps _ _ _ _ _ _ E1 (k, 0) ltac:(apply in_map_iff; exists k; auto) (P Permeance)) as (y1 & Y1 & F1). cbn [fst] in F1.
    destruct (plain_figure_keeps _ _ _ _ _ _ E2 y1 Y1 ltac:(rewrite F1; apply P)) as (y2 & Y2 & F2).
    destruct (plain_figure_keeps _ _ _ _ _ _ E3 y2 Y2 ltac:(rewrite F2, F1; apply P)) as (y3 & Y3 & F3).
    destruct (plain_figure_keeps _ _ _ _ _ _ E4 y3 Y3 ltac:(rewrite F3, F2, F1; apply P)) as (y4 & Y4 & F4).
    assert (PL : plain_by_losses ref lw sw limit (firstn (11 * most / 10) d) = firstn (11 * most / 10) d).
    { unfold plain_by_losses. destruct (Qle_bool lw 0) eqn:E; [reflexivity|]. destruct NL as [NL|NL]; [qb; lra|]. rewrite NL. reflexivity. }
    rewrite PL in LT. rewrite PL. assert (M11 : (most <= 11 * most / 10)%nat) by (apply Nat.div_le_lower_bound; lia).
    rewrite firstn_firstn, Nat.min_l in LT by exact M11. rewrite firstn_firstn, Nat.min_l by exact M11. rewrite firstn_length in LT.
    rewrite firstn_all2 by lia. apply in_map_iff. exists y4. split; [congruence|exact Y4].
Qed.

(** The widening. *)
Lemma plain_fueled : forall nr l, (forall c, nr c <> OutOfFuel) -> plain nr l <> OutOfFuel.
Proof.
  intros nr l N. induction l as [|x r IH]; cbn [plain]; [discriminate|]. pose proof (N (fst x)) as NX. destruct (nr (fst x)) as [[d|]|w|w|]; cbn [bind]; try discriminate; try contradiction.
  - destruct (plain nr r); cbn [bind]; try discriminate. contradiction.
  - exact IH.
Qed.
Lemma near_fueled : forall ref limit f c, near ref limit f c <> OutOfFuel.
Proof. intros ref limit f c. destruct f; cbn [near]; try discriminate. destruct (c_window ref), (c_window c); discriminate. Qed.
Lemma plain_figure_fueled : forall ref weight limit f l, plain_figure ref weight limit f l <> OutOfFuel.
Proof.
  intros ref weight limit f l. assert (P : plain_filtered (near ref limit f) (weight f) l <> OutOfFuel).
  { unfold plain_filtered. pose proof (plain_fueled (near ref limit f) l (near_fueled ref limit f)) as N. destruct (plain _ l); cbn [bind]; try discriminate. contradiction. }
  unfold plain_figure. destruct (Qle_bool _ 0); [discriminate|]. destruct f; try exact P.
  - destruct (c_window ref); [exact P|discriminate].
  - destruct (flat ref); [discriminate|exact P].
Qed.
Lemma plain_filters_fueled : forall ref weight lw sw limit most cs, plain_filters ref weight lw sw limit most cs <> OutOfFuel.
Proof.
  intros. unfold plain_filters.
  destruct (plain_figure ref weight limit Permeance _) as [a|w|w|] eqn:E1; cbn [bind]; try discriminate; [|now apply plain_figure_fueled in E1].
  destruct (plain_figure ref weight limit Window _) as [b|w|w|] eqn:E2; cbn [bind]; try discriminate; [|now apply plain_figure_fueled in E2].
  destruct (plain_figure ref weight limit Volume _) as [c|w|w|] eqn:E3; cbn [bind]; try discriminate; [|now apply plain_figure_fueled in E3].
  destruct (plain_figure ref weight limit Area _) as [d|w|w|] eqn:E4; cbn [bind]; try discriminate. now apply plain_figure_fueled in E4.
Qed.
Lemma widen_ends : forall cs (names : one_name_each cs) ref weight lw sw greatest most fuel limit m found, 1 # 4 <= limit -> faithful cs ref limit m ->
  greatest < limit + inject_Z (Z.of_nat fuel) * (1 # 4) -> widen fuel ref weight lw sw greatest most cs limit m found <> OutOfFuel.
Proof.
  intros cs names ref weight lw sw greatest most. induction fuel as [|fuel IH]; intros limit m found L F G; cbn [widen].
  - replace (Qle_bool limit greatest) with false; [discriminate|]. symmetry. destruct (Qle_bool limit greatest) eqn:E; [|reflexivity].
    qb. exfalso. assert (Z : inject_Z (Z.of_nat 0) * (1 # 4) == 0) by reflexivity. rewrite Z in G. lra.
  - destruct (_ && _)%bool; [|discriminate]. destruct (next_grows limit ltac:(lra)) as (G1 & G2 & _).
    destruct (apply_plain cs names ref weight lw sw (next_limit limit) most m (faithful_mono cs ref _ _ _ G1 F)) as (m' & FM & E). rewrite E.
    destruct (plain_filters ref weight lw sw (next_limit limit) most cs) as [r|w|w|] eqn:P; cbn [bind]; try discriminate; [|now apply plain_filters_fueled in P].
    cbn [fst snd]. apply IH; [lra|exact FM|]. rewrite Nat2Z.inj_succ in G. unfold Z.succ in G. rewrite inject_Z_plus in G. specialize (G2 L).
    assert (Z : inject_Z 1 == 1) by reflexivity. rewrite Z in G. lra.
Qed.
Lemma widen_limit : forall cs ref weight lw sw greatest most fuel limit m found r, 0 <= limit -> (limit == 0 \/ limit <= cmax (1 # 4) (2 * greatest)) ->
  widen fuel ref weight lw sw greatest most cs limit m found = Ok r ->
  (fst r == 0 \/ fst r <= cmax (1 # 4) (2 * greatest)) /\ ((List.length (snd (snd r)) < most)%nat -> greatest < fst r).
Proof.
  intros cs ref weight lw sw greatest most. induction fuel as [|fuel IH]; intros limit m found r P L H; cbn [widen] in H;
    (destruct (Qle_bool limit greatest && (Datatypes.length found <? most)%nat)%bool eqn:E;
     [try discriminate|injection H as <-; cbn [fst snd]; split; [exact L|]; intro LT; apply Nat.ltb_lt in LT; rewrite LT, andb_true_r in E; qb; lra]).
  apply bind_ok in H. destruct H as (x & A & H). destruct (next_grows limit P) as (G1 & _). refine (IH _ _ _ _ _ _ H); [lra|]. right.
  apply andb_true_iff in E. destruct E as (E & _). qb. unfold next_limit. destruct (Qlt_bool limit (1 # 100)) eqn:EL; [apply cmax_ge_l|].
  eapply Qle_trans; [|apply cmax_ge_r]. lra.
Qed.
Lemma filter_names : forall db p, one_name_each db -> one_name_each (filter p db).
Proof. intros db p N c c' C C'. apply filter_In in C. apply filter_In in C'. apply N; tauto. Qed.
Lemma search_fresh : forall fuel ref weight lw sw greatest maker same most db L m found, one_name_each db ->
  search fuel ref weight lw sw greatest maker same most db nothing = Ok (L, (m, found)) ->
  (L = 0 /\ found = []) \/ (0 <= L /\ plain_filters ref weight lw sw L most (filter (contender ref maker same) db) = Ok found).
Proof.
  intros fuel ref weight lw sw greatest maker same most db L m found N H.
  destruct (widen_fresh _ (filter_names _ _ N) ref weight lw sw fuel greatest most 0 nothing [] _ (Qle_refl 0) (faithful_nothing _ ref 0) H) as [(A & B)|(A & B)]; auto.
Qed.

(** * Theorems *)
(** C214: what a search on a fresh referencer returns. *)
Theorem C214_results : forall fuel ref weight lw sw greatest maker same most db L m found, one_name_each db ->
  search fuel ref weight lw sw greatest maker same most db nothing = Ok (L, (m, found)) ->
  (List.length found <= most)%nat /\ StronglySorted (fun x y => snd y <= snd x) found /\
  forall c s, In (c, s) found ->
    In c db /\ asked_for ref maker same c /\ (forall f, matters ref weight f -> similar ref L f c) /\ (0 < lw -> works ref L c).
Proof.
  intros fuel ref weight lw sw greatest maker same most db L m found N H.
  destruct (search_fresh _ _ _ _ _ _ _ _ _ _ _ _ _ N H) as [(-> & ->)|(P & K)].
  - split; [cbn; lia|]. split; [constructor|]. intros c s [].
  - destruct (round_spec _ _ _ _ _ _ _ _ K) as (A & B & C & _). split; [exact A|]. split.
    + clear - B. induction B as [|x l S IH F]; constructor; [exact IH|]. eapply Forall_impl; [|exact F]. intros y Y. unfold above in Y. cbn in Y. qb. lra.
    + intros c s I0. destruct (C _ I0) as (C1 & C2). apply filter_In in C1. destruct C1 as (C1 & C3). apply contender_iff in C3. cbn [fst] in *. tauto.
Qed.
(** Unless losses are looked at, a list that is not full has every core asked for that is
    similar; and it is not full only if the limit was passed. *)
Theorem C214_complete : forall fuel ref weight lw sw greatest maker same most db L m found, one_name_each db ->
  search fuel ref weight lw sw greatest maker same most db nothing = Ok (L, (m, found)) -> 0 <= greatest ->
  (List.length found < most)%nat ->
  greatest < L /\
  ((lw <= 0 \/ c_losses ref = None) -> forall c, In c db -> asked_for ref maker same c -> (forall f, matters ref weight f -> similar ref L f c) -> exists s, In (c, s) found).
Proof.
  intros fuel ref weight lw sw greatest maker same most db L m found N H G LT.
  destruct (widen_limit _ _ _ _ _ _ _ _ _ _ _ _ (Qle_refl 0) (or_introl (Qeq_refl 0)) H) as (_ & K). cbn [fst snd] in K. specialize (K LT). split; [exact K|].
  intros NL c C AF SIM. destruct (search_fresh _ _ _ _ _ _ _ _ _ _ _ _ _ N H) as [(-> & _)|(P & R)]; [lra|].
  destruct (round_spec _ _ _ _ _ _ _ _ R) as (_ & _ & _ & _ & _ & Cm).
  assert (I0 : In c (filter (contender ref maker same) db)) by (apply filter_In; split; [exact C|apply contender_iff, AF]).
  specialize (Cm NL LT c I0 SIM). apply in_map_iff in Cm. destruct Cm as ((c' & s) & E & I1). cbn [fst] in E. subst c'. exists s. exact I1.
Qed.
(** The search ends, with a limit no more than twice the greatest (or a quarter). *)
Theorem C214_ends : forall ref weight lw sw greatest maker same most db, one_name_each db ->
  exists fuel, search fuel ref weight lw sw greatest maker same most db nothing <> OutOfFuel /\
  forall L r, search fuel ref weight lw sw greatest maker same most db nothing = Ok (L, r) -> L == 0 \/ L <= cmax (1 # 4) (2 * greatest).
Proof.
  intros ref weight lw sw greatest maker same most db N. set (cs := filter (contender ref maker same) db).
  pose proof (filter_names db (contender ref maker same) N) as NC. fold cs in NC.
  destruct (Qarchimedean (4 * greatest)) as (p & AP). exists (Datatypes.S (Pos.to_nat p)). split.
  - unfold search. fold cs. cbn [widen]. destruct (_ && _)%bool; [|discriminate]. destruct (next_grows 0 (Qle_refl 0)) as (G1 & _).
    destruct (apply_plain cs NC ref weight lw sw (next_limit 0) most nothing (faithful_mono cs ref _ _ _ G1 (faithful_nothing cs ref 0))) as (m' & FM & E). rewrite E.
    destruct (plain_filters ref weight lw sw (next_limit 0) most cs) as [r|w|w|] eqn:P; cbn [bind]; try discriminate; [|now apply plain_filters_fueled in P].
    cbn [fst snd]. apply (widen_ends cs NC); [vm_compute; discriminate|exact FM|]. rewrite positive_nat_Z.
    assert (Z : next_limit 0 == 1 # 4) by reflexivity. rewrite Z. change (inject_Z (Z.pos p)) with (Z.pos p # 1). lra.
  - intros L r H. exact (proj1 (widen_limit _ _ _ _ _ _ _ _ _ _ _ _ (Qle_refl 0) (or_introl (Qeq_refl 0)) H)).
Qed.

(** C215: the rounds before leave no trace: the results are those of one round, at the
    limit reached, of a fresh referencer. *)
Theorem C215_no_trace : forall fuel ref weight lw sw greatest maker same most db L m found, one_name_each db ->
  search fuel ref weight lw sw greatest maker same most db nothing = Ok (L, (m, found)) -> ~ L == 0 ->
  exists m', apply_filters ref weight lw sw L most nothing (filter (contender ref maker same) db) = Ok (m', found).
Proof.
  intros fuel ref weight lw sw greatest maker same most db L m found N H NZ.
  destruct (search_fresh _ _ _ _ _ _ _ _ _ _ _ _ _ N H) as [(-> & _)|(P & R)]; [now elim NZ|].
  destruct (apply_plain _ (filter_names _ (contender ref maker same) N) ref weight lw sw L most nothing (faithful_nothing _ ref L)) as (m' & _ & E).
  exists m'. rewrite E, R. reflexivity.
Qed.

(** C216: scores. *)
Theorem C216_bounds : forall fuel ref weight lw sw greatest maker same most db L m found, one_name_each db -> 0 <= sw ->
  search fuel ref weight lw sw greatest maker same most db nothing = Ok (L, (m, found)) -> forall c s, In (c, s) found ->
  0 <= s <= cmax 0 (weight Permeance) + cmax 0 (weight Window) + cmax 0 (weight Volume) + cmax 0 (weight Area) + cmax 0 lw + sw.
Proof.
  intros fuel ref weight lw sw greatest maker same most db L m found N S H c s I0.
  destruct (search_fresh _ _ _ _ _ _ _ _ _ _ _ _ _ N H) as [(-> & ->)|(P & K)]; [destruct I0|].
  destruct (round_spec _ _ _ _ _ _ _ _ K) as (_ & _ & _ & B & _). exact (B S _ I0).
Qed.
(** Without a weight for saturation, a core no farther in anything never gets less. *)
Theorem C216_dominance : forall fuel ref weight lw sw greatest maker same most db L m found, one_name_each db -> sw == 0 ->
  search fuel ref weight lw sw greatest maker same most db nothing = Ok (L, (m, found)) ->
  forall a sa b sb, In (a, sa) found -> In (b, sb) found -> no_farther ref weight lw a b -> sb <= sa.
Proof.
  intros fuel ref weight lw sw greatest maker same most db L m found N S H a sa b sb IA IB NF.
  destruct (search_fresh _ _ _ _ _ _ _ _ _ _ _ _ _ N H) as [(-> & ->)|(P & K)]; [destruct IA|].
  destruct (round_spec _ _ _ _ _ _ _ _ K) as (_ & _ & _ & _ & D & _). exact (D S _ _ IA IB NF).
Qed.

(** * Cases *)
Definition w_core (name shape : nat) (permeance : Q) (losses : option (Q * Q)) : core :=
  mkCore name shape 1 1 permeance (Some 10) 10 (10, 10, 10) losses 4 true.
Definition w_ref : core := w_core 0 1 100 (Some (10, 1)).
Definition w_by (f : figure) : Q := match f with Permeance => 1 | _ => 0 end.
Definition w_all (f : figure) : Q := 1.
Definition w_db : list core := [w_core 1 2 160 (Some (11, 2)); w_core 2 3 110 (Some (12, 1)); w_core 3 1 100 (Some (10, 1))].
Lemma names_by : forall db, NoDup (map c_name db) -> one_name_each db.
Proof.
  induction db as [|x r IH]; intros D c c' C C' E; [destruct C|]. cbn [map] in D. inversion D as [|? ? NI ND]; subst.
  destruct C as [<-|C], C' as [<-|C']; [reflexivity| | |apply (IH ND); assumption]; exfalso; apply NI; [rewrite E|rewrite <- E]; apply in_map; assumption.
Qed.
Ltac distinct := apply names_by; repeat constructor; cbn; intuition discriminate.
(** The reference itself is not returned; the limit goes up to 1 for the second core. *)
Example C214_witness : one_name_each w_db /\
  match search 5 w_ref w_all 1 0 1 None false 2 w_db nothing with
  | Ok (L, (m, found)) => L == 1 /\ map (fun x => c_name (fst x)) found = [2; 1]%nat
  | _ => False
  end.
Proof. split; [distinct|]. vm_compute. auto. Qed.
Example C214_complete_witness :
  match search 5 w_ref w_by 0 0 1 None false 3 w_db nothing with
  | Ok (L, (m, found)) => L == 2 /\ map (fun x => c_name (fst x)) found = [2; 1]%nat
  | _ => False
  end.
Proof. vm_compute. auto. Qed.
Example C216_witness :
  match search 5 w_ref w_by 1 0 1 None false 2 [w_core 1 2 160 (Some (12, 2)); w_core 2 3 110 (Some (11, 1))] nothing with
  | Ok (L, (m, [(a, sa); (b, sb)])) => c_name a = 2%nat /\ c_name b = 1%nat /\ sb < sa /\ apart w_ref Permeance a < apart w_ref Permeance b /\
      losses_apart w_ref a < losses_apart w_ref b
  | _ => False
  end.
Proof. vm_compute. repeat split; reflexivity. Qed.

(** The limit reached and the cores found. *)
Definition shown (r : outcome (Q * (memory * list (core * Q)))) : option (Q * list (core * Q)) :=
  match r with Ok (L, (_, found)) => Some (L, found) | _ => None end.
Lemma shown_ok : forall r L found, shown r = Some (L, found) -> exists m, r = Ok (L, (m, found)).
Proof. intros [(L', (m, f'))|w|w|] L found H; cbn in H; try discriminate. injection H as <- <-. exists m. reflexivity. Qed.

(** The limit set is passed: with 1, a core more than twice as permeable is returned. *)
Theorem C214_limit_refuted : ~ (forall fuel ref weight lw sw greatest maker same most db L m found, one_name_each db ->
  search fuel ref weight lw sw greatest maker same most db nothing = Ok (L, (m, found)) ->
  forall c s f, In (c, s) found -> matters ref weight f -> similar ref greatest f c).
Proof.
  intro H. set (db := [w_core 1 2 250 None]). assert (N : one_name_each db) by distinct.
  let v := eval vm_compute in (shown (search 5 w_ref w_by 0 0 1 None false 1 db nothing)) in assert (E : shown (search 5 w_ref w_by 0 0 1 None false 1 db nothing) = v) by (vm_compute; reflexivity).
  apply shown_ok in E. destruct E as (m & E).
  pose proof (H _ _ _ _ _ _ _ _ _ _ _ _ _ N E _ _ Permeance (or_introl eq_refl)) as (_ & K); [split; [reflexivity|discriminate]|]. vm_compute in K. discriminate.
Qed.
(** Looking at losses, only the best eleven tenths are looked at: a core that is similar and
    works is left out of a list that is not full. *)
Theorem C214_losses_complete_refuted : ~ (forall fuel ref weight lw sw greatest maker same most db L m found, one_name_each db ->
  search fuel ref weight lw sw greatest maker same most db nothing = Ok (L, (m, found)) -> 0 <= greatest -> (List.length found < most)%nat ->
  forall c, In c db -> asked_for ref maker same c -> (forall f, matters ref weight f -> similar ref L f c) -> works ref L c -> exists s, In (c, s) found).
Proof.
  intro H. set (good := w_core 2 3 110 (Some (10, 1))). set (db := [w_core 1 2 100 None; good]). assert (N : one_name_each db) by distinct.
  let v := eval vm_compute in (shown (search 5 w_ref w_by 1 0 (1 # 4) None false 1 db nothing)) in assert (E : shown (search 5 w_ref w_by 1 0 (1 # 4) None false 1 db nothing) = v) by (vm_compute; reflexivity).
  apply shown_ok in E. destruct E as (m & E).
  destruct (H _ _ _ _ _ _ _ _ _ _ _ _ _ N E ltac:(discriminate) ltac:(cbn; lia) good) as (s & []).
  - right. left. reflexivity.
  - unfold asked_for. split; [left; discriminate|]. split; [discriminate|]. split; [discriminate|reflexivity].
  - intros f (W & _). destruct f; try (vm_compute in W; discriminate). split; [discriminate|reflexivity].
  - intros loss peak K. injection K as <- <-. exists 10, 1. split; [reflexivity|]. split; [reflexivity|]. left. split; [discriminate|reflexivity].
Qed.
(** A second search on the same referencer, for another core, takes the distances from the
    first one: cores that are not similar are returned, and the farther one first. *)
Theorem C215_memory_refuted : exists ref ref' db L a sa b sb, one_name_each db /\
  shown (bind (search 9 ref w_by 0 0 10 None false 2 db nothing) (fun r => search 9 ref' w_by 0 0 10 None false 2 db (fst (snd r)))) = Some (L, [(a, sa); (b, sb)]) /\
  sb < sa /\ apart ref' Permeance b < apart ref' Permeance a /\ ~ similar ref' L Permeance a /\ ~ similar ref' L Permeance b.
Proof.
  exists w_ref, (w_core 0 1 1000 None), [w_core 1 2 110 None; w_core 2 3 700 None].
  do 5 eexists. split; [distinct|]. split; [vm_compute; reflexivity|].
  split; [vm_compute; reflexivity|]. split; [vm_compute; reflexivity|]. split; intros (_ & K); vm_compute in K; discriminate.
Qed.
(** With a weight for saturation, its terms go to the wrong cores: one whose losses and use
    of the material are those of the reference comes after one that differs in both. *)
Definition use_apart (ref c : core) : Q :=
  match c_losses ref, c_losses c with
  | Some (_, p), Some (_, b) => Qabs (p / c_saturation ref - b / c_saturation c)
  | _, _ => 0
  end.
Theorem C216_saturation_refuted : ~ (forall fuel ref weight lw sw greatest maker same most db L m found, one_name_each db -> 0 <= sw ->
  search fuel ref weight lw sw greatest maker same most db nothing = Ok (L, (m, found)) ->
  forall a sa b sb, In (a, sa) found -> In (b, sb) found -> no_farther ref weight lw a b -> use_apart ref a <= use_apart ref b -> sb <= sa).
Proof.
  intro H. set (db := [w_core 1 2 100 (Some (11, 2)); w_core 2 3 100 (Some (10, 1))]). assert (N : one_name_each db) by distinct.
  let v := eval vm_compute in (shown (search 5 w_ref (fun _ => 0) 1 3 1 None false 2 db nothing)) in assert (E : shown (search 5 w_ref (fun _ => 0) 1 3 1 None false 2 db nothing) = v) by (vm_compute; reflexivity).
  apply shown_ok in E. destruct E as (m & E).
  match type of E with _ = Ok (_, (_, [(?b, ?sb); (?a, ?sa)])) =>
    assert (NF : no_farther w_ref (fun _ => 0) 1 a b);
    [split; [intros f (W & _); exfalso; exact (Qlt_irrefl 0 W)|intros _; apply Qle_bool_iff; vm_compute; reflexivity]|];
    assert (UA : use_apart w_ref a <= use_apart w_ref b) by (apply Qle_bool_iff; vm_compute; reflexivity);
    assert (SC : Qle_bool sb sa = false) by (vm_compute; reflexivity);
    assert (SW : 0 <= 3) by discriminate;
    pose proof (H _ _ _ _ _ _ _ _ _ _ _ _ _ N SW E a sa b sb (or_intror (or_introl eq_refl)) (or_introl eq_refl) NF UA) as K
  end.
  apply Qle_bool_iff in K. rewrite K in SC. discriminate.
Qed.

(** C217: reported scores are those of the ranking for distances that are not tiny... *)
Theorem C217_agrees : forall w mx mn d, 0 <= mn -> mn <= d <= mx -> (1 # 10000000000) <= d -> mx * (1 # 1000000) <= d ->
  reported true w mx mn d == term w mx mn d.
Proof.
  intros w mx mn d M D F R. unfold reported, term. cbv zeta. set (fl := floor_of mx).
  assert (LE : cmax absolute_floor (cmax mn (mx * relative_floor)) == cmax fl mn).
  { apply Qle_antisym; subst fl; unfold floor_of; repeat apply cmax_le.
    - eapply Qle_trans; [apply cmax_ge_l|apply cmax_ge_l].
    - apply cmax_ge_r.
    - eapply Qle_trans; [apply cmax_ge_r|apply cmax_ge_l].
    - apply cmax_ge_l.
    - eapply Qle_trans; [apply cmax_ge_r|apply cmax_ge_r].
    - eapply Qle_trans; [apply cmax_ge_l|apply cmax_ge_r]. }
  assert (DF : cmax fl d == d). { apply Qle_antisym; [|apply cmax_ge_r]. apply cmax_le; [|apply Qle_refl]. subst fl. unfold floor_of. apply cmax_le; [exact F|exact R]. }
  set (l1 := cmax absolute_floor _) in *. set (l2 := cmax fl mn) in *. clearbody l1 l2 fl.
  destruct (Qeq_bool l1 mx) eqn:E1, (Qeq_bool mx l2) eqn:E2; try reflexivity.
  - apply Qeq_bool_iff in E1. apply Qeq_bool_neq in E2. exfalso. apply E2. rewrite <- E1, LE. reflexivity.
  - apply Qeq_bool_neq in E1. apply Qeq_bool_iff in E2. exfalso. apply E1. rewrite E2, LE. reflexivity.
  - rewrite DF, LE. reflexivity.
Qed.
Example C217_witness : (1 # 10000000000) <= 3 /\ reported true 2 5 1 3 == term 2 5 1 3 /\ reported true 2 5 1 3 == 1.
Proof. split; [discriminate|]. split; reflexivity. Qed.
(** ... but not else: an equal core is reported with more than the weight, and when all are
    equal with nothing, although the ranking gives them all of it. *)
Theorem C217_bounds_refuted : ~ (forall w mx mn d, 0 <= w -> 0 <= mn -> mn <= d <= mx -> 0 <= reported true w mx mn d <= w).
Proof. intro H. destruct (H 1 1 0 0 ltac:(discriminate) ltac:(discriminate) ltac:(split; discriminate)) as (_ & K). vm_compute in K. apply K. reflexivity. Qed.
Theorem C217_equal_refuted : forall w, 0 < w -> term w 0 0 0 == w /\ reported true w 0 0 0 == 0.
Proof.
  intros w W. split; unfold term, reported; cbv zeta.
  - replace (Qeq_bool 0 (cmax (floor_of 0) 0)) with false by reflexivity.
    assert (E : (cmax (floor_of 0) 0 - cmax (floor_of 0) 0) / (0 - cmax (floor_of 0) 0) == 0) by reflexivity. rewrite E. ring.
  - replace (Qeq_bool _ 0) with false by reflexivity.
    assert (E : (0 - cmax absolute_floor (cmax 0 (0 * relative_floor))) / (0 - cmax absolute_floor (cmax 0 (0 * relative_floor))) == 1) by reflexivity. rewrite E. ring.
Qed.

Print Assumptions C214_results.
Print Assumptions C214_complete.
Print Assumptions C214_ends.
Print Assumptions C215_no_trace.
Print Assumptions C216_bounds.
Print Assumptions C216_dominance.
Print Assumptions C214_limit_refuted.
Print Assumptions C214_losses_complete_refuted.
Print Assumptions C215_memory_refuted.
Print Assumptions C216_saturation_refuted.
Print Assumptions C217_agrees.
Print Assumptions C217_bounds_refuted.
Print Assumptions C217_equal_refuted.
