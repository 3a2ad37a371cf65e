(** Facts about the core cross referencer used in CrossProperties.v. *)
From Coq Require Import QArith Qabs List Bool String Arith Lia Lqa Permutation Sorting.
From Verif Require Import Base QAux UtilsNumModel UtilsNumProofs AdviserProofs WireAdviseModel WireAdviseProofs CrossModel.
Import ListNotations.
Local Open Scope Q_scope.

(** * What a distance adds *)
Lemma floor_pos : forall mx, 0 < floor_of mx.
Proof. intro mx. unfold floor_of. eapply Qlt_le_trans; [|apply cmax_ge_l]. reflexivity. Qed.
Lemma cmax_le : forall a b c, a <= c -> b <= c -> cmax a b <= c.
Proof. intros. apply cmax_lub; assumption. Qed.
Lemma cmax_mono : forall a b c, b <= c -> cmax a b <= cmax a c.
Proof. intros a b c H. apply cmax_le; [apply cmax_ge_l|]. eapply Qle_trans; [exact H|apply cmax_ge_r]. Qed.
Lemma frac_mono : forall a b k, 0 < k -> a <= b -> a / k <= b / k.
Proof. intros a b k K H. unfold Qdiv. apply Qmult_le_compat_r; [exact H|]. apply Qlt_le_weak, Qinv_lt_0_compat, K. Qed.
Lemma term_spec : forall w mx mn d, 0 <= w -> mn <= d <= mx ->
  0 <= term w mx mn d <= w /\ (forall d', d <= d' <= mx -> term w mx mn d' <= term w mx mn d).
Proof.
  intros w mx mn d W (L & H). unfold term. cbv zeta. destruct (Qeq_bool mx (cmax (floor_of mx) mn)) eqn:E.
  - unfold neutral. split; [split; lra|]. intros. lra.
  - apply Qeq_bool_neq in E. set (fl := floor_of mx) in *. set (least := cmax fl mn) in *.
    assert (G : forall x, mn <= x <= mx -> least <= cmax fl x) by (intros x X; apply cmax_mono, X).
    destruct (Qlt_le_dec mx least) as [S|S].
    + assert (ML : least == fl). { subst least. destruct (cmax_case fl mn) as [X|X]; rewrite X; [reflexivity|]. rewrite X in S. lra. }
      assert (K : forall x, mn <= x <= mx -> cmax fl x - least == 0).
      { intros x X. pose proof (cmax_ge_l fl x) as Z. destruct (cmax_case fl x) as [Y|Y]; rewrite Y in *; lra. }
      assert (T : forall x, mn <= x <= mx -> w * (1 - (cmax fl x - least) / (mx - least)) == w).
      { intros x X. rewrite (K x X). field. lra. }
      rewrite (T d) by (split; lra). split; [split; lra|]. intros d' D. rewrite (T d') by (split; lra). rewrite (T d) by (split; lra). lra.
    + assert (P : 0 < mx - least). { destruct (Qlt_le_dec least mx) as [X|X]; [lra|]. exfalso. apply E. lra. }
      assert (U : forall x, mn <= x <= mx -> 0 <= (cmax fl x - least) / (mx - least) <= 1).
      { intros x X. specialize (G x X). assert (cmax fl x <= mx). { apply cmax_le; [|apply X]. eapply Qle_trans; [|exact S]. apply cmax_ge_l. }
        split; [apply Qle_shift_div_l; [exact P|lra]|apply Qle_shift_div_r; [exact P|lra]]. }
      pose proof (U d ltac:(split; lra)) as Ud. split; [split; nra|]. intros d' D.
      assert (F : (cmax fl d - least) / (mx - least) <= (cmax fl d' - least) / (mx - least)).
      { apply frac_mono; [exact P|]. pose proof (cmax_mono fl d d' ltac:(lra)). lra. }
      pose proof (U d' ltac:(split; lra)). nra.
Qed.

(** * Grading *)
Lemma above_asym : forall (A : Type) (a b : A * Q), above a b = true -> above b a = false.
Proof. intros A a b H. unfold above in *. apply Qlt_bool_false. qb. lra. Qed.
Lemma above_negtrans : forall (A : Type) (a b c : A * Q), above b a = false -> above c b = false -> above c a = false.
Proof. intros A a b c H K. unfold above in *. apply Qlt_bool_false. qb. lra. Qed.
Definition greatest_of (ds : list Q) : Q := match ds with [] => 0 | d :: r => Qmaxl d r end.
Definition least_of (ds : list Q) : Q := match ds with [] => 0 | d :: r => Qminl d r end.
Lemma extremes : forall ds d, In d ds -> least_of ds <= d <= greatest_of ds.
Proof. intros [|x r] d I0; [destruct I0|]. split; [apply (proj2 (Qminl_spec r x)), I0|apply (proj2 (Qmaxl_spec r x)), I0]. Qed.
Lemma grade_perm : forall (A : Type) w (l : list (A * Q)) ds, List.length l = List.length ds ->
  Permutation (grade w l ds) (map (fun p => (fst (fst p), snd (fst p) + term w (greatest_of ds) (least_of ds) (snd p))) (combine l ds)).
Proof. intros A w l [|d r] L; [destruct l; [constructor|discriminate]|]. apply sort_perm. Qed.
Lemma grade_order : forall (A : Type) w (l : list (A * Q)) ds, List.length l = List.length ds -> in_order _ above (grade w l ds).
Proof.
  intros A w l [|d r] L; [destruct l; [constructor|discriminate]|]. apply sort_order; [apply above_asym|apply above_negtrans].
Qed.
Lemma grade_length : forall (A : Type) w (l : list (A * Q)) ds, List.length l = List.length ds -> List.length (grade w l ds) = List.length l.
Proof. intros A w l ds L. rewrite (Permutation_length (grade_perm A w l ds L)), map_length, combine_length. lia. Qed.
Lemma combine_split_back : forall (A B : Type) (t : list (A * B)), combine (map fst t) (map snd t) = t.
Proof. induction t as [|(a, b) t IH]; [reflexivity|]. cbn [map combine fst snd]. now rewrite IH. Qed.
Lemma grade_in : forall (A : Type) w (t : list ((A * Q) * Q)) x, In x (grade w (map fst t) (map snd t)) <->
  exists y d, In (y, d) t /\ x = (fst y, snd y + term w (greatest_of (map snd t)) (least_of (map snd t)) d).
Proof.
  intros A w t x. assert (L : List.length (map fst t) = List.length (map snd t)) by now rewrite !map_length.
  assert (C : combine (map fst t) (map snd t) = t) by apply combine_split_back.
  split.
  - intro I0. apply (Permutation_in _ (grade_perm _ w _ _ L)) in I0. rewrite C in I0. apply in_map_iff in I0. destruct I0 as ((y & d) & <- & I0). exists y, d. auto.
  - intros (y & d & I0 & ->). apply (Permutation_in _ (Permutation_sym (grade_perm _ w _ _ L))). rewrite C. apply in_map_iff. exists (y, d). auto.
Qed.

(** * Surveys without memory *)
Fixpoint plain (nr : core -> outcome (option Q)) (l : list (core * Q)) : outcome (list ((core * Q) * Q)) :=
  match l with
  | [] => Ok []
  | x :: r =>
      bind (nr (fst x)) (fun v =>
      match v with
      | Some d => bind (plain nr r) (fun t => Ok ((x, d) :: t))
      | None => plain nr r
      end)
  end.
Fixpoint plain_losses (nr : core -> option (Q * Q)) (l : list (core * Q)) : list ((core * Q) * (Q * Q)) :=
  match l with
  | [] => []
  | x :: r => match nr (fst x) with Some d => (x, d) :: plain_losses nr r | None => plain_losses nr r end
  end.
Lemma plain_in : forall nr l t, plain nr l = Ok t -> forall x d, In (x, d) t <-> In x l /\ nr (fst x) = Ok (Some d).
Proof.
  induction l as [|y r IH]; intros t H x d; cbn [plain] in H.
  - injection H as <-. split; [intros []|intros ([] & _)].
  - apply bind_ok in H. destruct H as (v & E & H). destruct v as [e|].
    + apply bind_ok in H. destruct H as (t' & E' & H). injection H as <-. cbn [In]. rewrite (IH t' E' x d). split.
      * intros [X|(X & Y)]; [injection X as <- <-; auto|auto].
      * intros ([<-|X] & Y); [left; congruence|right; auto].
    + rewrite (IH t H x d). split; [intros (X & Y); split; [right; exact X|exact Y]|]. intros ([<-|X] & Y); [congruence|auto].
Qed.
Lemma plain_losses_in : forall nr l x d, In (x, d) (plain_losses nr l) <-> In x l /\ nr (fst x) = Some d.
Proof.
  induction l as [|y r IH]; intros x d; cbn [plain_losses]; [split; [intros []|intros ([] & _)]|].
  destruct (nr (fst y)) as [e|] eqn:E; cbn [In]; rewrite (IH x d).
  - split; [intros [X|(X & Y)]; [injection X as <- <-; auto|auto]|]. intros ([<-|X] & Y); [left; congruence|right; auto].
  - split; [intros (X & Y); auto|]. intros ([<-|X] & Y); [congruence|auto].
Qed.

(** * Memory *)
Section Memory.
Variable cs : list core.
Hypothesis names : forall c c', In c cs -> In c' cs -> c_name c = c_name c' -> c = c'.
Definition good (f : figure) (nr : core -> outcome (option Q)) (m : memory) : Prop :=
  forall c d, In c cs -> figures m f (c_name c) = Some d -> nr c = Ok (Some d).
Definition good_both (nr : core -> option (Q * Q)) (m : memory) : Prop :=
  forall c d, In c cs -> both m (c_name c) = Some d -> nr c = Some d.
Lemma figure_eqb_refl : forall f, figure_eqb f f = true.
Proof. now destruct f. Qed.
Lemma figure_eqb_neq : forall f g, f <> g -> figure_eqb g f = false.
Proof. intros [] []; intro N; try reflexivity; now elim N. Qed.
Lemma survey_plain : forall f nr l m, (forall x, In x l -> In (fst x) cs) -> good f nr m ->
  exists m', good f nr m' /\ (forall g, g <> f -> figures m' g = figures m g) /\ both m' = both m /\
    survey f nr m l = bind (plain nr l) (fun t => Ok (t, m')).
Proof.
  intros f nr. induction l as [|x r IH]; intros m I0 G; [exists m; cbn; auto|]. cbn [survey plain].
  assert (I1 : forall y, In y r -> In (fst y) cs) by (intros y Y; apply I0; right; exact Y).
  pose proof (I0 x (or_introl eq_refl)) as IX. destruct (figures m f (c_name (fst x))) as [d|] eqn:E.
  - destruct (IH m I1 G) as (m' & A & B & C & D). exists m'. split; [exact A|]. split; [exact B|]. split; [exact C|].
    rewrite (G _ _ IX E), D. cbn [bind]. now destruct (plain nr r).
  - destruct (nr (fst x)) as [[d|]|w|w|] eqn:N; cbn [bind].
    + assert (G' : good f nr (remember f (c_name (fst x)) d m)).
      { intros c e IC. cbn [figures remember]. rewrite figure_eqb_refl. cbn [andb]. destruct (Nat.eqb_spec (c_name c) (c_name (fst x))) as [Q0|Q0].
        - intro X. injection X as <-. rewrite (names c (fst x) IC IX Q0). exact N.
        - apply G, IC. }
      destruct (IH _ I1 G') as (m' & A & B & C & D). exists m'. split; [exact A|]. split; [|split; [rewrite C; reflexivity|]].
      * intros g Hg. rewrite (B g Hg). cbn [figures remember]. rewrite (figure_eqb_neq f g) by congruence. reflexivity.
      * rewrite D. now destruct (plain nr r).
    + destruct (IH m I1 G) as (m' & A & B & C & D). exists m'. split; [exact A|]. split; [exact B|]. split; [exact C|]. rewrite D. reflexivity.
    + exists m. auto.
    + exists m. auto.
    + exists m. auto.
Qed.
Lemma losses_plain : forall ref limit loss peak l m, (forall x, In x l -> In (fst x) cs) -> good_both (loss_distance ref limit loss peak) m ->
  exists m', good_both (loss_distance ref limit loss peak) m' /\ figures m' = figures m /\
    survey_losses ref limit loss peak m l = (plain_losses (loss_distance ref limit loss peak) l, m').
Proof.
  intros ref limit loss peak. induction l as [|x r IH]; intros m I0 G; [exists m; cbn; auto|]. cbn [survey_losses plain_losses].
  assert (I1 : forall y, In y r -> In (fst y) cs) by (intros y Y; apply I0; right; exact Y).
  pose proof (I0 x (or_introl eq_refl)) as IX. destruct (both m (c_name (fst x))) as [d|] eqn:E.
  - destruct (IH m I1 G) as (m' & A & B & D). exists m'. split; [exact A|]. split; [exact B|]. rewrite (G _ _ IX E), D. reflexivity.
  - destruct (loss_distance ref limit loss peak (fst x)) as [d|] eqn:N.
    + assert (G' : good_both (loss_distance ref limit loss peak) (remember_both (c_name (fst x)) d m)).
      { intros c e IC. cbn [both remember_both]. destruct (Nat.eqb_spec (c_name c) (c_name (fst x))) as [Q0|Q0].
        - intro X. injection X as <-. rewrite (names c (fst x) IC IX Q0). exact N.
        - apply G, IC. }
      destruct (IH _ I1 G') as (m' & A & B & D). exists m'. split; [exact A|]. split; [exact B|]. rewrite D. reflexivity.
    + apply (IH m I1 G).
Qed.
End Memory.

(** * The filters without memory *)
Definition counts (ref : core) (weight : figure -> Q) (f : figure) : Prop := 0 < weight f /\ (f = Volume -> flat ref = false).
Definition plain_filtered (nr : core -> outcome (option Q)) (w : Q) (l : list (core * Q)) : outcome (list (core * Q)) :=
  bind (plain nr l) (fun t => Ok (grade w (map fst t) (map snd t))).
Definition plain_figure (ref : core) (weight : figure -> Q) (limit : Q) (f : figure) (l : list (core * Q)) : outcome (list (core * Q)) :=
  if Qle_bool (weight f) 0 then Ok l
  else match f with
       | Window => match c_window ref with
                   | None => Throw "Winding window is missing area"
                   | Some _ => plain_filtered (near ref limit f) (weight f) l
                   end
       | Volume => if flat ref then Ok l else plain_filtered (near ref limit f) (weight f) l
       | _ => plain_filtered (near ref limit f) (weight f) l
       end.
Definition plain_by_losses (ref : core) (lw sw limit : Q) (l : list (core * Q)) : list (core * Q) :=
  if Qle_bool lw 0 then l
  else match c_losses ref with
       | None => l
       | Some (loss, peak) =>
           let t := plain_losses (loss_distance ref limit loss peak) l in
           grade sw (grade lw (map fst t) (map (fun p => fst (snd p)) t)) (map (fun p => snd (snd p)) t)
       end.
Definition plain_filters (ref : core) (weight : figure -> Q) (lw sw limit : Q) (most : nat) (cs : list core) : outcome (list (core * Q)) :=
  bind (plain_figure ref weight limit Permeance (map (fun c => (c, 0)) cs)) (fun a =>
  bind (plain_figure ref weight limit Window a) (fun b =>
  bind (plain_figure ref weight limit Volume b) (fun c =>
  bind (plain_figure ref weight limit Area c) (fun d =>
  Ok (firstn most (plain_by_losses ref lw sw limit (firstn (11 * most / 10) d))))))).

Lemma plain_figure_cases : forall ref weight limit f l r, plain_figure ref weight limit f l = Ok r ->
  (~ counts ref weight f /\ r = l) \/ (counts ref weight f /\ plain_filtered (near ref limit f) (weight f) l = Ok r).
Proof.
  intros ref weight limit f l r H. unfold plain_figure in H. destruct (Qle_bool (weight f) 0) eqn:E.
  - left. injection H as <-. split; [|reflexivity]. intros (X & _). qb. lra.
  - assert (W : 0 < weight f) by (qb; lra). destruct f.
    + right. split; [split; [exact W|discriminate]|exact H].
    + right. destruct (c_window ref) as [r0|]; [|discriminate]. split; [split; [exact W|discriminate]|exact H].
    + destruct (flat ref) eqn:F; [left|right].
      * injection H as <-. split; [|reflexivity]. intros (_ & X). rewrite (X eq_refl) in F. discriminate.
      * split; [split; [exact W|intros _; exact F]|exact H].
    + right. split; [split; [exact W|discriminate]|exact H].
Qed.
Lemma plain_figure_in : forall ref weight limit f l r, plain_figure ref weight limit f l = Ok r -> forall x, In x r ->
  (exists y, In y l /\ fst y = fst x) /\ (counts ref weight f -> exists d, near ref limit f (fst x) = Ok (Some d)).
Proof.
  intros ref weight limit f l r H x X. destruct (plain_figure_cases _ _ _ _ _ _ H) as [(N & ->)|(C & K)].
  - split; [exists x; auto|]. intro. contradiction.
  - unfold plain_filtered in K. apply bind_ok in K. destruct K as (t & E & K). injection K as <-. apply grade_in in X.
    destruct X as (y & d & I0 & ->). apply (plain_in _ _ _ E) in I0. destruct I0 as (I0 & N). split; [exists y; auto|]. intros _. exists d. exact N.
Qed.
Lemma plain_figure_keeps : forall ref weight limit f l r, plain_figure ref weight limit f l = Ok r -> forall x, In x l ->
  (counts ref weight f -> exists d, near ref limit f (fst x) = Ok (Some d)) -> exists y, In y r /\ fst y = fst x.
Proof.
  intros ref weight limit f l r H x X P. destruct (plain_figure_cases _ _ _ _ _ _ H) as [(N & ->)|(C & K)]; [exists x; auto|].
  unfold plain_filtered in K. apply bind_ok in K. destruct K as (t & E & K). injection K as <-. destruct (P C) as (d & D).
  pose proof (proj2 (plain_in _ _ _ E x d) (conj X D)) as T. eexists. split; [apply grade_in; exists x, d; split; [exact T|reflexivity]|reflexivity].
Qed.
Lemma plain_figure_order : forall ref weight limit f l r, plain_figure ref weight limit f l = Ok r -> in_order _ above l -> in_order _ above r.
Proof.
  intros ref weight limit f l r H O. destruct (plain_figure_cases _ _ _ _ _ _ H) as [(N & ->)|(C & K)]; [exact O|].
  unfold plain_filtered in K. apply bind_ok in K. destruct K as (t & E & K). injection K as <-. apply grade_order. now rewrite !map_length.
Qed.
Lemma plain_figure_bounds : forall ref weight limit f l r lo hi, plain_figure ref weight limit f l = Ok r ->
  (forall x, In x l -> lo <= snd x <= hi) -> forall x, In x r -> lo <= snd x <= hi + cmax 0 (weight f).
Proof.
  intros ref weight limit f l r lo hi H B x X. pose proof (cmax_ge_l 0 (weight f)) as Z. pose proof (cmax_ge_r 0 (weight f)) as Z'.
  destruct (plain_figure_cases _ _ _ _ _ _ H) as [(N & ->)|((C & _) & K)]; [specialize (B x X); split; lra|].
  unfold plain_filtered in K. apply bind_ok in K. destruct K as (t & E & K). injection K as <-. apply grade_in in X.
  destruct X as (y & d & I0 & ->). pose proof (extremes (map snd t) d (in_map snd _ _ I0)) as XT. apply (plain_in _ _ _ E) in I0. specialize (B y (proj1 I0)).
  destruct (term_spec (weight f) _ _ d ltac:(lra) XT) as (T & _). cbn [snd]. split; lra.
Qed.
Lemma plain_figure_dominance : forall ref weight limit f l r (better : core -> core -> Prop), plain_figure ref weight limit f l = Ok r ->
  (forall a b, better a b -> counts ref weight f -> forall d e, near ref limit f a = Ok (Some d) -> near ref limit f b = Ok (Some e) -> d <= e) ->
  (forall a b, In a l -> In b l -> better (fst a) (fst b) -> snd b <= snd a) ->
  forall a b, In a r -> In b r -> better (fst a) (fst b) -> snd b <= snd a.
Proof.
  intros ref weight limit f l r better H M B a b A0 B0 BT. destruct (plain_figure_cases _ _ _ _ _ _ H) as [(N & ->)|(C & K)]; [now apply B|].
  unfold plain_filtered in K. apply bind_ok in K. destruct K as (t & E & K). injection K as <-. apply grade_in in A0. apply grade_in in B0.
  destruct A0 as (x & d & IA & ->), B0 as (y & e & IB & ->). cbn [fst snd] in *.
  pose proof (extremes (map snd t) d (in_map snd _ _ IA)) as XA. pose proof (extremes (map snd t) e (in_map snd _ _ IB)) as XB.
  apply (plain_in _ _ _ E) in IA. apply (plain_in _ _ _ E) in IB. destruct IA as (IA & NA), IB as (IB & NB).
  pose proof (M _ _ BT C d e NA NB) as DE. destruct (term_spec (weight f) _ _ d ltac:(destruct C; lra) XA) as (_ & T).
  specialize (T e (conj DE (proj2 XB))). specialize (B x y IA IB BT). lra.
Qed.

Section Faithful.
Variable cs : list core.
Hypothesis names : forall c c', In c cs -> In c' cs -> c_name c = c_name c' -> c = c'.
Variables (ref : core) (weight : figure -> Q) (lw sw : Q).
Definition faithful (limit : Q) (m : memory) : Prop :=
  (forall f, good cs f (near ref limit f) m) /\
  (forall loss peak, c_losses ref = Some (loss, peak) -> good_both cs (loss_distance ref limit loss peak) m).
Lemma filtered_plain : forall limit f w l m, (forall x, In x l -> In (fst x) cs) -> faithful limit m ->
  exists m', faithful limit m' /\ filtered f (near ref limit f) w (m, l) = bind (plain_filtered (near ref limit f) w l) (fun r => Ok (m', r)).
Proof.
  intros limit f w l m I0 (F & FB). destruct (survey_plain cs names f (near ref limit f) l m I0 (F f)) as (m' & A & B & C & D).
  exists m'. split.
  - split.
    + intro g. assert (DEC : {g = f} + {g <> f}) by decide equality. destruct DEC as [->|N]; [exact A|]. intros c d IC. rewrite (B g N). apply (F g), IC.
    + intros loss peak E c d IC. rewrite C. apply (FB loss peak E), IC.
  - unfold filtered, plain_filtered. cbn [fst snd]. rewrite D. now destruct (plain (near ref limit f) l).
Qed.
Lemma by_figure_plain : forall limit f l m, (forall x, In x l -> In (fst x) cs) -> faithful limit m ->
  exists m', faithful limit m' /\ by_figure ref weight limit f (m, l) = bind (plain_figure ref weight limit f l) (fun r => Ok (m', r)).
Proof.
  intros limit f l m I0 F. unfold by_figure, plain_figure. destruct (Qle_bool (weight f) 0); [exists m; auto|].
  destruct f; try (apply filtered_plain; assumption).
  - destruct (c_window ref); [apply filtered_plain; assumption|exists m; auto].
  - destruct (flat ref); [exists m; auto|apply filtered_plain; assumption].
Qed.
Lemma by_losses_plain : forall limit l m, (forall x, In x l -> In (fst x) cs) -> faithful limit m ->
  exists m', faithful limit m' /\ by_losses ref lw sw limit (m, l) = (m', plain_by_losses ref lw sw limit l).
Proof.
  intros limit l m I0 (F & FB). unfold by_losses, plain_by_losses. destruct (Qle_bool lw 0); [exists m; split; [split|]; auto|].
  destruct (c_losses ref) as [(loss, peak)|] eqn:E; [|exists m; split; [split|]; auto; rewrite E; auto]. cbn [fst snd].
  destruct (losses_plain cs names ref limit loss peak l m I0 (FB loss peak eq_refl)) as (m' & A & B & D). exists m'. split.
  - split; [intro f; unfold good; rewrite B; apply F|]. intros lo pk EQ. rewrite E in EQ. injection EQ as <- <-. exact A.
  - rewrite D. reflexivity.
Qed.
Lemma firstn_in : forall (A : Type) n (l : list A) x, In x (firstn n l) -> In x l.
Proof. intros A n l x X. rewrite <- (firstn_skipn n l). apply in_or_app. auto. Qed.
Lemma apply_plain : forall limit most m, faithful limit m ->
  exists m', faithful limit m' /\ apply_filters ref weight lw sw limit most m cs = bind (plain_filters ref weight lw sw limit most cs) (fun r => Ok (m', r)).
Proof.
  intros limit most m F. unfold apply_filters, plain_filters.
  assert (M : forall f l r, plain_figure ref weight limit f l = Ok r -> (forall x, In x l -> In (fst x) cs) -> forall x, In x r -> In (fst x) cs).
  { intros f l r H I0 x X. destruct (plain_figure_in _ _ _ _ _ _ H x X) as ((y & Y & <-) & _). auto. }
  set (l0 := map (fun c => (c, 0)) cs). assert (I0 : forall x, In x l0 -> In (fst x) cs). { intros x X. apply in_map_iff in X. destruct X as (c & <- & X). exact X. }
  destruct (by_figure_plain limit Permeance l0 m I0 F) as (m1 & F1 & ->).
  destruct (plain_figure ref weight limit Permeance l0) as [a|w|w|] eqn:E1; cbn [bind]; [|exists m; auto..]. pose proof (M _ _ _ E1 I0) as I1.
  destruct (by_figure_plain limit Window a m1 I1 F1) as (m2 & F2 & ->).
  destruct (plain_figure ref weight limit Window a) as [b|w|w|] eqn:E2; cbn [bind]; [|exists m; auto..]. pose proof (M _ _ _ E2 I1) as I2.
  destruct (by_figure_plain limit Volume b m2 I2 F2) as (m3 & F3 & ->).
  destruct (plain_figure ref weight limit Volume b) as [c|w|w|] eqn:E3; cbn [bind]; [|exists m; auto..]. pose proof (M _ _ _ E3 I2) as I3.
  destruct (by_figure_plain limit Area c m3 I3 F3) as (m4 & F4 & ->).
  destruct (plain_figure ref weight limit Area c) as [d|w|w|] eqn:E4; cbn [bind]; [|exists m; auto..]. pose proof (M _ _ _ E4 I3) as I4.
  cbn [fst snd]. destruct (by_losses_plain limit (firstn (11 * most / 10) d) m4 (fun x X => I4 x (firstn_in _ _ _ _ X)) F4) as (m5 & F5 & ->).
  exists m5. auto.
Qed.
Lemma within_mono : forall l l' r x, l <= l' -> within l r x = true -> within l' r x = true.
Proof. intros l l' r x L H. unfold within in *. apply andb_true_iff in H. destruct H as (A & B). rewrite A. cbn [andb]. apply Qlt_bool_iff. qb. lra. Qed.
Lemma near_mono : forall l l' f c d, l <= l' -> near ref l f c = Ok (Some d) -> near ref l' f c = Ok (Some d).
Proof.
  intros l l' f c d L H.
  assert (C : forall r x, close l r x = Some d -> close l' r x = Some d).
  { intros r x. unfold close. destruct (within l r x) eqn:E; [|discriminate]. now rewrite (within_mono l l' r x L E). }
  destruct f; cbn [near] in *.
  - injection H as H. now rewrite (C _ _ H).
  - destruct (c_window ref) as [r|], (c_window c) as [x|]; try discriminate. injection H as H. now rewrite (C _ _ H).
  - unfold box_distance in *. destruct (c_box ref) as ((d0, h0), w0), (c_box c) as ((d1, h1), w1).
    destruct (within l d0 d1 && within l h0 h1 && within l w0 w1)%bool eqn:E; [|discriminate].
    apply andb_true_iff in E. destruct E as (E & E3). apply andb_true_iff in E. destruct E as (E1 & E2).
    rewrite (within_mono _ _ _ _ L E1), (within_mono _ _ _ _ L E2), (within_mono _ _ _ _ L E3). exact H.
  - injection H as H. now rewrite (C _ _ H).
Qed.
Lemma loss_mono : forall l l' loss peak c d, l <= l' -> loss_distance ref l loss peak c = Some d -> loss_distance ref l' loss peak c = Some d.
Proof.
  intros l l' loss peak c d L H. unfold loss_distance in *. destruct (c_losses c) as [(lo, b)|]; [|discriminate].
  destruct (Qlt_bool b (c_saturation c)); [|discriminate]. cbn [andb] in *. destruct (within l loss lo) eqn:E.
  - now rewrite (within_mono _ _ _ _ L E).
  - cbn [orb] in H. destruct (Qle_bool 1 l) eqn:E'; [|discriminate]. replace (Qle_bool 1 l') with true; [rewrite orb_true_r; exact H|].
    symmetry. apply Qle_bool_iff. qb. lra.
Qed.
Lemma faithful_mono : forall l l' m, l <= l' -> faithful l m -> faithful l' m.
Proof.
  intros l l' m L (F & FB). split.
  - intros f c d IC E. eapply near_mono; [exact L|]. apply (F f c d IC E).
  - intros loss peak E c d IC K. eapply loss_mono; [exact L|]. apply (FB loss peak E c d IC K).
Qed.
Lemma faithful_nothing : forall l, faithful l nothing.
Proof. split; [intros f c d _ H; discriminate|intros lo p _ c d _ H; discriminate]. Qed.
Lemma next_grows : forall l, 0 <= l -> l <= next_limit l /\ (1 # 4 <= l -> l + (1 # 4) <= next_limit l) /\ 1 # 100 <= next_limit l.
Proof. intros l L. unfold next_limit. destruct (Qlt_bool l (1 # 100)) eqn:E; qb; (split; [|split]); intros; lra. Qed.
Lemma widen_fresh : forall fuel greatest most limit m found r, 0 <= limit -> faithful limit m ->
  widen fuel ref weight lw sw greatest most cs limit m found = Ok r ->
  (fst r = limit /\ snd (snd r) = found) \/ (limit <= fst r /\ plain_filters ref weight lw sw (fst r) most cs = Ok (snd (snd r))).
Proof.
  induction fuel as [|fuel IH]; intros greatest most limit m found r L F H; cbn [widen] in H.
  - destruct (_ && _)%bool; [discriminate|]. injection H as <-. auto.
  - destruct (_ && _)%bool; [|injection H as <-; auto].
    destruct (next_grows limit L) as (G & _). pose proof (faithful_mono _ _ _ G F) as F'.
    destruct (apply_plain (next_limit limit) most m F') as (m' & FM & E). rewrite E in H.
    destruct (plain_filters ref weight lw sw (next_limit limit) most cs) as [res|w|w|] eqn:P; cbn [bind] in H; try discriminate. cbn [fst snd] in H.
    destruct (IH greatest most (next_limit limit) m' res r ltac:(lra) FM H) as [(A & B)|(A & B)]; right.
    + rewrite A, B. split; [exact G|exact P].
    + split; [lra|exact B].
Qed.
End Faithful.
