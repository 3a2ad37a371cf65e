(** C171: published limits of catalogue parts.  C172: solid insulation of wires.
    C173: area product.  C174: room for the wires.  C175: scores shared between
    filters. *)
From Coq Require Import ZArith QArith Qabs List String Bool Arith Lia Lqa.
From Verif Require Import Base QAux FilterModel FilterProperties GateModel HarmonicProofs.
Import ListNotations.
Open Scope outcome_scope.
Open Scope Q_scope.

(** ** C171 *)

(** A published limit of the entry and what the design asks of it somewhere: the RMS
    current of a winding against the one rated current, or that of its place in a
    longer list; the RMS and the mean of its voltage; any peak current against the
    saturation current. *)
Inductive asked (e : entry) (points : list (list excitation)) : Q -> Q -> Prop :=
| asked_one : forall p i x l o, In p points -> nth_error p i = Some x -> x_rms x = Some o ->
    e_rated e = Some [l] -> asked e points l o
| asked_place : forall p i x ls l o, In p points -> nth_error p i = Some x -> x_rms x = Some o ->
    e_rated e = Some ls -> List.length ls <> 1%nat -> nth_error ls i = Some l -> asked e points l o
| asked_ac : forall p x l o, In p points -> In x p -> x_ac x = Some o -> e_ac e = Some l -> asked e points l o
| asked_dc : forall p x l o, In p points -> In x p -> x_dc x = Some o -> e_dc e = Some l -> asked e points l (Qabs o)
| asked_peak : forall p x l o, In p points -> In x p -> x_peak x = Some o -> e_peak e = Some l -> asked e points l o.

Definition pair_if (a b : option Q) : list (Q * Q) :=
  match a, b with Some l, Some o => [(l, o)] | _, _ => nil end.
Definition opens (l : list (Q * Q)) (t : tally) : tally := fold_left (fun t p => gate (fst p) (snd p) t) l t.

Lemma gate_if_opens : forall a b t, gate_if a b t = opens (pair_if a b) t.
Proof. intros [a|] [b|] t; reflexivity. Qed.

Fixpoint on_windings (e : entry) (l : list excitation) (i : nat) : list (Q * Q) :=
  match l with
  | nil => nil
  | x :: rest => pair_if (rated_limit (e_rated e) i) (x_rms x) ++ pair_if (e_ac e) (x_ac x)
                 ++ pair_if (e_dc e) (option_map Qabs (x_dc x)) ++ on_windings e rest (S i)
  end.
Fixpoint top (e : entry) (l : list excitation) (peak : option Q) : option Q :=
  match l with
  | nil => peak
  | x :: rest => top e rest (match e_peak e, x_peak x with
                             | Some _, Some p => Some (cmax (match peak with Some m => m | None => 0 end) p)
                             | _, _ => peak end)
  end.

Lemma windings_gate_opens : forall e l i t peak,
  windings_gate e l i t peak = (opens (on_windings e l i) t, top e l peak).
Proof.
  intros e. induction l as [|x l IH]; intros i t peak; [reflexivity|].
  cbn [windings_gate on_windings top]. cbv zeta. rewrite IH. f_equal.
  unfold opens. rewrite !fold_left_app. rewrite !gate_if_opens. reflexivity.
Qed.

Fixpoint on_points (e : entry) (l : list (list excitation)) : list (Q * Q) :=
  match l with
  | nil => nil
  | p :: rest => on_windings e p 0 ++ pair_if (e_peak e) (top e p None) ++ on_points e rest
  end.
Lemma points_gate_opens : forall e l t, points_gate e l t = opens (on_points e l) t.
Proof.
  intros e. induction l as [|p l IH]; intro t; [reflexivity|]. cbn [points_gate on_points]. cbv zeta.
  rewrite windings_gate_opens. cbn [fst snd]. rewrite IH, gate_if_opens. unfold opens. rewrite !fold_left_app. reflexivity.
Qed.

Lemma opens_valid : forall l t, t_valid (opens l t) = true <-> t_valid t = true /\ forall a o, In (a, o) l -> o <= a.
Proof.
  induction l as [|[a o] l IH]; intro t; cbn [opens fold_left].
  - split; [intro H; split; [exact H|intros a o []]|intros [H _]; exact H].
  - fold (opens l (gate a o t)). rewrite IH. unfold gate. cbn [t_valid fst snd]. rewrite andb_true_iff, Qle_bool_iff. split.
    + intros ((V & L) & R). split; [exact V|]. intros a' o' [E|I0]; [inversion E; subst; exact L|apply R; exact I0].
    + intros (V & R). split; [split; [exact V|apply R; left; reflexivity]|]. intros a' o' I0. apply R. right. exact I0.
Qed.
Lemma opens_checked : forall l t, t_checked (opens l t) = true <-> t_checked t = true \/ l <> nil.
Proof.
  induction l as [|[a o] l IH]; intro t; cbn [opens fold_left].
  - split; [auto|intros [H|H]; [exact H|congruence]].
  - fold (opens l (gate a o t)). rewrite IH. cbn [gate t_checked]. split; [right; discriminate|auto].
Qed.
Lemma cmin_le : forall a b, cmin a b <= a /\ cmin a b <= b /\ (cmin a b = a \/ cmin a b = b).
Proof.
  intros a b. unfold cmin. destruct (Qlt_bool b a) eqn:E.
  - apply lt_iff in E. repeat split; [lra|lra|auto].
  - apply lt_niff in E. repeat split; [lra|lra|auto].
Qed.
Lemma opens_worst : forall l t,
  t_worst (opens l t) <= t_worst t /\
  (forall a o, In (a, o) l -> t_worst (opens l t) <= headroom a o) /\
  (t_worst (opens l t) = t_worst t \/ exists a o, In (a, o) l /\ t_worst (opens l t) = headroom a o).
Proof.
  induction l as [|[a o] l IH]; intro t; cbn [opens fold_left].
  - repeat split; [lra|intros a o []|left; reflexivity].
  - cbn [fst snd]. fold (opens l (gate a o t)). destruct (IH (gate a o t)) as (A & B & C).
    assert (GW : t_worst (gate a o t) = cmin (t_worst t) (headroom a o)) by reflexivity. rewrite GW in A, C.
    destruct (cmin_le (t_worst t) (headroom a o)) as (M1 & M2 & M3).
    split; [lra|]. split.
    + intros a' o' [E|I0]; [inversion E; subst; lra|apply B; exact I0].
    + destruct C as [C|(a' & o' & I0 & C)].
      * destruct M3 as [M3|M3]; [left; rewrite C; exact M3|].
        right. exists a, o. split; [left; reflexivity|]. rewrite C. exact M3.
      * right. exists a', o'. split; [right; exact I0|exact C].
Qed.

Lemma headroom_range : forall a o, 0 <= headroom a o <= 1.
Proof.
  intros a o. unfold headroom. destruct (Qle_bool a 0); [lra|]. cbv zeta.
  destruct (Qlt_bool ((a - o) / a) 0) eqn:E; [lra|]. destruct (Qlt_bool 1 ((a - o) / a)) eqn:F; [lra|].
  apply lt_niff in E. apply lt_niff in F. lra.
Qed.
Lemma headroom_inside : forall a o, 0 < a -> 0 <= o <= a -> headroom a o * a == a - o.
Proof.
  intros a o A (O1 & O2). unfold headroom. rewrite (proj2 (le_niff a 0) A). cbv zeta.
  assert (0 <= (a - o) / a) by (apply Qle_shift_div_l; lra).
  assert ((a - o) / a <= 1) by (apply Qle_shift_div_r; lra).
  rewrite (proj2 (lt_niff _ _)) by assumption. rewrite (proj2 (lt_niff _ _)) by assumption. field. lra.
Qed.
Lemma headroom_beyond : forall a o, 0 < a -> a < o -> headroom a o = 0.
Proof.
  intros a o A O1. unfold headroom. rewrite (proj2 (le_niff a 0) A). cbv zeta.
  assert ((a - o) / a < 0) by (apply Qlt_shift_div_r; lra).
  rewrite (proj2 (lt_iff _ _)) by assumption. reflexivity.
Qed.

Lemma on_windings_in : forall e l i a o, In (a, o) (on_windings e l i) <->
  exists j x, nth_error l j = Some x /\
    ((rated_limit (e_rated e) (i + j) = Some a /\ x_rms x = Some o) \/
     (e_ac e = Some a /\ x_ac x = Some o) \/
     (e_dc e = Some a /\ exists v, x_dc x = Some v /\ o = Qabs v)).
Proof.
  intros e. assert (P : forall u v (a o : Q), In (a, o) (pair_if u v) <-> u = Some a /\ v = Some o).
  { intros [u|] [v|] a o; cbn; split; intro H; try tauto; try (destruct H; discriminate).
    - destruct H as [H|[]]. inversion H; subst; auto.
    - destruct H as [H1 H2]. inversion H1; inversion H2; auto. }
  induction l as [|x l IH]; intros i a o; cbn [on_windings].
  - split; [intros []|intros (j & x & H & _); destruct j; discriminate].
  - rewrite !in_app_iff, !P, IH. split.
    + intros [H|[H|[H|(j & y & J & H)]]].
      * exists 0%nat, x. rewrite Nat.add_0_r. split; [reflexivity|auto].
      * exists 0%nat, x. split; [reflexivity|auto].
      * exists 0%nat, x. split; [reflexivity|]. right. right. destruct H as (H1 & H2). split; [exact H1|].
        destruct (x_dc x) as [v|]; [|discriminate]. exists v. cbn in H2. split; [reflexivity|congruence].
      * exists (S j), y. rewrite Nat.add_succ_r. split; [exact J|exact H].
    + intros ([|j] & y & J & H).
      * cbn in J. inversion J; subst. rewrite Nat.add_0_r in H. destruct H as [H|[H|(H & v & V & E)]]; [auto|auto|].
        right. right. left. rewrite V. cbn. subst. auto.
      * right. right. right. exists j, y. rewrite Nat.add_succ_r in H. split; [exact J|exact H].
Qed.

Lemma top_spec : forall e l peak, e_peak e <> None ->
  match top e l peak with
  | None => peak = None /\ forall x o, In x l -> x_peak x <> Some o
  | Some m => (match peak with Some k => k | None => 0 end) <= m /\
              (forall x o, In x l -> x_peak x = Some o -> o <= m) /\
              (m = (match peak with Some k => k | None => 0 end) \/ exists x, In x l /\ x_peak x = Some m)
  end.
Proof.
  intros e l peak N. destruct (e_peak e) as [lim|] eqn:E; [|congruence]. clear N. revert peak.
  induction l as [|x l IH]; intro peak; cbn [top].
  - destruct peak; [|split; [reflexivity|intros x o []]]. repeat split; [lra|intros x o []|auto].
  - rewrite E. destruct (x_peak x) as [p|] eqn:P.
    + specialize (IH (Some (cmax (match peak with Some m => m | None => 0 end) p))). set (k := match peak with Some m => m | None => 0 end) in *.
      destruct (top e l (Some (cmax k p))) as [m|]; [|destruct IH; discriminate].
      destruct IH as (A & B & C).
      assert (M1 : k <= cmax k p) by (apply cmax_le; left; lra).
      assert (M2 : p <= cmax k p) by (apply cmax_le; right; lra).
      split; [lra|]. split.
      * intros y o [Y|I0] PO; [subst; rewrite P in PO; inversion PO; subst; lra|exact (B y o I0 PO)].
      * destruct C as [C|(y & I0 & C)]; [|right; exists y; split; [right; exact I0|exact C]].
        unfold cmax in C. destruct (Qlt_bool k p); [right; exists x; split; [left; reflexivity|congruence]|left; exact C].
    + specialize (IH peak). destruct (top e l peak) as [m|].
      * destruct IH as (A & B & C). split; [exact A|]. split.
        -- intros y o [Y|I0] PO; [subst; congruence|exact (B y o I0 PO)].
        -- destruct C as [C|(y & I0 & C)]; [left; exact C|right; exists y; split; [right; exact I0|exact C]].
      * destruct IH as (A & B). split; [exact A|]. intros y o [Y|I0]; [subst; congruence|exact (B y o I0)].
Qed.

Lemma rated_asked : forall e points p i x a o, In p points -> nth_error p i = Some x ->
  rated_limit (e_rated e) i = Some a -> x_rms x = Some o -> asked e points a o.
Proof.
  intros e points p i x a o P X R O1. unfold rated_limit in R. destruct (e_rated e) as [[|l [|l2 ls]]|] eqn:E; try discriminate.
  - destruct i; discriminate.
  - inversion R; subst. eapply asked_one; eauto.
  - eapply asked_place; eauto. cbn. lia.
Qed.

(** What is opened is asked, or is nought against the saturation current. *)
Lemma on_points_asked : forall e points a o, In (a, o) (on_points e points) ->
  asked e points a o \/ (e_peak e = Some a /\ o = 0).
Proof.
  intros e points a o H.
  assert (G : forall l, (forall p, In p l -> In p points) -> In (a, o) (on_points e l) ->
     asked e points a o \/ (e_peak e = Some a /\ o = 0)).
  { induction l as [|p l IH]; intros S0 I0; [destruct I0|]. cbn [on_points] in I0. rewrite !in_app_iff in I0.
    assert (PI : In p points) by (apply S0; left; reflexivity).
    destruct I0 as [I0|[I0|I0]].
    - apply on_windings_in in I0. destruct I0 as (j & x & J & K). left. cbn [Nat.add] in K.
      destruct K as [(K1 & K2)|[(K1 & K2)|(K1 & v & V & E)]].
      + eapply rated_asked; eauto.
      + eapply asked_ac; eauto. eapply nth_error_In; eauto.
      + subst. eapply asked_dc; eauto. eapply nth_error_In; eauto.
    - destruct (e_peak e) as [lim|] eqn:E; [|destruct I0]. pose proof (top_spec e p None) as T. rewrite E in T.
      destruct (top e p None) as [m|]; [|destruct I0]. cbn in I0. destruct I0 as [I0|[]]. inversion I0; subst.
      destruct (T ltac:(discriminate)) as (_ & _ & [C|(x & X & C)]).
      + right. auto.
      + left. eapply asked_peak; eauto.
    - apply IH; [intros q Q0; apply S0; right; exact Q0|exact I0]. }
  exact (G points (fun p q => q) H).
Qed.

(** What is asked is opened, or something at least as large against the same limit. *)
Lemma asked_on_points : forall e points a o, asked e points a o ->
  exists o', In (a, o') (on_points e points) /\ o <= o'.
Proof.
  intros e points a o H.
  assert (G : forall p, In p points -> forall o', (In (a, o') (on_windings e p 0) \/ In (a, o') (pair_if (e_peak e) (top e p None))) ->
     In (a, o') (on_points e points)).
  { clear. induction points as [|q points IH]; intros p IP o' K; [destruct IP|]. cbn [on_points]. rewrite !in_app_iff.
    destruct IP as [E|I0].
    - subst. destruct K; auto.
    - right. right. exact (IH p I0 o' K). }
  destruct H as [p i x l o P X O1 R|p i x ls l o P X O1 R N L|p x l o P X O1 R|p x l o P X O1 R|p x l o P X O1 R].
  - exists o. split; [|lra]. apply (G p P). left. apply on_windings_in. exists i, x. split; [exact X|]. left. cbn [Nat.add].
    unfold rated_limit. rewrite R. auto.
  - exists o. split; [|lra]. apply (G p P). left. apply on_windings_in. exists i, x. split; [exact X|]. left. cbn [Nat.add].
    unfold rated_limit. rewrite R. destruct ls as [|l0 [|l1 ls]]; [destruct i; discriminate|cbn in N; congruence|]. auto.
  - exists o. split; [|lra]. apply (G p P). left. destruct (In_nth_error _ _ X) as (i & J). apply on_windings_in. exists i, x. auto.
  - exists (Qabs o). split; [|lra]. apply (G p P). left. destruct (In_nth_error _ _ X) as (i & J). apply on_windings_in. exists i, x.
    split; [exact J|]. right. right. split; [exact R|]. exists o. auto.
  - pose proof (top_spec e p None) as T. rewrite R in T. specialize (T ltac:(discriminate)).
    destruct (top e p None) as [m|] eqn:E.
    + destruct T as (_ & B & _). exists m. split; [|exact (B x o X O1)]. apply (G p P). right. rewrite R, E. left. reflexivity.
    + destruct T as (_ & B). exfalso. exact (B x o X O1).
Qed.

(** A part with one published entry is kept exactly when the design asks no more than
    it publishes, of anything it publishes. *)
Theorem C171_verdict : forall e turns points,
  (forall l, e_peak e = Some l -> 0 <= l) ->
  fst (datasheet_filter (Some [e]) turns points) = true <-> (forall l o, asked e points l o -> o <= l).
Proof.
  intros e turns points PK. unfold datasheet_filter, select_entry. cbv zeta. rewrite points_gate_opens.
  assert (V : t_valid (opens (on_points e points) (mkTally true 1 false)) = true <-> (forall l o, asked e points l o -> o <= l)).
  { rewrite opens_valid. cbn [t_valid]. split.
    - intros (_ & H) l o A. destruct (asked_on_points _ _ _ _ A) as (o' & I0 & L). specialize (H _ _ I0). lra.
    - intro H. split; [reflexivity|]. intros a o I0. destruct (on_points_asked _ _ _ _ I0) as [A|(E & Z0)]; [exact (H _ _ A)|].
      subst. exact (PK _ E). }
  destruct (t_checked (opens (on_points e points) (mkTally true 1 false))) eqn:C; cbn [fst]; [exact V|].
  split; [|reflexivity]. intros _ l o A. destruct (asked_on_points _ _ _ _ A) as (o' & I0 & _).
  assert (K : t_checked (opens (on_points e points) (mkTally true 1 false)) = true).
  { apply opens_checked. right. intro N. rewrite N in I0. destruct I0. }
  congruence.
Qed.

(** Its score is the share of the closest limit that is left. *)
Theorem C171_score : forall e turns points s,
  (forall l o, asked e points l o -> 0 < l /\ 0 <= o) -> (forall l, e_peak e = Some l -> 0 < l) ->
  datasheet_filter (Some [e]) turns points = (true, s) ->
  0 <= s <= 1 /\ (forall l o, asked e points l o -> s * l <= l - o) /\
  (s == 1 \/ exists l o, asked e points l o /\ s * l == l - o).
Proof.
  intros e turns points s PA PP H.
  assert (V : forall l o, asked e points l o -> o <= l).
  { apply (C171_verdict e turns points); [intros l L; specialize (PP l L); lra|]. rewrite H. reflexivity. }
  unfold datasheet_filter, select_entry in H. cbv zeta in H. rewrite points_gate_opens in H.
  destruct (opens_worst (on_points e points) (mkTally true 1 false)) as (A & B & C). cbn [t_worst] in A, C.
  destruct (t_checked (opens (on_points e points) (mkTally true 1 false))) eqn:CH.
  - assert (S0 : s = t_worst (opens (on_points e points) (mkTally true 1 false))) by congruence. rewrite <- S0 in *. clear H S0.
    split.
    { split; [|exact A]. destruct C as [C|(a & o & _ & C)]; rewrite C; [lra|apply headroom_range]. }
    split.
    + intros l o K. destruct (asked_on_points _ _ _ _ K) as (o' & I0 & L). specialize (B _ _ I0).
      destruct (PA _ _ K) as (PL & PO).
      assert (O' : 0 <= o' <= l).
      { split; [lra|]. destruct (on_points_asked _ _ _ _ I0) as [K'|(_ & Z0)]; [exact (V _ _ K')|subst; lra]. }
      pose proof (headroom_inside l o' PL O'). nra.
    + destruct C as [C|(a & o & I0 & C)]; [left; rewrite C; reflexivity|].
      destruct (on_points_asked _ _ _ _ I0) as [K|(E & Z0)].
      * right. exists a, o. split; [exact K|]. rewrite C. destruct (PA _ _ K). apply headroom_inside; [assumption|]. split; [assumption|exact (V _ _ K)].
      * left. rewrite C. subst o. specialize (PP _ E). pose proof (headroom_inside a 0 PP) as HI.
        assert (HE : headroom a 0 * a == a - 0) by (apply HI; lra). nra.
  - inversion H; subst. split; [lra|]. split; [|left; reflexivity].
    intros l o K. exfalso. destruct (asked_on_points _ _ _ _ K) as (o' & I0 & _).
    assert (K2 : t_checked (opens (on_points e points) (mkTally true 1 false)) = true).
    { apply opens_checked. right. intro N. rewrite N in I0. destruct I0. }
    congruence.
Qed.

(** A dropped part scores nought, as long as what it publishes is positive. *)
Theorem C171_dropped : forall e turns points s,
  (forall l o, asked e points l o -> 0 < l) -> (forall l, e_peak e = Some l -> 0 < l) ->
  datasheet_filter (Some [e]) turns points = (false, s) -> s == 0.
Proof.
  intros e turns points s PA PP H. unfold datasheet_filter, select_entry in H. cbv zeta in H. rewrite points_gate_opens in H.
  destruct (t_checked (opens (on_points e points) (mkTally true 1 false))); [|discriminate].
  destruct (opens_worst (on_points e points) (mkTally true 1 false)) as (A & B & C). cbn [t_worst] in A, C.
  assert (S0 : s = t_worst (opens (on_points e points) (mkTally true 1 false))) by congruence.
  assert (VF : t_valid (opens (on_points e points) (mkTally true 1 false)) = false) by congruence. rewrite <- S0 in *.
  assert (LO : 0 <= s). { destruct C as [C|(a & o & _ & C)]; rewrite C; [lra|apply headroom_range]. }
  assert (EX : exists a o, In (a, o) (on_points e points) /\ a < o).
  { destruct (existsb (fun p => Qlt_bool (fst p) (snd p)) (on_points e points)) eqn:EB.
    - apply existsb_exists in EB. destruct EB as ([a o] & I0 & L). cbn in L. apply lt_iff in L. eauto.
    - exfalso. assert (V : t_valid (opens (on_points e points) (mkTally true 1 false)) = true).
      { apply opens_valid. split; [reflexivity|]. intros a o I0.
        destruct (Qlt_le_dec a o) as [L|L]; [|exact L]. exfalso.
        assert (K : existsb (fun p => Qlt_bool (fst p) (snd p)) (on_points e points) = true).
        { apply existsb_exists. exists (a, o). split; [exact I0|]. apply lt_iff. exact L. }
        congruence. }
      congruence. }
  destruct EX as (a & o & I0 & L). pose proof (B _ _ I0) as BB.
  assert (PL : 0 < a) by (destruct (on_points_asked _ _ _ _ I0) as [K|(E & _)]; [exact (PA _ _ K)|exact (PP _ E)]).
  rewrite (headroom_beyond a o PL L) in BB. lra.
Qed.

(** A part that publishes nothing is neither dropped nor marked down. *)
Theorem C171_unpublished : forall sheet turns points,
  (forall e, sheet = Some [e] -> forall l o, ~ asked e points l o) ->
  (sheet = None \/ sheet = Some nil \/ exists e, sheet = Some [e]) ->
  datasheet_filter sheet turns points = (true, 1).
Proof.
  intros sheet turns points N [E|[E|(e & E)]]; subst; [reflexivity|reflexivity|].
  specialize (N e eq_refl). unfold datasheet_filter, select_entry. cbv zeta. rewrite points_gate_opens.
  destruct (on_points e points) as [|[a o] l] eqn:L; [reflexivity|]. exfalso.
  assert (I0 : In (a, o) (on_points e points)) by (rewrite L; left; reflexivity).
  destruct (on_points_asked _ _ _ _ I0) as [K|(E & Z0)]; [exact (N _ _ K)|].
  (* nought was opened against the saturation current, so some winding has a peak *)
  clear L. assert (G : forall ps, (forall p, In p ps -> In p points) -> In (a, o) (on_points e ps) -> exists l o, asked e points l o).
  { clear N I0. induction ps as [|p ps IH]; intros S0 I0; [destruct I0|]. cbn [on_points] in I0. rewrite !in_app_iff in I0.
    assert (PI : In p points) by (apply S0; left; reflexivity).
    destruct I0 as [I0|[I0|I0]].
    - apply on_windings_in in I0. destruct I0 as (j & x & J & K). cbn [Nat.add] in K.
      destruct K as [(K1 & K2)|[(K1 & K2)|(K1 & v & V & _)]].
      + eexists. eexists. eapply rated_asked; eauto.
      + eexists. eexists. eapply asked_ac; eauto. eapply nth_error_In; eauto.
      + eexists. eexists. eapply asked_dc; eauto. eapply nth_error_In; eauto.
    - rewrite E in I0. destruct (top e p None) as [m|] eqn:T; [|destruct I0].
      destruct (existsb (fun x => is_some (x_peak x)) p) eqn:EB.
      + apply existsb_exists in EB. destruct EB as (x & X & SX). destruct (x_peak x) as [k|] eqn:XK; [|discriminate].
        exists a, k. eapply asked_peak; eauto.
      + exfalso. assert (TN : forall l, existsb (fun x => is_some (x_peak x)) l = false -> top e l None = None).
        { clear. induction l as [|x l IH]; intro H; [reflexivity|]. cbn in H. apply orb_false_iff in H. destruct H as (H1 & H2).
          cbn [top]. destruct (x_peak x); [discriminate|]. destruct (e_peak e); exact (IH H2). }
        rewrite (TN p EB) in T. discriminate.
    - apply IH; [intros q Q0; apply S0; right; exact Q0|exact I0]. }
  destruct (G points (fun p q => q) I0) as (l' & o' & K). exact (N _ _ K).
Qed.

(** With more entries, one of them is taken; the one of the candidate's turns when
    there is one, otherwise the one with the smallest rated current of all. *)
Lemma matching_spec : forall n l, match matching n l with
  | Some e => In e l /\ exists k, e_turns e = Some k /\ Qabs (k - n) < 1 # 2
  | None => forall e k, In e l -> e_turns e = Some k -> 1 # 2 <= Qabs (k - n)
  end.
Proof.
  intros n. induction l as [|e l IH]; cbn [matching]; [intros e k []|].
  destruct (e_turns e) as [k|] eqn:E.
  - destruct (Qlt_bool (Qabs (k - n)) (1 # 2)) eqn:L.
    + apply lt_iff in L. split; [left; reflexivity|]. exists k. auto.
    + apply lt_niff in L. destruct (matching n l) as [m|].
      * destruct IH as (A & B). split; [right; exact A|exact B].
      * intros e' k' [X|X] K; [subst; assert (k = k') by congruence; subst; exact L|exact (IH e' k' X K)].
  - destruct (matching n l) as [m|].
    + destruct IH as (A & B). split; [right; exact A|exact B].
    + intros e' k' [X|X] K; [subst; congruence|exact (IH e' k' X K)].
Qed.
Lemma least_spec : forall l x, least x l <= x /\ (forall y, In y l -> least x l <= y) /\ In (least x l) (x :: l).
Proof.
  unfold least. induction l as [|y l IH]; intro x; cbn [fold_left].
  - split; [lra|]. split; [intros y []|left; reflexivity].
  - destruct (Qlt_bool y x) eqn:L; destruct (IH (if Qlt_bool y x then y else x)) as (A & B & C); rewrite L in *.
    + apply lt_iff in L. split; [lra|]. split.
      * intros z [Z0|Z0]; [subst; exact A|exact (B z Z0)].
      * destruct C as [C|C]; [right; left; exact C|right; right; exact C].
    + apply lt_niff in L. split; [exact A|]. split.
      * intros z [Z0|Z0]; [subst; lra|exact (B z Z0)].
      * destruct C as [C|C]; [left; exact C|right; right; exact C].
Qed.
Lemma conservative_spec : forall l best,
  (forall s e, best = Some (s, e) -> exists r, e_rated e = Some r /\ In s r) ->
  match conservative l best with
  | Some (s, e) =>
      (In e l \/ best = Some (s, e)) /\ (exists r, e_rated e = Some r /\ In s r) /\
      (forall s' e', best = Some (s', e') -> s <= s') /\
      (forall e' r x, In e' l -> e_rated e' = Some r -> In x r -> s <= x)
  | None => best = None /\ forall e' r, In e' l -> e_rated e' = Some r -> r = nil
  end.
Proof.
  induction l as [|e l IH]; intros best HB; cbn [conservative].
  - destruct best as [[s e]|].
    + split; [right; reflexivity|]. split; [exact (HB s e eq_refl)|]. split; [intros s' e' E; inversion E; lra|intros e' r x []].
    + split; [reflexivity|intros e' r []].
  - assert (SKIP : (forall r x, e_rated e = Some r -> In x r -> False) -> 
      match conservative l best with
      | Some (s, e0) => (In e0 (e :: l) \/ best = Some (s, e0)) /\ (exists r, e_rated e0 = Some r /\ In s r) /\
          (forall s' e', best = Some (s', e') -> s <= s') /\ (forall e' r x, In e' (e :: l) -> e_rated e' = Some r -> In x r -> s <= x)
      | None => best = None /\ forall e' r, In e' (e :: l) -> e_rated e' = Some r -> r = nil
      end).
    { intro NO. specialize (IH best HB). destruct (conservative l best) as [[s e0]|].
      - destruct IH as (A & B & C & D). split; [destruct A; [left; right; assumption|right; assumption]|]. split; [exact B|]. split; [exact C|].
        intros e' r x [X|X] R I0; [subst; exfalso; exact (NO r x R I0)|exact (D e' r x X R I0)].
      - destruct IH as (A & B). split; [exact A|]. intros e' r [X|X] R; [subst|exact (B e' r X R)].
        destruct r as [|x r]; [reflexivity|]. exfalso. exact (NO _ x R (or_introl eq_refl)). }
    destruct (e_rated e) as [[|x xs]|] eqn:R.
    + apply SKIP. intros r y E I0. inversion E; subst. destruct I0.
    + clear SKIP. cbv zeta. destruct (least_spec xs x) as (L1 & L2 & L3). set (sm := least x xs) in *.
      assert (NEW : forall r y, e_rated e = Some r -> In y r -> sm <= y).
      { intros r y E I0. rewrite R in E. inversion E; subst. destruct I0 as [I0|I0]; [subst; exact L1|exact (L2 y I0)]. }
      assert (HN : forall s0 e0, Some (sm, e) = Some (s0, e0) -> exists r, e_rated e0 = Some r /\ In s0 r).
      { intros s0 e0 E. inversion E; subst. exists (x :: xs). split; [exact R|exact L3]. }
      destruct best as [[s0 e0]|].
      * destruct (Qlt_bool sm s0) eqn:L.
        -- apply lt_iff in L. specialize (IH (Some (sm, e)) HN). destruct (conservative l (Some (sm, e))) as [[s1 e1]|]; [|destruct IH; discriminate].
           destruct IH as (A & B & C & D). specialize (C _ _ eq_refl).
           split; [destruct A as [A|A]; [left; right; exact A|inversion A; subst; left; left; reflexivity]|]. split; [exact B|]. split.
           ++ intros s' e' E. inversion E; subst. lra.
           ++ intros e' r y [X|X] RR I0; [subst; pose proof (NEW r y RR I0); lra|exact (D e' r y X RR I0)].
        -- apply lt_niff in L. specialize (IH (Some (s0, e0)) HB). destruct (conservative l (Some (s0, e0))) as [[s1 e1]|]; [|destruct IH; discriminate].
           destruct IH as (A & B & C & D). pose proof (C _ _ eq_refl) as C0.
           split; [destruct A as [A|A]; [left; right; exact A|right; exact A]|]. split; [exact B|]. split; [exact C|].
           intros e' r y [X|X] RR I0; [subst; pose proof (NEW r y RR I0); lra|exact (D e' r y X RR I0)].
      * specialize (IH (Some (sm, e)) HN). destruct (conservative l (Some (sm, e))) as [[s1 e1]|]; [|destruct IH; discriminate].
        destruct IH as (A & B & C & D). specialize (C _ _ eq_refl).
        split; [destruct A as [A|A]; [left; right; exact A|inversion A; subst; left; left; reflexivity]|]. split; [exact B|]. split; [discriminate|].
        intros e' r y [X|X] RR I0; [subst; pose proof (NEW r y RR I0); lra|exact (D e' r y X RR I0)].
    + apply SKIP. intros r y E. discriminate.
Qed.

Theorem C171_entry : forall first second others turns,
  let sheet := first :: second :: others in
  exists e, In e sheet /\
    (forall points, datasheet_filter (Some sheet) turns points = datasheet_filter (Some [e]) turns points) /\
    ((exists n k, turns = Some n /\ e_turns e = Some k /\ Qabs (k - n) < 1 # 2) \/
     ((forall n e' k, turns = Some n -> In e' sheet -> e_turns e' = Some k -> 1 # 2 <= Qabs (k - n)) /\
      forall e' r x, In e' sheet -> e_rated e' = Some r -> In x r ->
        exists q y, e_rated e = Some q /\ In y q /\ y <= x)).
Proof.
  intros first second others turns sheet. exists (select_entry first (second :: others) turns).
  assert (ONE : forall points, datasheet_filter (Some sheet) turns points = datasheet_filter (Some [select_entry first (second :: others) turns]) turns points) by reflexivity.
  unfold select_entry. fold sheet. cbv zeta.
  assert (NOTURN : (forall n e' k, turns = Some n -> In e' sheet -> e_turns e' = Some k -> 1 # 2 <= Qabs (k - n)) ->
    let e := match conservative sheet None with Some (_, e) => e | None => first end in
    In e sheet /\ ((exists n k, turns = Some n /\ e_turns e = Some k /\ Qabs (k - n) < 1 # 2) \/
     ((forall n e' k, turns = Some n -> In e' sheet -> e_turns e' = Some k -> 1 # 2 <= Qabs (k - n)) /\
      forall e' r x, In e' sheet -> e_rated e' = Some r -> In x r -> exists q y, e_rated e = Some q /\ In y q /\ y <= x))).
  { intro NT. pose proof (conservative_spec sheet None ltac:(discriminate)) as C.
    destruct (conservative sheet None) as [[s e]|].
    - destruct C as (A & (q & Q1 & Q2) & _ & D). destruct A as [A|A]; [|discriminate]. cbv zeta. split; [exact A|]. right. split; [exact NT|].
      intros e' r x X R I0. exists q, s. split; [exact Q1|]. split; [exact Q2|]. exact (D e' r x X R I0).
    - destruct C as (_ & C). cbv zeta. split; [left; reflexivity|]. right. split; [exact NT|].
      intros e' r x X R I0. exfalso. rewrite (C e' r X R) in I0. destruct I0. }
  destruct turns as [n|].
  - pose proof (matching_spec n sheet) as M. destruct (matching n sheet) as [e|] eqn:ME.
    + destruct M as (A & k & K1 & K2). split; [exact A|]. split.
      * intro points. specialize (ONE points). unfold select_entry in ONE. fold sheet in ONE. cbv zeta in ONE. rewrite ME in ONE. exact ONE.
      * left. exists n, k. auto.
    + destruct NOTURN as (A & B). { intros n' e' k E. inversion E; subst. apply M. }
      split; [exact A|]. split; [|exact B]. intro points. specialize (ONE points). unfold select_entry in ONE. fold sheet in ONE. cbv zeta in ONE. rewrite ME in ONE. exact ONE.
  - destruct NOTURN as (A & B); [discriminate|]. split; [exact A|]. split; [|exact B].
    intro points. exact (ONE points).
Qed.

(** A limit published as nought counts as no limit in the score and as a limit in the
    verdict: the part is dropped with the best score. *)
Theorem C171_zero_limit_refuted : forall l o, l <= 0 -> l < o ->
  datasheet_filter (Some [mkEntry None (Some [l]) None None None]) None [[mkExcitation (Some o) None None None]] = (false, 1).
Proof.
  intros l o L O1. unfold datasheet_filter, select_entry. cbn. unfold gate_if. cbn. unfold gate, headroom. cbn.
  rewrite (proj2 (Qle_bool_iff l 0) L). rewrite (proj2 (le_niff o l) O1). reflexivity.
Qed.

(** ** C172 *)

(** The coating that insulates the conductor: of the strand for litz. *)
Definition insulating (w : wire) (k : coating) : Prop :=
  match w_type w with
  | LITZ => w_coating w <> None /\ w_strand w = Some k
  | ROUND_WIRE | RECTANGULAR_WIRE => w_coating w = Some k
  | FOIL | PLANAR => False
  end.
(** A coating of graded enamel or of layers, not both. *)
Definition enamel (k : coating) (g : Z) : Prop := k_grade k = Some g /\ k_layers k = None.
Definition layered (k : coating) (n : Z) : Prop := k_grade k = None /\ k_layers k = Some n.

Definition at_least (need : option Z) (have : Z) : Prop := match need with Some n => (n <= have)%Z | None => True end.
Definition at_most (most : option Z) (have : Z) : Prop := match most with Some n => (have <= n)%Z | None => True end.

(** An enamelled wire is accepted exactly when its breakdown voltage is high enough and
    its grade within both bounds; a bound on layers alone is one it cannot meet, and
    under a maximum its outside must not be insulated. *)
Theorem C172_enamelled : forall w k outer r v g,
  insulating w k -> w_coating w = Some outer -> enamel k g -> k_breakdown k = Some v ->
  exists s : bool, wire_filter w r = Ok (s, if s then (if Qlt_bool 0 (i_breakdown r) then i_breakdown r - v else 0) else 0) /\
  (s = true <->
    i_breakdown r <= v /\ at_least (i_minimum_grade r) g /\ at_most (i_maximum_grade r) g /\
    (i_minimum_layers r <> None -> i_minimum_grade r <> None) /\
    (i_maximum_layers r <> None -> i_maximum_grade r <> None) /\
    (i_maximum_grade r <> None -> k_insulated outer = false)).
Proof.
  intros w k outer r v g I0 W (G & N) B. unfold wire_filter.
  assert (T : match w_type w with FOIL | PLANAR => False | _ => True end) by (unfold insulating in I0; destruct (w_type w); tauto).
  assert (IN : (match w_type w with LITZ => match w_strand w with Some k0 => Ok k0 | None => Throw "bad optional access" end | _ => Ok outer end) = Ok k).
  { unfold insulating in I0. destruct (w_type w); try tauto; try congruence. destruct I0 as (_ & I0). rewrite I0. reflexivity. }
  destruct r as [br [ming|] [minl|] [maxg|] [maxl|]]; cbn [i_breakdown i_minimum_grade i_minimum_layers i_maximum_grade i_maximum_layers at_least at_most] in *;
    destruct (w_type w); try tauto; rewrite W; rewrite IN; cbn [bind]; rewrite B; unfold chain; rewrite ?G, ?N; cbn [is_some orb andb negb];
    destruct (Qlt_bool v br) eqn:L; (apply lt_iff in L || apply lt_niff in L);
    try (destruct (Z.ltb g ming) eqn:L1; (apply Z.ltb_lt in L1 || apply Z.ltb_ge in L1));
    try (destruct (Z.ltb maxg g) eqn:L2; (apply Z.ltb_lt in L2 || apply Z.ltb_ge in L2));
    destruct (k_insulated outer) eqn:KI; cbn [negb andb];
    (exists true; split; [reflexivity|]; split; [intros _|reflexivity]; repeat split; try lra; try lia; try congruence; fail)
    || (exists false; split; [reflexivity|]; split; [discriminate|]; intros (A1 & A2 & A3 & A4 & A5 & A6); exfalso;
        first [lra | lia | specialize (A4 ltac:(discriminate)); congruence | specialize (A5 ltac:(discriminate)); congruence | specialize (A6 ltac:(discriminate)); congruence]).
Qed.

(** A wire insulated in layers: the same with layers for grades. *)
Theorem C172_layered : forall w k outer r v n,
  insulating w k -> w_coating w = Some outer -> layered k n -> k_breakdown k = Some v ->
  exists s : bool, wire_filter w r = Ok (s, if s then (if Qlt_bool 0 (i_breakdown r) then i_breakdown r - v else 0) else 0) /\
  (s = true <->
    i_breakdown r <= v /\ at_least (i_minimum_layers r) n /\ at_most (i_maximum_layers r) n /\
    (i_minimum_grade r <> None -> i_minimum_layers r <> None) /\
    (i_maximum_grade r <> None -> i_maximum_layers r <> None) /\
    (i_maximum_layers r <> None -> k_insulated outer = false)).
Proof.
  intros w k outer r v n I0 W (G & N) B. unfold wire_filter.
  assert (T : match w_type w with FOIL | PLANAR => False | _ => True end) by (unfold insulating in I0; destruct (w_type w); tauto).
  assert (IN : (match w_type w with LITZ => match w_strand w with Some k0 => Ok k0 | None => Throw "bad optional access" end | _ => Ok outer end) = Ok k).
  { unfold insulating in I0. destruct (w_type w); try tauto; try congruence. destruct I0 as (_ & I0). rewrite I0. reflexivity. }
  destruct r as [br [ming|] [minl|] [maxg|] [maxl|]]; cbn [i_breakdown i_minimum_grade i_minimum_layers i_maximum_grade i_maximum_layers at_least at_most] in *;
    destruct (w_type w); try tauto; rewrite W; rewrite IN; cbn [bind]; rewrite B; unfold chain; rewrite ?G, ?N; cbn [is_some orb andb negb];
    destruct (Qlt_bool v br) eqn:L; (apply lt_iff in L || apply lt_niff in L);
    try (destruct (Z.ltb n minl) eqn:L1; (apply Z.ltb_lt in L1 || apply Z.ltb_ge in L1));
    try (destruct (Z.ltb maxl n) eqn:L2; (apply Z.ltb_lt in L2 || apply Z.ltb_ge in L2));
    destruct (k_insulated outer) eqn:KI; cbn [negb andb];
    (exists true; split; [reflexivity|]; split; [intros _|reflexivity]; repeat split; try lra; try lia; try congruence; fail)
    || (exists false; split; [reflexivity|]; split; [discriminate|]; intros (A1 & A2 & A3 & A4 & A5 & A6); exfalso;
        first [lra | lia | specialize (A4 ltac:(discriminate)); congruence | specialize (A5 ltac:(discriminate)); congruence | specialize (A6 ltac:(discriminate)); congruence]).
Qed.

(** Foils and planar conductors pass whatever is required and whatever they are
    coated with. *)
Theorem C172_foil_refuted : forall w r, w_type w = FOIL \/ w_type w = PLANAR -> wire_filter w r = Ok (true, 0).
Proof. intros w r [H|H]; unfold wire_filter; rewrite H; reflexivity. Qed.

(** The whole coil: kept exactly when in some combination of requirements every wire is. *)
Lemma combination_spec : forall ws rs valid total b s, combination ws rs valid total = Ok (b, s) ->
  (b = true <-> valid = true /\ forall i w, nth_error ws i = Some w ->
     exists r x, nth_error rs i = Some r /\ wire_filter w r = Ok (true, x)) /\
  (b = true -> s <= total).
Proof.
  assert (NP : forall w r x, wire_filter w r = Ok (true, x) -> x <= 0).
  { intros w r x H. unfold wire_filter in H.
    assert (G : forall outer : coating,
      (inner <- match w_type w with LITZ => match w_strand w with Some k => Ok k | None => Throw "bad optional access" end | _ => Ok outer end ;;
       match k_breakdown inner with
          | None => Ok (false, 0)
          | Some v =>
              if Qlt_bool v (i_breakdown r) then Ok (false, 0)
              else if negb (chain (i_minimum_grade r) (i_minimum_layers r) inner (fun have need => Z.ltb have need)) then Ok (false, 0)
              else if (is_some (i_maximum_layers r) || is_some (i_maximum_grade r)) && k_insulated outer then Ok (false, 0)
              else if negb (chain (i_maximum_grade r) (i_maximum_layers r) inner (fun have most => Z.ltb most have)) then Ok (false, 0)
              else Ok (true, if Qlt_bool 0 (i_breakdown r) then i_breakdown r - v else 0)
          end) = Ok (true, x) -> x <= 0).
    { intros outer K. apply bind_ok in K. destruct K as (inner & _ & K). destruct (k_breakdown inner) as [v|]; [|discriminate].
      destruct (Qlt_bool v (i_breakdown r)) eqn:L; [discriminate|]. apply lt_niff in L.
      destruct (chain (i_minimum_grade r) _ _ _); [|discriminate]. cbn [negb] in K.
      destruct ((is_some (i_maximum_layers r) || is_some (i_maximum_grade r)) && k_insulated outer); [discriminate|].
      destruct (chain (i_maximum_grade r) _ _ _); [|discriminate]. cbn [negb] in K.
      assert (x = (if Qlt_bool 0 (i_breakdown r) then i_breakdown r - v else 0)) by congruence. subst.
      destruct (Qlt_bool 0 (i_breakdown r)); lra. }
    destruct (w_type w); try (assert (x = 0) by congruence; subst; lra); destruct (w_coating w); try discriminate; eapply G; exact H. }
  induction ws as [|w ws IH]; intros rs valid total b s H; cbn [combination] in H.
  - inversion H; subst. split; [|intros; lra]. split; [|tauto]. intro V. split; [exact V|]. intros i w N. destruct i; discriminate.
  - destruct rs as [|r rs]; [discriminate|]. apply bind_ok in H. destruct H as ([ok x] & W & H). cbn [fst snd] in H.
    destruct (IH _ _ _ _ _ H) as (A & B). split.
    + rewrite A, andb_true_iff. split.
      * intros ((V & OK) & F). split; [exact V|]. intros [|i] w' N.
        -- cbn in N. inversion N; subst. exists r, x. split; [reflexivity|]. exact W.
        -- exact (F i w' N).
      * intros (V & F). destruct (F 0%nat w eq_refl) as (r' & x' & R & X). cbn in R. assert (r' = r) by congruence. subst r'.
        split; [split; [exact V|congruence]|]. intros i w' N. exact (F (S i) w' N).
    + intro V. specialize (B V). destruct A as (A & _). destruct (A V) as (VV & _). apply andb_true_iff in VV. destruct VV as (_ & OK). subst ok.
      pose proof (NP _ _ _ W). lra.
Qed.
Theorem C172_coil : forall ws cs b s, insulation_filter ws cs = Ok (b, s) ->
  b = true <-> exists c, In c cs /\ forall i w, nth_error ws i = Some w ->
     exists r x, nth_error c i = Some r /\ wire_filter w r = Ok (true, x).
Proof.
  intros ws. induction cs as [|c cs IH]; intros b s H; cbn [insulation_filter] in H.
  - inversion H; subst. split; [discriminate|]. intros (c & [] & _).
  - apply bind_ok in H. destruct H as ([ok t] & C & H). cbn [fst snd] in H. destruct (combination_spec _ _ _ _ _ _ C) as (A & _).
    destruct ok.
    + inversion H; subst. split; [|reflexivity]. intros _. exists c. split; [left; reflexivity|]. apply A. reflexivity.
    + rewrite (IH _ _ H). split; intros (c' & I0 & F).
      * exists c'. split; [right; exact I0|exact F].
      * destruct I0 as [E|I0]; [subst; exfalso; destruct A as (_ & A); assert (false = true) by (apply A; split; [reflexivity|exact F]); discriminate|].
        exists c'. split; [exact I0|exact F].
Qed.

(** And it scores nought, whatever its wires: the scores of wires are never above
    nought, and nought is what they are compared with. *)
Theorem C172_no_ranking_refuted : forall ws cs b s, insulation_filter ws cs = Ok (b, s) -> s == 0.
Proof.
  intros ws. induction cs as [|c cs IH]; intros b s H; cbn [insulation_filter] in H.
  - inversion H; subst. reflexivity.
  - apply bind_ok in H. destruct H as ([ok t] & C & H). cbn [fst snd] in H. destruct (combination_spec _ _ _ _ _ _ C) as (_ & B).
    destruct ok; [|exact (IH _ _ H)]. specialize (B eq_refl). assert (s = cmax 0 t) by congruence. subst.
    unfold cmax. destruct (Qlt_bool 0 t) eqn:L; [apply lt_iff in L; lra|reflexivity].
Qed.

(** ** C173 *)

Definition fresh_memory : memory := mkMemory (fun _ => None) (fun _ => None).

(** A load that can be carried. *)
Definition carried (l : list load) : Prop := forall o, In o l -> 0 < l_power o /\ 0 < l_wire o.

(** The product a point requires with a filling factor and a flux density. *)
Definition requires (o : load) (filling b ap : Q) : Prop := ap * (l_wire o * filling * b) == l_power o.

(** The points with one flux density for all of them. *)
Fixpoint plain (f b : Q) (l : list load) (required : Q) : outcome Q :=
  match l with
  | nil => Ok required
  | o :: rest =>
      if Qeq_bool b 0 then Throw "flux density cannot be 0 or NaN"
      else if Qeq_bool (l_wire o * f) 0 || Qeq_bool (l_power o) 0
      then Throw "areaProductRequired cannot be 0 or NaN"
      else plain f b rest (cmax required (l_power o / (l_wire o * f * b)))
  end.
Definition used (flux : core -> nat -> option Q) (c : core) (i : nat) (m : memory) : option Q :=
  if String.eqb (c_material c) dummy then Some reference_flux
  else match m_flux m (c_material c) with Some b => Some b | None => flux c i end.
Definition remember (flux : core -> nat -> option Q) (c : core) (i : nat) (m : memory) : memory :=
  if String.eqb (c_material c) dummy then m
  else match m_flux m (c_material c) with
       | Some _ => m
       | None => match flux c i with
                 | Some b => mkMemory (m_filling m) (put (m_flux m) (c_material c) b)
                 | None => m
                 end
       end.

Lemma loads_known : forall flux c f b l req m,
  (c_material c = dummy /\ b = reference_flux) \/ (c_material c <> dummy /\ m_flux m (c_material c) = Some b) ->
  loads_loop flux c f l req m = (r <- plain f b l req ;; Ok (Some r, m)).
Proof.
  intros flux c f b. induction l as [|o l IH]; intros req m K; [reflexivity|]. cbn [loads_loop plain].
  assert (E : (if String.eqb (c_material c) dummy then Some (reference_flux, m)
               else match m_flux m (c_material c) with
                    | Some b => Some (b, m)
                    | None => match flux c (l_index o) with
                              | Some b => Some (b, mkMemory (m_filling m) (put (m_flux m) (c_material c) b))
                              | None => None
                              end
                    end) = Some (b, m)).
  { destruct K as [(D & B)|(D & B)].
    - rewrite (proj2 (String.eqb_eq _ _) D), B. reflexivity.
    - rewrite (proj2 (String.eqb_neq _ _) D), B. reflexivity. }
  cbv zeta. rewrite E. destruct (Qeq_bool b 0); [reflexivity|].
  destruct (Qeq_bool (l_wire o * f) 0 || Qeq_bool (l_power o) 0); [reflexivity|]. apply IH. exact K.
Qed.

Lemma loads_uniform : forall flux c f o l req m,
  loads_loop flux c f (o :: l) req m =
  match used flux c (l_index o) m with
  | None => Ok (None, m)
  | Some b => r <- plain f b (o :: l) req ;; Ok (Some r, remember flux c (l_index o) m)
  end.
Proof.
  intros flux c f o l req m. unfold used, remember. destruct (String.eqb (c_material c) dummy) eqn:D.
  - apply String.eqb_eq in D. apply loads_known. left. auto.
  - pose proof D as D'. apply String.eqb_neq in D'. destruct (m_flux m (c_material c)) as [b|] eqn:M.
    + apply loads_known. right. auto.
    + destruct (flux c (l_index o)) as [b|] eqn:F; cbn [loads_loop plain]; cbv zeta; rewrite D, M, F; [|reflexivity].
      destruct (Qeq_bool b 0); [reflexivity|].
      destruct (Qeq_bool (l_wire o * f) 0 || Qeq_bool (l_power o) 0); [reflexivity|].
      apply loads_known. right. split; [exact D'|]. cbn [m_flux]. unfold put. rewrite String.eqb_refl. reflexivity.
Qed.

Lemma plain_spec : forall f b l req r, 0 < f -> 0 < b -> carried l -> plain f b l req = Ok r ->
  req <= r /\ (forall o, In o l -> exists ap, requires o f b ap /\ ap <= r) /\
  (r = req \/ exists o, In o l /\ requires o f b r).
Proof.
  intros f b l. induction l as [|o l IH]; intros req r F B CA H; cbn [plain] in H.
  - assert (r = req) by congruence. subst. split; [lra|]. split; [intros o []|auto].
  - destruct (CA o (or_introl eq_refl)) as (PO & PW).
    assert (CA' : carried l) by (intros o' I0; apply CA; right; exact I0).
    destruct (Qeq_bool b 0); [discriminate|].
    destruct (Qeq_bool (l_wire o * f) 0 || Qeq_bool (l_power o) 0); [discriminate|].
    set (ap := l_power o / (l_wire o * f * b)) in *.
    assert (RQ : requires o f b ap) by (unfold requires, ap; field; repeat split; lra).
    destruct (IH _ _ F B CA' H) as (A & C & D).
    assert (M1 : req <= cmax req ap) by (apply cmax_le; left; lra).
    assert (M2 : ap <= cmax req ap) by (apply cmax_le; right; lra).
    split; [lra|]. split.
    + intros o' [E|I0]; [subst; exists ap; split; [exact RQ|lra]|exact (C o' I0)].
    + destruct D as [D|(o' & I0 & R)]; [|right; exists o'; split; [right; exact I0|exact R]].
      unfold cmax in D. destruct (Qlt_bool req ap); [right; exists o; split; [left; reflexivity|subst; exact RQ]|left; exact D].
Qed.

Lemma requires_one : forall o f b x y, 0 < f -> 0 < b -> 0 < l_wire o -> requires o f b x -> requires o f b y -> x == y.
Proof.
  intros o f b x y F B W X Y. unfold requires in *. assert (P : 0 < l_wire o * f * b).
  { apply Qmult_lt_0_compat; [apply Qmult_lt_0_compat|]; assumption. }
  nra.
Qed.

(** A filter that has judged nothing yet keeps a core exactly when its product reaches
    nine tenths of what every operating point requires, with the reference flux density
    of a placeholder material or that of the material at the first point. *)
Theorem C173_verdict : forall bobbin angle flux (printed : bool) margin o others c v s m' w h a usable b,
  let loads := o :: others in
  let f := if printed then 1 else filling bobbin c w h in
  carried loads -> c_window c = Some (w, h, a) -> 0 < f -> 0 < b ->
  usable_window angle margin c w h a = Ok (Some usable) ->
  (c_material c = dummy /\ b = 18 # 100) \/ (c_material c <> dummy /\ flux c (l_index o) = Some b) ->
  area_product_filter bobbin angle flux printed margin loads c fresh_memory = Ok (v, s, m') ->
  v = true <-> (forall o', In o' loads -> exists ap, requires o' f b ap /\ (9 # 10) * ap <= usable * c_column c).
Proof.
  intros bobbin angle flux printed margin o others c v s m' w h a usable b loads f CA CW F B US MB H.
  unfold area_product_filter in H. rewrite CW in H. cbv zeta in H. rewrite US in H. cbn [bind] in H.
  assert (FE : exists m1 : memory, (if printed then (1, fresh_memory)
                else match m_filling fresh_memory (c_shape c) with
                     | Some f => (f, fresh_memory)
                     | None => (filling bobbin c w h, mkMemory (put (m_filling fresh_memory) (c_shape c) (filling bobbin c w h)) (m_flux fresh_memory))
                     end) = (f, m1) /\ m_flux m1 = fun _ => None).
  { unfold f. destruct printed; [exists fresh_memory; auto|]. cbn [m_filling fresh_memory]. eexists. split; [reflexivity|reflexivity]. }
  destruct FE as (m1 & FE & MF). rewrite FE in H. cbn [fst snd] in H. unfold loads in H. rewrite loads_uniform in H.
  assert (U : used flux c (l_index o) m1 = Some b).
  { unfold used. rewrite MF. destruct MB as [(D & E)|(D & E)].
    - rewrite (proj2 (String.eqb_eq _ _) D), E. reflexivity.
    - rewrite (proj2 (String.eqb_neq _ _) D). exact E. }
  rewrite U in H. fold loads in H. destruct (plain f b loads 0) as [r| | |] eqn:P; cbn [bind] in H; try discriminate. cbn [fst snd] in H.
  destruct (Qlt_bool 1 r); [discriminate|].
  assert (V : v = Qle_bool (r * threshold_validity) (usable * c_column c)) by congruence.
  unfold threshold_validity in V. rewrite V, Qle_bool_iff.
  destruct (plain_spec _ _ _ _ _ F B CA P) as (_ & C & D). split.
  - intros L o' I0. destruct (C o' I0) as (ap & R & LE). exists ap. split; [exact R|]. lra.
  - intro ALL. destruct D as [D|(o' & I0 & R)].
    + exfalso. destruct (C o (or_introl eq_refl)) as (ap & R & LE). destruct (CA o (or_introl eq_refl)) as (PO & PW).
      unfold requires in R. subst r. assert (0 < l_wire o * f * b) by (apply Qmult_lt_0_compat; [apply Qmult_lt_0_compat|]; assumption). nra.
    + destruct (ALL o' I0) as (ap & R' & LE). destruct (CA o' I0) as (_ & PW). pose proof (requires_one _ _ _ _ _ F B PW R R'). lra.
Qed.

(** Cores whose names tell them apart: of the same shape name, the same filling factor;
    of the same material name, the same flux density at the first point. *)
Definition told_apart (bobbin : Q -> Q -> Q) (flux : core -> nat -> option Q) (i : nat) (U : core -> Prop) : Prop :=
  (forall c c' w h a w' h' a', U c -> U c' -> c_shape c = c_shape c' ->
     c_window c = Some (w, h, a) -> c_window c' = Some (w', h', a') -> filling bobbin c w h = filling bobbin c' w' h') /\
  (forall c c', U c -> U c' -> c_material c = c_material c' -> flux c i = flux c' i).

(** What the filter may remember after judging some of them. *)
Inductive reached bobbin angle flux printed margin (loads : list load) (U : core -> Prop) : memory -> Prop :=
| reached_fresh : reached bobbin angle flux printed margin loads U fresh_memory
| reached_next : forall c m v s m', reached bobbin angle flux printed margin loads U m -> U c ->
    area_product_filter bobbin angle flux printed margin loads c m = Ok (v, s, m') ->
    reached bobbin angle flux printed margin loads U m'.

Definition honest (bobbin : Q -> Q -> Q) (flux : core -> nat -> option Q) (i : nat) (U : core -> Prop) (m : memory) : Prop :=
  (forall c w h a f, U c -> c_window c = Some (w, h, a) -> m_filling m (c_shape c) = Some f -> f = filling bobbin c w h) /\
  (forall c b, U c -> m_flux m (c_material c) = Some b -> flux c i = Some b).

(** Then the verdict and the score on any of them are what a filter that has judged
    nothing would say, whatever was judged before and in whatever order. *)
Theorem C173_history : forall bobbin angle flux printed margin o others U m c,
  let loads := o :: others in
  told_apart bobbin flux (l_index o) U -> reached bobbin angle flux printed margin loads U m -> U c ->
  (x <- area_product_filter bobbin angle flux printed margin loads c m ;; Ok (fst x)) =
  (x <- area_product_filter bobbin angle flux printed margin loads c fresh_memory ;; Ok (fst x)).
Proof.
  intros bobbin angle flux printed margin o others U m c loads (TA1 & TA2) R UC.
  assert (HON : honest bobbin flux (l_index o) U m).
  { clear c UC. induction R as [|c m v s m' R IH UC H]; [split; intros; discriminate|].
    destruct IH as (H1 & H2). unfold area_product_filter in H. destruct (c_window c) as [[[w h] a]|] eqn:CW.
    2:{ assert (m' = m) by congruence. subst. split; assumption. }
    cbv zeta in H.
    set (fm := if printed then (1, m) else _) in H.
    assert (HF : honest bobbin flux (l_index o) U (snd fm)).
    { unfold fm. destruct printed; [split; assumption|]. destruct (m_filling m (c_shape c)) as [f|] eqn:MF; [split; assumption|].
      cbn [snd]. split; [|exact H2]. intros c' w' h' a' f UC' CW' P. cbn [m_filling] in P. unfold put in P.
      destruct (String.eqb (c_shape c') (c_shape c)) eqn:SE; [|exact (H1 _ _ _ _ _ UC' CW' P)].
      apply String.eqb_eq in SE. assert (f = filling bobbin c w h) by congruence. subst f. eapply TA1; eauto. }
    apply bind_ok in H. destruct H as ([usable|] & US & H).
    2:{ assert (m' = snd fm) by congruence. subst. exact HF. }
    unfold loads in H. rewrite loads_uniform in H. fold loads in H.
    assert (HR : honest bobbin flux (l_index o) U (remember flux c (l_index o) (snd fm))).
    { unfold remember. destruct (String.eqb (c_material c) dummy); [exact HF|]. destruct (m_flux (snd fm) (c_material c)); [exact HF|].
      destruct (flux c (l_index o)) as [b|] eqn:F; [|exact HF]. destruct HF as (F1 & F2). split; [exact F1|].
      intros c' b' UC' P. cbn [m_flux] in P. unfold put in P. destruct (String.eqb (c_material c') (c_material c)) eqn:ME; [|exact (F2 _ _ UC' P)].
      apply String.eqb_eq in ME. rewrite (TA2 c' c UC' UC ME). congruence. }
    destruct (used flux c (l_index o) (snd fm)) as [b|].
    - destruct (plain (fst fm) b loads 0) as [r| | |]; cbn [bind] in H; try discriminate. cbn [fst snd] in H.
      destruct (Qlt_bool 1 r); [discriminate|]. assert (m' = remember flux c (l_index o) (snd fm)) by congruence. subst m'. exact HR.
    - cbn [bind fst snd] in H. assert (m' = snd fm) by congruence. subst. exact HF. }
  clear R. destruct HON as (H1 & H2). unfold area_product_filter. destruct (c_window c) as [[[w h] a]|] eqn:CW; [|reflexivity]. cbv zeta.
  set (fm := if printed then (1, m) else _). set (fm0 := if printed then (1, fresh_memory) else _).
  assert (FE : fst fm = fst fm0 /\ m_flux (snd fm) = m_flux m /\ m_flux (snd fm0) = m_flux fresh_memory).
  { unfold fm, fm0. destruct printed; [repeat split; reflexivity|]. cbn [m_filling fresh_memory].
    destruct (m_filling m (c_shape c)) as [f|] eqn:MF; cbn [fst snd m_flux]; [|repeat split; reflexivity].
    split; [exact (H1 _ _ _ _ _ UC CW MF)|split; reflexivity]. }
  destruct FE as (FE & FM & FM0). destruct (usable_window angle margin c w h a) as [[usable|]| | |]; cbn [bind]; try reflexivity.
  unfold loads. rewrite !loads_uniform. rewrite FE.
  assert (UE : used flux c (l_index o) (snd fm) = used flux c (l_index o) (snd fm0)).
  { unfold used. rewrite FM, FM0. destruct (String.eqb (c_material c) dummy); [reflexivity|]. cbn [m_flux fresh_memory].
    destruct (m_flux m (c_material c)) as [b|] eqn:MB; [|reflexivity]. symmetry. exact (H2 _ _ UC MB). }
  rewrite UE. destruct (used flux c (l_index o) (snd fm0)) as [b|]; [|reflexivity].
  destruct (plain (fst fm0) b (o :: others) 0) as [r| | |]; cbn [bind fst snd]; try reflexivity.
  destruct (Qlt_bool 1 r); reflexivity.
Qed.

Lemma scale : forall a x y, 0 <= a -> x <= y -> a * x <= a * y.
Proof. intros a x y A L. rewrite (Qmult_comm a x), (Qmult_comm a y). apply Qmult_le_compat_r; assumption. Qed.

(** A larger margin never turns a dropped core into a kept one. *)
Definition unwound (angle : Q -> Q -> Q) : Prop :=
  (forall d r, 0 <= d -> d <= r -> 0 <= angle d r <= 360) /\ (forall d e r, 0 <= d -> d <= e -> e <= r -> angle d r <= angle e r).
Theorem C173_margin : forall bobbin angle flux printed m1 m2 loads c m s m' w h a,
  unwound angle -> 0 <= m1 <= m2 -> c_window c = Some (w, h, a) -> 0 <= w -> 0 <= h -> 0 <= a -> 0 <= c_column c ->
  area_product_filter bobbin angle flux printed m2 loads c m = Ok (true, s, m') ->
  exists s', area_product_filter bobbin angle flux printed m1 loads c m = Ok (true, s', m').
Proof.
  intros bobbin angle flux printed m1 m2 loads c m s m' w h a (AR & AM) (M0 & M12) CW PW PH PA PC H.
  unfold area_product_filter in *. rewrite CW in *. cbv zeta in *. set (fm := if printed then (1, m) else _) in *.
  apply bind_ok in H. destruct H as ([u2|] & U2 & H); [|discriminate].
  assert (U1 : exists u1, usable_window angle m1 c w h a = Ok (Some u1) /\ u2 <= u1).
  { unfold usable_window in *. destruct (Qlt_bool 0 m2) eqn:P2.
    - apply lt_iff in P2. destruct (Qlt_bool 0 m1) eqn:P1.
      + destruct (c_toroidal c); cbn [negb] in *.
        * destruct (c_radial c) as [r|]; [|discriminate]. destruct (Qlt_bool (r / 2) m2) eqn:R2; [discriminate|].
          apply lt_niff in R2. rewrite (proj2 (lt_niff (r / 2) m1)) by lra. eexists. split; [reflexivity|].
          assert (u2 = a * ((360 - angle m2 (r / 2)) / 360)) by congruence. subst u2.
          pose proof (AM m1 m2 (r / 2) M0 M12 R2). assert ((360 - angle m2 (r / 2)) / 360 <= (360 - angle m1 (r / 2)) / 360) by (apply Qmult_le_compat_r; [lra|discriminate]). apply scale; assumption.
        * eexists. split; [reflexivity|]. destruct (Qlt_bool w h).
          -- assert (u2 = a - w * m2) by congruence. subst. pose proof (scale w m1 m2 PW M12). lra.
          -- assert (u2 = a - h * m2) by congruence. subst. pose proof (scale h m1 m2 PH M12). lra.
      + exists a. split; [reflexivity|]. destruct (c_toroidal c); cbn [negb] in *.
        * destruct (c_radial c) as [r|]; [|discriminate]. destruct (Qlt_bool (r / 2) m2) eqn:R2; [discriminate|]. apply lt_niff in R2.
          assert (u2 = a * ((360 - angle m2 (r / 2)) / 360)) by congruence. subst u2.
          destruct (AR m2 (r / 2)) as (A1 & A2); [lra|lra|].
          assert ((360 - angle m2 (r / 2)) / 360 <= 1) by (apply Qle_shift_div_r; lra).
          setoid_replace a with (a * 1) at 2 by ring. apply scale; assumption.
        * destruct (Qlt_bool w h); [assert (u2 = a - w * m2) by congruence|assert (u2 = a - h * m2) by congruence]; subst;
          [pose proof (scale w 0 m2 PW ltac:(lra))|pose proof (scale h 0 m2 PH ltac:(lra))]; lra.
    - apply lt_niff in P2. rewrite (proj2 (lt_niff 0 m1)) by lra. exists a. split; [reflexivity|].
      assert (u2 = a) by congruence. subst. lra. }
  destruct U1 as (u1 & U1 & LE). rewrite U1. cbn [bind].
  destruct (loads_loop flux c (fst fm) loads 0 (snd fm)) as [[[r|] m3]| | |]; cbn [bind fst snd] in *; try discriminate.
  destruct (Qlt_bool 1 r); [discriminate|].
  assert (V : Qle_bool (r * threshold_validity) (u2 * c_column c) = true) by congruence.
  assert (m' = m3) by congruence. subst m'. apply Qle_bool_iff in V.
  pose proof (scale _ _ _ PC LE).
  rewrite (proj2 (Qle_bool_iff (r * threshold_validity) (u1 * c_column c))) by lra. eexists. reflexivity.
Qed.

(** Of a toroid, between 55 and 70 % of the window is taken as usable. *)
Theorem C173_toroid : forall bobbin c w h r, c_toroidal c = true -> c_radial c = Some r -> 0 <= r -> 0 < c_width c ->
  (55 # 100) <= filling bobbin c w h <= (70 # 100).
Proof.
  intros bobbin c w h r T R P W. unfold filling. rewrite T, R. cbn [negb]. cbv zeta.
  destruct (Qlt_bool 0 (c_width c / 2 - r)) eqn:I0.
  - apply lt_iff in I0. assert (PO : 0 < c_width c / 2) by (unfold Qdiv in *; lra).
    assert (0 <= (c_width c / 2 - r) / (c_width c / 2)) by (apply Qle_shift_div_l; lra).
    assert ((c_width c / 2 - r) / (c_width c / 2) <= 1) by (apply Qle_shift_div_r; lra). lra.
  - lra.
Qed.

(** The flux density of the first point judges all of them: the order of the points
    decides. *)
Theorem C173_order_refuted : exists bobbin angle flux c o1 o2,
  (exists s m, area_product_filter bobbin angle flux false 0 [o1; o2] c fresh_memory = Ok (true, s, m)) /\
  (exists s m, area_product_filter bobbin angle flux false 0 [o2; o1] c fresh_memory = Ok (false, s, m)).
Proof.
  exists (fun _ _ => 1 # 2), (fun _ _ => 0), (fun _ i => Some (match i with O => 4 # 10 | _ => 1 # 10 end)),
    (mkCore "E" "N87" false 1 (Some (1, 1, 1 # 100)) None (1 # 100)), (mkLoad (1 # 100000) 1 0), (mkLoad (1 # 100000) 1 1).
  split; eexists; eexists; vm_compute; reflexivity.
Qed.
(** And two shapes of one name are judged with the filling factor of the first. *)
Theorem C173_name_refuted : exists bobbin angle flux a b o, c_shape a = c_shape b /\
  (exists v s m s' m', area_product_filter bobbin angle flux false 0 [o] a fresh_memory = Ok (v, s, m) /\
     area_product_filter bobbin angle flux false 0 [o] b m = Ok (true, s', m')) /\
  (exists s m, area_product_filter bobbin angle flux false 0 [o] b fresh_memory = Ok (false, s, m)).
Proof.
  exists (fun w _ => w), (fun _ _ => 0), (fun _ _ => None),
    (mkCore "Custom" dummy false 1 (Some (1, 1, 1 # 100)) None (1 # 100)),
    (mkCore "Custom" dummy false 1 (Some (1 # 10, 1, 1 # 100)) None (1 # 100)), (mkLoad (1 # 100000) 1 0).
  split; [reflexivity|]. split.
  - do 5 eexists. split; [vm_compute; reflexivity|]. vm_compute. reflexivity.
  - do 2 eexists. vm_compute. reflexivity.
Qed.

(** ** C174 *)

(** A single conductor goes into a section exactly when it is strictly smaller both
    ways, and foils only up to the most layers. *)
Theorem C174_single : forall angle most g s,
  no_parallels_filter angle most g s = true <->
  (g_foil g = true -> (g_parallels g * g_turns g <= most)%Z) /\ g_width g < fst (s_size s) /\
  (if s_polar s then angle (g_height g) (g_width g) else g_height g) < snd (s_size s).
Proof.
  intros angle most g s. unfold no_parallels_filter. destruct (g_foil g); cbn [andb].
  - destruct (Z.ltb most (g_parallels g * g_turns g)) eqn:L.
    + apply Z.ltb_lt in L. split; [discriminate|]. intros (A & _). specialize (A eq_refl). lia.
    + apply Z.ltb_ge in L. rewrite andb_true_iff, !lt_iff. tauto.
  - rewrite andb_true_iff, !lt_iff. split; [intros (A & B)|intros (_ & A & B)]; [split; [discriminate|]|]; auto.
Qed.

(** The room a winding needs, shared by its sections. *)
Definition room (g : coiled) (n : positive) : Q :=
  g_width g * g_height g * inject_Z (g_parallels g * g_turns g) / inject_Z (Zpos n).
Lemma room_eq : forall g n, g_width g * g_height g * (inject_Z (g_parallels g * g_turns g) / inject_Z (Zpos n)) == room g n.
Proof. intros. unfold room. field. unfold Qeq. cbn. lia. Qed.

Theorem C174_relaxed : forall g n area b s, 0 < area -> with_parallels_filter g n area true = (b, s) ->
  (b = true <-> room g n < (3 # 2) * area) /\
  (b = true -> (1 # 2) < s <= 1 /\ (s == 1 <-> room g n <= area) /\ (area <= room g n -> room g n == (2 - s) * area)) /\
  (b = false -> s = 0).
Proof.
  intros g n area b s PA H. unfold with_parallels_filter in H. cbv zeta in H. pose proof (room_eq g n) as RE.
  set (x := g_width g * g_height g * (inject_Z (g_parallels g * g_turns g) / inject_Z (Zpos n))) in *.
  destruct (Qlt_bool x area) eqn:L.
  - apply lt_iff in L. inversion H; subst. split; [split; [intros _; lra|reflexivity]|]. split; [|discriminate].
    intros _. split; [lra|]. split; [split; intros; lra|]. intros; lra.
  - apply lt_niff in L. destruct (Qlt_bool ((x - area) / area) (1 # 2)) eqn:E.
    + apply lt_iff in E. inversion H; subst. assert (XE : x - area == (x - area) / area * area) by (field; lra).
      assert (0 <= (x - area) / area) by (apply Qle_shift_div_l; lra). set (e := (x - area) / area) in *.
      assert (EA : e * area < (1 # 2) * area) by (apply Qmult_lt_compat_r; assumption).
      split; [split; [intros _; lra|reflexivity]|]. split; [|discriminate]. intros _. split; [lra|]. split.
      * split; intro K; [assert (E0 : e == 0) by lra; rewrite E0 in XE; lra|].
        assert (E0 : e * area <= 0) by lra. assert (e == 0) by nra. lra.
      * intros _. setoid_replace ((2 - (1 - e)) * area) with (area + e * area) by ring. lra.
    + apply lt_niff in E. inversion H; subst. assert (XE : x - area == (x - area) / area * area) by (field; lra).
      set (e := (x - area) / area) in *.
      assert (EA : (1 # 2) * area <= e * area) by (apply Qmult_le_compat_r; lra).
      split; [split; [discriminate|intro; lra]|]. split; [discriminate|reflexivity].
Qed.

(** More parallels, turns or larger wires never get a better score. *)
Theorem C174_monotone : forall g g' n area b s b' s', 0 < area -> room g n <= room g' n ->
  with_parallels_filter g n area true = (b, s) -> with_parallels_filter g' n area true = (b', s') ->
  (b' = true -> b = true) /\ s' <= s.
Proof.
  intros g g' n area b s b' s' PA LE H H'. destruct (C174_relaxed _ _ _ _ _ PA H) as (A & B & C).
  destruct (C174_relaxed _ _ _ _ _ PA H') as (A' & B' & C'). split.
  - intro T. apply A. apply A' in T. lra.
  - destruct b'.
    + destruct (B' eq_refl) as (R1 & R2 & R3). assert (bt : b = true) by (apply A; destruct A' as (A' & _); specialize (A' eq_refl); lra).
      destruct (B bt) as (S1 & S2 & S3). destruct (Qlt_le_dec area (room g n)) as [L|L].
      * specialize (S3 (Qlt_le_weak _ _ L)). specialize (R3 ltac:(lra)). nra.
      * apply S2 in L. lra.
    + rewrite (C' eq_refl). destruct b; [destruct (B eq_refl); lra|rewrite (C eq_refl); lra].
Qed.

(** The whole coil is kept exactly when every winding needs less than the area of its
    first section for each of its sections; its score is the share of the windings
    that do. *)
Definition has_room (pi : Q) (x : coiled * list section) : Prop :=
  exists s more, snd x = s :: more /\ room (fst x) (Pos.of_succ_nat (List.length more)) < section_area pi s.
Lemma parallels_loop_spec : forall pi l valid total b t, parallels_loop pi l valid total = Ok (b, t) ->
  (b = true <-> valid = true /\ forall x, In x l -> has_room pi x) /\
  total <= t <= total + inject_Z (Z.of_nat (List.length l)) /\
  ((forall x, In x l -> has_room pi x) <-> t == total + inject_Z (Z.of_nat (List.length l))).
Proof.
  intros pi. induction l as [|[g ss] l IH]; intros valid total b t H; cbn [parallels_loop] in H.
  - inversion H; subst. split; [split; [intro V; split; [exact V|intros x []]|tauto]|].
    change (inject_Z (Z.of_nat (List.length (@nil (coiled * list section))))) with 0. split; [lra|]. split; [intros _; lra|intros _ x []].
  - destruct ss as [|s more]; [discriminate|]. cbv zeta in H. 
    assert (LEN : inject_Z (Z.of_nat (List.length ((g, s :: more) :: l))) == inject_Z (Z.of_nat (List.length l)) + 1).
    { cbn [List.length]. rewrite Nat2Z.inj_succ. unfold Z.succ. rewrite inject_Z_plus. reflexivity. }
    destruct (IH _ _ _ _ H) as (A & B & C). clear IH H.
    set (x := with_parallels_filter g (Pos.of_succ_nat (List.length more)) (section_area pi s) false) in *.
    assert (X : (fst x = true /\ snd x = 1 /\ has_room pi (g, s :: more)) \/ (fst x = false /\ snd x = 0 /\ ~ has_room pi (g, s :: more))).
    { unfold x, with_parallels_filter. cbv zeta. pose proof (room_eq g (Pos.of_succ_nat (List.length more))) as RE.
      destruct (Qlt_bool _ (section_area pi s)) eqn:L; cbn [fst snd].
      - apply lt_iff in L. left. split; [reflexivity|]. split; [reflexivity|]. exists s, more. split; [reflexivity|]. cbn [fst]. lra.
      - apply lt_niff in L. right. split; [reflexivity|]. split; [reflexivity|]. intros (s' & more' & E & K). cbn [fst snd] in *. inversion E; subst. lra. }
    destruct X as [(X1 & X2 & X3)|(X1 & X2 & X3)]; rewrite X1, X2 in *.
    + rewrite andb_true_r in A. split.
      * rewrite A. split; intros (V & F); (split; [exact V|]); intros y.
        -- intros [E|I0]; [subst; exact X3|exact (F y I0)].
        -- intro I0. apply F. right. exact I0.
      * split; [lra|]. rewrite LEN. split.
        -- intro F. assert (F' : forall y, In y l -> has_room pi y) by (intros y I0; apply F; right; exact I0). apply C in F'. lra.
        -- intros E. assert (F' : t == total + 1 + inject_Z (Z.of_nat (List.length l))) by lra. pose proof (proj2 C F') as F2.
           intros y [Y|I0]; [subst; exact X3|exact (F2 y I0)].
    + rewrite andb_false_r in A. split.
      * split; [intro V; apply A in V; destruct V; discriminate|]. intros (V & F). exfalso. apply X3. apply F. left. reflexivity.
      * split; [lra|]. rewrite LEN. split; [intro F; exfalso; apply X3; apply F; left; reflexivity|]. intro E. exfalso. lra.
Qed.
Theorem C174_coil : forall pi l b s, l <> nil -> parallels_filter pi l = Ok (b, s) ->
  (b = true <-> forall x, In x l -> has_room pi x) /\
  exists q, s = Some q /\ 0 <= q <= 1 /\ (b = true <-> q == 1).
Proof.
  intros pi l b s NE H. unfold parallels_filter in H. apply bind_ok in H. destruct H as ([v t] & L & H). cbn [fst snd] in H.
  destruct (parallels_loop_spec _ _ _ _ _ _ L) as (A & B & C).
  assert (b = v) by congruence. subst v.
  assert (K : b = true <-> forall x, In x l -> has_room pi x) by (rewrite A; tauto).
  split; [exact K|]. destruct l as [|y l]; [congruence|]. set (n := List.length (y :: l)) in *.
  assert (PN : 0 < inject_Z (Z.of_nat n)) by (unfold n; cbn [List.length]; rewrite <- Zlt_Qlt || (change 0 with (inject_Z 0); rewrite <- Zlt_Qlt); lia).
  assert (SE : exists q, s = Some q /\ q * inject_Z (Z.of_nat n) == t).
  { assert (SS : s = mean t n) by congruence. unfold mean in SS. subst s. unfold n. cbn [List.length].
    eexists. split; [reflexivity|]. field. unfold n in PN. cbn [List.length] in PN. intro Z0. rewrite Z0 in PN. lra. }
  destruct SE as (q & S0 & E). exists q. split; [exact S0|]. split; [nra|]. rewrite K, C. split; intro; nra.
Qed.

(** What the other sections of a winding leave does not matter. *)
Theorem C174_first_section_refuted : exists g a b,
  parallels_filter 3 [(g, [a; b])] = Ok (true, Some 1) /\
  section_area 3 a + section_area 3 b < g_width g * g_height g * inject_Z (g_parallels g * g_turns g).
Proof.
  exists (mkCoiled false 1 1 10 1), (mkSection false (3, 2)), (mkSection false (1, 1)). split; vm_compute; reflexivity.
Qed.
Theorem C174_no_sections : forall pi g l, exists m, parallels_filter pi ((g, nil) :: l) = UB m.
Proof. intros. eexists. reflexivity. Qed.
Theorem C174_no_windings : forall pi, parallels_filter pi nil = Ok (true, None).
Proof. reflexivity. Qed.

(** ** C175 *)

(** What a filter found is what is looked up, under that filter and that name only. *)
Theorem C175_lookup : forall t name f v name' f', ~ v == -1 ->
  get_scoring (add_scoring t name f (Some v)) name' f' =
  if Nat.eqb f' f && String.eqb name' name then Some v else get_scoring t name' f'.
Proof.
  intros t name f v name' f' N. unfold add_scoring, get_scoring.
  destruct (Qeq_bool v (-1)) eqn:E; [apply Qeq_bool_iff in E; contradiction|]. reflexivity.
Qed.

(** Scores taken in any order, of any filters: a candidate whose reference is only
    shared by candidates that score the same gets its own losses, volume and rise. *)
Definition scored (history : list (nat * candidate)) : scores :=
  fold_left (fun t x => add_scoring t (reference_of (d_reference (snd x))) (fst x) (d_own (snd x) (fst x))) history (fun _ _ => None).
Definition told (c : candidate) (history : list (nat * candidate)) : Prop :=
  forall f d, In (f, d) history -> reference_of (d_reference d) = reference_of (d_reference c) -> d_own d f = d_own c f.
Lemma scored_own : forall c history t, told c history ->
  (forall f v, t f (reference_of (d_reference c)) = Some v -> d_own c f = Some v) ->
  forall f v, fold_left (fun t x => add_scoring t (reference_of (d_reference (snd x))) (fst x) (d_own (snd x) (fst x))) history t
    f (reference_of (d_reference c)) = Some v -> d_own c f = Some v.
Proof.
  intros c. induction history as [|[f d] history IH]; intros t T HT; [exact HT|]. cbn [fold_left].
  apply IH; [intros f' d' I0; apply T; right; exact I0|]. intros f' v. cbn [fst snd]. unfold add_scoring.
  destruct (d_own d f) as [x|] eqn:O1; [|apply HT]. destruct (Qeq_bool x (-1)); [apply HT|].
  destruct (Nat.eqb f' f && String.eqb (reference_of (d_reference c)) (reference_of (d_reference d))) eqn:E; [|apply HT].
  apply andb_true_iff in E. destruct E as (E1 & E2). apply Nat.eqb_eq in E1. apply String.eqb_eq in E2. subst f'.
  intro V. rewrite <- (T f d (or_introl eq_refl) (eq_sym E2)). congruence.
Qed.
Theorem C175_own : forall c history losses rise, told c history ->
  losses_times_volume (scored history) losses c = times (d_own c losses) (Some (d_volume c)) /\
  losses_times_volume_times_rise (scored history) losses rise c =
    times (times (d_own c losses) (Some (d_volume c))) (d_own c rise).
Proof.
  intros c history losses rise T.
  assert (K : forall f, cached_or_compute (scored history) c f = d_own c f).
  { intro f. unfold cached_or_compute, get_scoring. destruct (scored history f (reference_of (d_reference c))) as [v|] eqn:E; [|reflexivity].
    symmetry. eapply scored_own; [exact T| |exact E]. intros f' v' X. discriminate. }
  unfold losses_times_volume, losses_times_volume_times_rise. rewrite !K. auto.
Qed.

(** Two candidates without a reference share one name: the first is ranked with the
    losses of the second. *)
Theorem C175_nameless_refuted : forall a b losses t v, d_reference a = None -> d_reference b = None ->
  d_own b losses = Some v -> ~ v == -1 ->
  losses_times_volume (score_all losses t [a; b]) losses a = Some (v * d_volume a).
Proof.
  intros a b losses t v A B O1 N. unfold losses_times_volume, cached_or_compute, score_all. cbn [fold_left].
  rewrite A, B, O1. rewrite C175_lookup by exact N. rewrite Nat.eqb_refl, String.eqb_refl. reflexivity.
Qed.
(** A score of minus one, or none, leaves the one before in place. *)
Theorem C175_stale_refuted : forall t name f x, x = None \/ x = Some (-1) -> add_scoring t name f x = t.
Proof. intros t name f x [E|E]; subst; reflexivity. Qed.

(** ** Concrete cases *)

Definition sheet5 : entry := mkEntry (Some 12) (Some [5]) (Some 10) None (Some 60).
Definition point5 : list excitation := [mkExcitation (Some 3) (Some 6) None (Some (-48)); mkExcitation (Some 1) (Some 9) None None].
Example C171_witness :
  (forall l o, asked sheet5 [point5] l o -> 0 < l /\ 0 <= o) /\ (forall l, e_peak sheet5 = Some l -> 0 < l) /\
  asked sheet5 [point5] 5 3 /\ asked sheet5 [point5] 10 9 /\ asked sheet5 [point5] 60 48 /\
  datasheet_filter (Some [sheet5]) None [point5] = (true, 1 # 10).
Proof.
  split.
  { intros l o A. destruct A as [p i x l o P X O1 R|p i x ls l o P X O1 R N L|p x l o P X O1 R|p x l o P X O1 R|p x l o P X O1 R];
      cbn in R; inversion R; subst; clear R; destruct P as [P|[]]; subst.
    - destruct i as [|[|i]]; cbn in X; [| |destruct i; discriminate]; inversion X; subst; cbn in O1; inversion O1; subst; lra.
    - cbn in N. congruence.
    - split; [lra|]. apply Qabs_nonneg.
    - destruct X as [X|[X|[]]]; subst; cbn in O1; inversion O1; subst; lra. }
  split; [intros l E; inversion E; lra|].
  split; [eapply (asked_one _ _ point5 0); try reflexivity; left; reflexivity|].
  split; [eapply (asked_peak _ _ point5 (mkExcitation (Some 1) (Some 9) None None)); try reflexivity; [left; reflexivity|right; left; reflexivity]|].
  split; [apply (asked_dc sheet5 [point5] point5 (mkExcitation (Some 3) (Some 6) None (Some (-48))) 60 (-48)); try reflexivity; left; reflexivity|].
  vm_compute. reflexivity.
Qed.
Example C171_dropped_witness :
  datasheet_filter (Some [sheet5]) None [point5; [mkExcitation (Some 7) None None None]] = (false, 0).
Proof. vm_compute. reflexivity. Qed.
Example C171_entry_witness :
  select_entry (mkEntry (Some 10) (Some [8]) None None None) [sheet5; mkEntry (Some 20) (Some [3; 2]) None None None] (Some 12) = sheet5 /\
  e_turns (select_entry (mkEntry (Some 10) (Some [8]) None None None) [sheet5; mkEntry (Some 20) (Some [3; 2]) None None None] (Some 15)) = Some 20.
Proof. split; vm_compute; reflexivity. Qed.
Example C171_unpublished_witness :
  (forall l o, ~ asked (mkEntry (Some 12) None None (Some 100) None) [point5] l o).
Proof.
  intros l o A. destruct A as [p i x l o P X O1 R|p i x ls l o P X O1 R N L|p x l o P X O1 R|p x l o P X O1 R|p x l o P X O1 R]; cbn in R; try discriminate.
  destruct P as [P|[]]; subst. destruct X as [X|[X|[]]]; subst; discriminate.
Qed.

Definition enamelled2 : wire := mkWire LITZ (Some (mkCoating None None None false)) (Some (mkCoating (Some 4600) (Some 2%Z) None false)).
Example C172_witness :
  insulating enamelled2 (mkCoating (Some 4600) (Some 2%Z) None false) /\ enamel (mkCoating (Some 4600) (Some 2%Z) None false) 2 /\
  wire_filter enamelled2 (mkInsulation 3000 (Some 1%Z) None (Some 3%Z) None) = Ok (true, -1600) /\
  wire_filter enamelled2 (mkInsulation 3000 (Some 3%Z) None None None) = Ok (false, 0) /\
  layered (mkCoating (Some 6000) None (Some 3%Z) true) 3 /\
  wire_filter (mkWire ROUND_WIRE (Some (mkCoating (Some 6000) None (Some 3%Z) true)) None) (mkInsulation 3000 None (Some 3%Z) None None) = Ok (true, -3000).
Proof. repeat split; try discriminate; vm_compute; reflexivity. Qed.
Example C172_coil_witness :
  insulation_filter [enamelled2; enamelled2]
    [[mkInsulation 9000 None None None None; mkInsulation 0 None None None None];
     [mkInsulation 3000 (Some 1%Z) None None None; mkInsulation 0 None None None None]] = Ok (true, 0).
Proof. vm_compute. reflexivity. Qed.

Definition ring1 : core := mkCore "T 20" "N87" true 20 (Some (5, 360, 80)) (Some 5) (1 # 100000).
Example C173_witness :
  carried [mkLoad (1 # 100000) (1 # 2) 0; mkLoad (1 # 200000) (1 # 2) 1] /\
  (exists s m, area_product_filter (fun _ _ => 1 # 2) (fun _ _ => 90) (fun _ _ => Some (3 # 10)) false 1
     [mkLoad (1 # 100000) (1 # 2) 0; mkLoad (1 # 200000) (1 # 2) 1] ring1 fresh_memory = Ok (true, s, m)) /\
  usable_window (fun _ _ => 90) 1 ring1 5 360 80 = Ok (Some (80 * (270 / 360))) /\
  filling (fun _ _ => 1 # 2) ring1 5 360 == (625 # 1000).
Proof.
  split; [intros o [E|[E|[]]]; subst; split; reflexivity|]. split; [do 2 eexists; vm_compute; reflexivity|]. split; vm_compute; reflexivity.
Qed.
Example C173_history_witness :
  told_apart (fun _ _ => 1 # 2) (fun _ _ => Some (3 # 10)) 0 (fun c => c = ring1 \/ c = mkCore "E 10" "N87" false 10 (Some (2, 3, 6)) None 1).
Proof.
  split; [|reflexivity]. intros c c' w h a w' h' a' [U|U] [U'|U'] E W W'; subst; cbn in *; try discriminate; inversion W; inversion W'; reflexivity.
Qed.
Example C173_margin_witness : unwound (fun d r => if Qle_bool r 0 then 0 else 360 * d / r * (1 # 4)).
Proof.
  split.
  - intros d r D L. destruct (Qle_bool r 0) eqn:E; [lra|]. apply le_niff in E.
    assert (Q1 : 0 <= 360 * d / r) by (apply Qle_shift_div_l; lra).
    assert (Q2 : 360 * d / r <= 360) by (apply Qle_shift_div_r; lra). lra.
  - intros d e r D L LR. destruct (Qle_bool r 0) eqn:E; [lra|]. apply le_niff in E.
    assert (Q1 : 360 * d / r <= 360 * e / r) by (apply Qmult_le_compat_r; [lra|apply Qlt_le_weak, Qinv_lt_0_compat; exact E]). lra.
Qed.
Example C174_witness :
  no_parallels_filter (fun _ _ => 10) 4 (mkCoiled true 1 2 2 2) (mkSection false (3, 3)) = true /\
  with_parallels_filter (mkCoiled false 1 1 12 1) 1 10 true = (true, 1 - ((12 - 10) / 10)) /\
  parallels_filter 3 [(mkCoiled false 1 1 6 1, [mkSection false (3, 3)]); (mkCoiled false 1 1 20 1, [mkSection false (3, 3)])] = Ok (false, Some (1 / 2)).
Proof. split; [|split]; vm_compute; reflexivity. Qed.
Example C175_witness :
  let a := mkCandidate (Some "A") (fun f => Some (inject_Z (Z.of_nat f + 2))) 10 in
  let b := mkCandidate (Some "B") (fun f => if Nat.eqb f 3 then None else Some 7) 20 in
  told a [(3%nat, a); (3%nat, b); (4%nat, b); (4%nat, a)] /\
  losses_times_volume (scored [(3%nat, a); (3%nat, b); (4%nat, b); (4%nat, a)]) 3 a = Some 50.
Proof.
  cbv zeta. split; [|vm_compute; reflexivity]. intros f d [E|[E|[E|[E|[]]]]] R; inversion E; subst; (reflexivity || discriminate).
Qed.

(** A section of a ring: the whole turn is the full circle, and neighbouring sections
    of one radius add up. *)
Theorem C174_sector : forall pi r x y,
  section_area pi (mkSection true (r, 360)) == pi * (r * r) /\
  section_area pi (mkSection true (r, x + y)) ==
    section_area pi (mkSection true (r, x)) + section_area pi (mkSection true (r, y)) /\
  section_area pi (mkSection false (r, x)) == r * x.
Proof. intros. unfold section_area. cbn [s_polar s_size fst snd]. repeat split; field. Qed.

Print Assumptions C171_verdict.
Print Assumptions C171_score.
Print Assumptions C172_enamelled.
Print Assumptions C172_coil.
Print Assumptions C173_verdict.
Print Assumptions C173_history.
Print Assumptions C174_coil.
Print Assumptions C175_own.
Print Assumptions C174_sector.
