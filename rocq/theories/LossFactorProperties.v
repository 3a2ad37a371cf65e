(** * C139 and C140: losses from a loss factor, and losses as a resistance *)
From Coq Require Import Reals List Lra Lia ZArith String Permutation Sorted.
From Verif Require Import Base SizingModel SizingProofs LossFactorModel.
Import ListNotations.
Local Open Scope R_scope.
Local Open Scope outcome_scope.

(** ** Vocabulary *)

(** The points a material publishes, all of them with a frequency. *)
Definition published (x : material) (data : list (R * R)) : Prop :=
  map (fun p => (at_frequency p, value p)) (points x) = map (fun d => (Some (fst d), snd d)) data.
Definition distinct (data : list (R * R)) : Prop := NoDup (map fst data).

(** What is assumed of the splines of the library: they pass by their points. *)
Definition passes (spline : list (R * R) -> R -> R) : Prop :=
  forall t x y, (3 <= List.length t)%nat -> StronglySorted (fun a b => fst a < fst b) t -> In (x, y) t -> spline t x = y.

(** The answer when nothing was asked before. *)
Definition fresh (spline : list (R * R) -> R -> R) (x : material) (f : R) : outcome R :=
  snd (loss_factor spline (fun _ => None) x f).

(** ** Tables *)

Lemma read_published : forall x data, published x data -> read (points x) = Ok data.
Proof.
  intros x data. unfold published. generalize (points x). intros l. revert data.
  induction l as [|p l IH]; intros [|d data] H; simpl in *; try discriminate; [reflexivity|].
  injection H as H1 H2 H3. rewrite H1, (IH data H3). cbn [bind]. rewrite H2. destruct d; reflexivity.
Qed.

Lemma place_permutation : forall x l, Permutation (place x l) (x :: l).
Proof.
  intros x l. induction l as [|y l IH]; simpl; [reflexivity|]. destruct (Rle_dec (fst x) (fst y)); [reflexivity|].
  rewrite IH. apply perm_swap.
Qed.
Lemma sort_permutation : forall l, Permutation (sort l) l.
Proof.
  induction l as [|x l IH]; simpl; [reflexivity|]. rewrite place_permutation, IH. reflexivity.
Qed.
Lemma place_sorted : forall x l, StronglySorted (fun a b => fst a <= fst b) l -> StronglySorted (fun a b => fst a <= fst b) (place x l).
Proof.
  intros x l. induction l as [|y l IH]; intros S; simpl; [repeat constructor|].
  inversion S as [|? ? S' F]; subst. destruct (Rle_dec (fst x) (fst y)) as [L|L].
  - constructor; [exact S|]. constructor; [exact L|]. eapply Forall_impl; [|exact F]. intros a A. simpl in A. lra.
  - constructor; [apply IH; exact S'|]. apply Forall_forall. intros a A.
    apply (Permutation_in _ (place_permutation x l)) in A. destruct A as [<-|A]; [lra|].
    rewrite Forall_forall in F. apply F. exact A.
Qed.
Lemma sort_sorted : forall l, StronglySorted (fun a b => fst a <= fst b) (sort l).
Proof. induction l as [|x l IH]; simpl; [constructor|apply place_sorted; exact IH]. Qed.

Definition above (last : option R) (f : R) : Prop := match last with Some x => x < f | None => True end.

Lemma rising_spec : forall l last, StronglySorted (fun a b => fst a <= fst b) l ->
  StronglySorted (fun a b => fst a < fst b) (rising last l) /\
  (forall p, In p (rising last l) -> In p l /\ above last (fst p)) /\
  (forall p, In p l -> above last (fst p) -> exists q, In q (rising last l) /\ fst q = fst p).
Proof.
  induction l as [|[f v] l IH]; intros last S; simpl.
  - split; [constructor|]. split; intros p P; contradiction.
  - inversion S as [|? ? S' F]; subst. rewrite Forall_forall in F. simpl in F.
    assert (KEEP : above last f ->
      StronglySorted (fun a b => fst a < fst b) ((f, v) :: rising (Some f) l) /\
      (forall p, In p ((f, v) :: rising (Some f) l) -> ((f, v) = p \/ In p l) /\ above last (fst p)) /\
      (forall p, (f, v) = p \/ In p l -> above last (fst p) -> exists q, In q ((f, v) :: rising (Some f) l) /\ fst q = fst p)).
    { intros A. destruct (IH (Some f) S') as (I1 & I2 & I3). split; [|split].
      - constructor; [exact I1|]. apply Forall_forall. intros p P. apply I2 in P. apply P.
      - intros p [<-|P]; [split; [left; reflexivity|exact A]|]. apply I2 in P. destruct P as [P Q].
        split; [right; exact P|]. simpl in Q. destruct last; simpl in *; lra.
      - intros p [<-|P] Q; [exists (f, v); split; [left; reflexivity|reflexivity]|].
        specialize (F p P). destruct F as [F|F].
        + destruct (I3 p P F) as (q & Q1 & Q2). exists q. split; [right; exact Q1|exact Q2].
        + exists (f, v). split; [left; reflexivity|exact F]. }
    destruct last as [x|].
    + destruct (Rlt_dec x f) as [L|L].
      * exact (KEEP L).
      * destruct (IH (Some x) S') as (I1 & I2 & I3). split; [exact I1|]. split.
        -- intros p P. apply I2 in P. destruct P as [P Q]. split; [right; exact P|exact Q].
        -- intros p [<-|P] Q; [simpl in Q; contradiction|]. apply I3; assumption.
    + exact (KEEP I).
Qed.

Lemma table_published : forall x data, published x data -> table (points x) = Ok (rising None (sort data)).
Proof. intros x data P. unfold table. rewrite (read_published x data P). reflexivity. Qed.

Lemma strict_perm : forall a b : list (R * R), StronglySorted (fun x y => fst x < fst y) a ->
  StronglySorted (fun x y => fst x < fst y) b -> Permutation a b -> a = b.
Proof.
  induction a as [|x a IH]; intros b A B P.
  - apply Permutation_nil in P. symmetry. exact P.
  - destruct b as [|y b]; [symmetry in P; apply Permutation_nil in P; discriminate|].
    inversion A as [|? ? A' FA]; subst. inversion B as [|? ? B' FB]; subst. rewrite Forall_forall in FA, FB.
    assert (x = y).
    { pose proof (Permutation_in x P (or_introl eq_refl)) as X.
      pose proof (Permutation_in y (Permutation_sym P) (or_introl eq_refl)) as Y.
      destruct X as [X|X]; [symmetry; exact X|]. destruct Y as [Y|Y]; [exact Y|].
      specialize (FB x X). specialize (FA y Y). lra. }
    subst y. apply Permutation_cons_inv in P. f_equal. apply IH; assumption.
Qed.

Lemma sorted_weaken : forall l : list (R * R), NoDup (map fst l) -> StronglySorted (fun a b => fst a <= fst b) l ->
  StronglySorted (fun a b => fst a < fst b) l.
Proof.
  induction l as [|x l IH]; intros N S; [constructor|]. inversion S as [|? ? S' F]; subst. simpl in N. inversion N as [|? ? N1 N2]; subst.
  constructor; [apply IH; assumption|]. rewrite Forall_forall in F. apply Forall_forall. intros y Y.
  destruct (F y Y) as [L|L]; [exact L|]. exfalso. apply N1. rewrite L. apply in_map. exact Y.
Qed.

Lemma rising_all : forall l last, StronglySorted (fun a b => fst a < fst b) l -> (forall p, In p l -> above last (fst p)) ->
  rising last l = l.
Proof.
  induction l as [|[f v] l IH]; intros last S A; simpl; [reflexivity|].
  inversion S as [|? ? S' F]; subst. rewrite Forall_forall in F.
  assert (E : rising (Some f) l = l) by (apply IH; [exact S'|intros p P; exact (F p P)]).
  destruct last as [x|]; [|rewrite E; reflexivity].
  destruct (Rlt_dec x f) as [L|L]; [rewrite E; reflexivity|]. exfalso. apply L. exact (A (f, v) (or_introl eq_refl)).
Qed.

Lemma sort_strict : forall data, distinct data -> StronglySorted (fun a b => fst a < fst b) (sort data).
Proof.
  intros data D. apply sorted_weaken; [|apply sort_sorted]. unfold distinct in D.
  apply (Permutation_NoDup (Permutation_map fst (Permutation_sym (sort_permutation data))) D).
Qed.

Lemma table_distinct : forall x data, published x data -> distinct data -> table (points x) = Ok (sort data).
Proof.
  intros x data P D. rewrite (table_published x data P). f_equal. apply rising_all; [apply sort_strict; exact D|].
  intros; exact I.
Qed.

Lemma clamp_in : forall x a b, a <= x <= b -> clamp x a b = x.
Proof. intros x a b H. unfold clamp. destruct (Rlt_dec x a); [lra|]. destruct (Rlt_dec b x); [lra|reflexivity]. Qed.
Lemma clamp_low : forall x a b, x <= a -> a <= b -> clamp x a b = a.
Proof. intros x a b H L. unfold clamp. destruct (Rlt_dec x a); [reflexivity|]. destruct (Rlt_dec b x); lra. Qed.
Lemma clamp_high : forall x a b, b <= x -> a <= b -> clamp x a b = b.
Proof. intros x a b H L. unfold clamp. destruct (Rlt_dec x a); [lra|]. destruct (Rlt_dec b x); [reflexivity|lra]. Qed.

Lemma last_In : forall (A : Type) (l : list A) d, l <> [] -> In (last l d) l.
Proof.
  intros A l d. induction l as [|x l IH]; intros N; [contradiction|]. destruct l as [|y l]; [left; reflexivity|].
  right. apply IH. discriminate.
Qed.
Lemma last_greatest : forall (l : list (R * R)) d p, StronglySorted (fun a b => fst a < fst b) l -> In p l ->
  fst p <= fst (last l d).
Proof.
  induction l as [|x l IH]; intros d p S P; [contradiction|]. inversion S as [|? ? S' F]; subst. rewrite Forall_forall in F.
  destruct l as [|y l]; [destruct P as [<-|[]]; simpl; lra|].
  assert (L : fst x < fst (last (y :: l) d)) by (apply F; apply last_In; discriminate).
  change (last (x :: y :: l) d) with (last (y :: l) d).
  destruct P as [<-|P]; [lra|apply IH; assumption].
Qed.

(** What the interpolation gives by a table that rises. *)
Lemma interpolation_points : forall spline t x y, passes spline -> StronglySorted (fun a b => fst a < fst b) t ->
  In (x, y) t -> interpolation spline t x = y.
Proof.
  intros spline t x y P S H. destruct t as [|[x0 y0] [|[x1 y1] [|c t]]]; [contradiction| | |].
  - destruct H as [H|[]]. injection H as -> ->. reflexivity.
  - inversion S as [|? ? _ F]; subst. inversion F as [|? ? L _]; subst. simpl in L. simpl.
    destruct H as [H|[H|[]]]; injection H as -> ->.
    + rewrite clamp_in by lra. field. lra.
    + rewrite clamp_in by lra. field. lra.
  - cbn [interpolation]. set (t' := (x0, y0) :: (x1, y1) :: c :: t) in *.
    rewrite clamp_in.
    + apply P; [simpl; lia|exact S|exact H].
    + split; [|exact (last_greatest t' _ (x, y) S H)]. inversion S as [|? ? _ F]; subst. rewrite Forall_forall in F.
      destruct H as [H|H]; [injection H as -> ->; lra|]. specialize (F (x, y) H). simpl in F. lra.
Qed.

Lemma interpolation_outside : forall spline t x q, StronglySorted (fun a b => fst a < fst b) t -> In q t ->
  (x <= fst q /\ (forall p, In p t -> fst q <= fst p)) \/ (fst q <= x /\ (forall p, In p t -> fst p <= fst q)) ->
  interpolation spline t x = interpolation spline t (fst q).
Proof.
  intros spline t x q S Q H. destruct t as [|[x0 y0] [|[x1 y1] [|c t]]]; [contradiction|reflexivity| |].
  - inversion S as [|? ? _ F]; subst. inversion F as [|? ? L _]; subst. simpl in L. cbn [interpolation].
    assert (E : clamp x x0 x1 = clamp (fst q) x0 x1); [|rewrite E; reflexivity].
    destruct Q as [<-|[<-|[]]]; cbn [fst] in *; destruct H as [[H1 H2]|[H1 H2]].
    + rewrite !clamp_low by lra. reflexivity.
    + pose proof (H2 (x1, y1) (or_intror (or_introl eq_refl))). simpl in *. lra.
    + pose proof (H2 (x0, y0) (or_introl eq_refl)). simpl in *. lra.
    + rewrite !clamp_high by lra. reflexivity.
  - cbn [interpolation]. set (t' := (x0, y0) :: (x1, y1) :: c :: t) in *. f_equal.
    assert (LI : In (last t' (0, 0)) t') by (apply last_In; discriminate).
    assert (FI : In (x0, y0) t') by (left; reflexivity).
    pose proof (last_greatest t' (0, 0) (x0, y0) S FI) as LG.
    simpl fst in LG at 1.
    assert (FL : forall p, In p t' -> x0 <= fst p).
    { intros p P. inversion S as [|? ? _ F]; subst. rewrite Forall_forall in F.
      destruct P as [<-|P]; [simpl; lra|]. specialize (F p P). simpl in F. lra. }
    destruct H as [[H1 H2]|[H1 H2]].
    + pose proof (H2 _ FI) as B. pose proof (FL q Q). simpl in B. assert (fst q = x0) by lra.
      rewrite !clamp_low by lra. reflexivity.
    + pose proof (H2 _ LI) as B. pose proof (last_greatest t' (0, 0) q S Q). assert (fst q = fst (last t' (0, 0))) by lra.
      rewrite !clamp_high by lra. reflexivity.
Qed.

Lemma fresh_table : forall spline x t f, table (points x) = Ok t -> t <> [] ->
  fresh spline x f = if Rlt_dec (interpolation spline t f) 0 then Throw "CalculationException" else Ok (interpolation spline t f).
Proof. intros spline x t f T N. unfold fresh, loss_factor. rewrite T. destruct t; [contradiction|reflexivity]. Qed.

Lemma sort_nonempty : forall data, data <> [] -> sort data <> [].
Proof.
  intros data N E. pose proof (sort_permutation data) as P. rewrite E in P. apply Permutation_nil in P. contradiction.
Qed.

(** ** C139 *)

(** At every frequency the material publishes, the loss factor is the published one. *)
Theorem C139_points : forall spline x data f v, passes spline -> published x data -> distinct data ->
  In (f, v) data -> 0 <= v -> fresh spline x f = Ok v.
Proof.
  intros spline x data f v S P D H V.
  rewrite (fresh_table spline x (sort data)); [|apply table_distinct; assumption|apply sort_nonempty; intros ->; contradiction].
  rewrite (interpolation_points spline (sort data) f v S (sort_strict data D)).
  - destruct (Rlt_dec v 0); [lra|reflexivity].
  - apply (Permutation_in _ (Permutation_sym (sort_permutation data))). exact H.
Qed.

(** Published twice at one frequency, it is one of the two; no frequency is lost. *)
Theorem C139_repeated : forall spline x data f v, passes spline -> published x data -> In (f, v) data ->
  (forall w, In (f, w) data -> 0 <= w) -> exists w, In (f, w) data /\ fresh spline x f = Ok w.
Proof.
  intros spline x data f v S P H V. destruct (rising_spec (sort data) None (sort_sorted data)) as (R1 & R2 & R3).
  destruct (R3 (f, v)) as ([f' w] & Q1 & Q2); [|exact I|].
  { apply (Permutation_in _ (Permutation_sym (sort_permutation data))). exact H. }
  simpl in Q2. subst f'. assert (W : In (f, w) data).
  { apply R2 in Q1. destruct Q1 as [Q1 _]. apply (Permutation_in _ (sort_permutation data)). exact Q1. }
  exists w. split; [exact W|].
  rewrite (fresh_table spline x (rising None (sort data))); [|apply table_published; exact P|].
  - rewrite (interpolation_points spline _ f w S R1 Q1). pose proof (V w W). destruct (Rlt_dec w 0); [lra|reflexivity].
  - intros E. rewrite E in Q1. contradiction.
Qed.

(** Out of the published band it is the one of the nearest end. *)
Theorem C139_outside : forall spline x data f g v, passes spline -> published x data -> distinct data ->
  In (g, v) data -> 0 <= v ->
  (f <= g /\ (forall p, In p data -> g <= fst p)) \/ (g <= f /\ (forall p, In p data -> fst p <= g)) ->
  fresh spline x f = Ok v.
Proof.
  intros spline x data f g v S P D H V B.
  assert (G : In (g, v) (sort data)) by (apply (Permutation_in _ (Permutation_sym (sort_permutation data))); exact H).
  rewrite (fresh_table spline x (sort data)); [|apply table_distinct; assumption|intros E; rewrite E in G; contradiction].
  rewrite (interpolation_outside spline (sort data) f (g, v) (sort_strict data D) G).
  - simpl fst. rewrite (interpolation_points spline (sort data) g v S (sort_strict data D) G).
    destruct (Rlt_dec v 0); [lra|reflexivity].
  - simpl fst. destruct B as [[B1 B2]|[B1 B2]]; [left|right]; (split; [exact B1|]; intros p Q; apply B2;
      apply (Permutation_in _ (sort_permutation data)); exact Q).
Qed.

(** Two points: the straight line, between both values. *)
Theorem C139_two_points : forall spline x f f0 v0 f1 v1,
  published x [(f0, v0); (f1, v1)] -> f0 < f < f1 -> 0 <= v0 -> 0 <= v1 ->
  fresh spline x f = Ok (v0 + (v1 - v0) * ((f - f0) / (f1 - f0))) /\
  Rmin v0 v1 <= v0 + (v1 - v0) * ((f - f0) / (f1 - f0)) <= Rmax v0 v1.
Proof.
  intros spline x f f0 v0 f1 v1 P F V0 V1.
  assert (D : distinct [(f0, v0); (f1, v1)]).
  { unfold distinct. simpl. constructor; [intros [E|[]]; lra|]. constructor; [intros []|constructor]. }
  set (q := (f - f0) / (f1 - f0)).
  assert (Q : 0 < q < 1).
  { unfold q. split; [apply Rdiv_lt_0_compat; lra|]. apply (Rmult_lt_reg_r (f1 - f0)); [lra|].
    unfold Rdiv. rewrite Rmult_assoc, Rinv_l by lra. lra. }
  assert (M : Rmin v0 v1 <= v0 + (v1 - v0) * q <= Rmax v0 v1).
  { unfold Rmin, Rmax. destruct (Rle_dec v0 v1); split; nra. }
  split; [|exact M].
  rewrite (fresh_table spline x (sort [(f0, v0); (f1, v1)])); [|apply table_distinct; assumption|apply sort_nonempty; discriminate].
  unfold sort, fold_right, place. cbn [fst]. destruct (Rle_dec f0 f1); [|lra]. cbn [interpolation].
  rewrite clamp_in by lra. replace ((v1 - v0) * (f - f0) / (f1 - f0)) with ((v1 - v0) * q) by (unfold q; field; lra).
  destruct (Rlt_dec (v0 + (v1 - v0) * q) 0) as [L|L]; [|reflexivity]. exfalso.
  unfold Rmin in M. destruct (Rle_dec v0 v1); lra.
Qed.

(** The order in which the points are published does not count. *)
Theorem C139_order : forall spline x y data data' f, published x data -> published y data' -> distinct data ->
  Permutation data data' -> fresh spline x f = fresh spline y f.
Proof.
  intros spline x y data data' f P P' D E.
  assert (D' : distinct data') by (unfold distinct in *; apply (Permutation_NoDup (Permutation_map fst E) D)).
  assert (T : sort data = sort data').
  { apply strict_perm; [apply sort_strict; exact D|apply sort_strict; exact D'|].
    rewrite !sort_permutation. exact E. }
  unfold fresh, loss_factor. rewrite (table_distinct x data P D), (table_distinct y data' P' D'), T.
  destruct (sort data'); reflexivity.
Qed.

(** Without points, or with a negative value, it is refused: what is answered is
    never negative, and neither is the resistance nor the losses. *)
Theorem C139_never_negative : forall spline m x f l rms, 0 <= permeability x -> 0 <= f -> 0 <= l ->
  (points x = [] -> m (name x) = None -> snd (loss_factor spline m x f) = Throw "InvalidInputException") /\
  (forall v, snd (loss_factor spline m x f) = Ok v -> 0 <= v) /\
  (forall r, snd (series_resistance spline m x f l) = Ok r -> 0 <= r) /\
  (forall p, snd (factor_losses spline m x f l rms) = Ok p -> 0 <= p).
Proof.
  intros spline m x f l rms PM F L.
  assert (A : forall v, snd (loss_factor spline m x f) = Ok v -> 0 <= v).
  { intros v H. unfold loss_factor in H. destruct (m (name x)) as [t|].
    - simpl in H. destruct (Rlt_dec (interpolation spline t f) 0); [discriminate|]. injection H as <-. lra.
    - destruct (table (points x)) as [[|d t]| | |]; try discriminate. cbn [snd] in H.
      revert H. generalize (interpolation spline (d :: t) f). intros w H.
      destruct (Rlt_dec w 0); [discriminate|]. injection H as <-. lra. }
  assert (B : forall r, snd (series_resistance spline m x f l) = Ok r -> 0 <= r).
  { intros r H. unfold series_resistance in H. destruct (loss_factor spline m x f) as [m' o]. cbn [snd] in *.
    destruct o as [v| | |]; try discriminate. cbn [bind] in H. injection H as <-. specialize (A v eq_refl).
    pose proof PI_RGT_0 as PP.
    do 4 (apply Rmult_le_pos; [|lra]). apply Rmult_le_pos; assumption. }
  split; [|split; [exact A|split; [exact B|]]].
  - intros E N. unfold loss_factor. rewrite N, E. reflexivity.
  - intros p H. unfold factor_losses in H. destruct (series_resistance spline m x f l) as [m' o]. cbn [snd] in *.
    destruct o as [v| | |]; try discriminate. cbn [bind] in H. injection H as <-. specialize (B v eq_refl).
    apply Rmult_le_pos; [exact B|apply pow2_ge_0].
Qed.

(** The resistance is tan(delta) times the impedance of the inductance; the losses
    those of the current in it. *)
Theorem C139_losses : forall spline x f l rms v, fresh spline x f = Ok v ->
  snd (series_resistance spline (fun _ => None) x f l) = Ok (v * permeability x * (2 * PI * f * l)) /\
  snd (factor_losses spline (fun _ => None) x f l rms) = Ok (rms ^ 2 * (v * permeability x * (2 * PI * f * l))).
Proof.
  intros spline x f l rms v H. unfold factor_losses, series_resistance. unfold fresh in H.
  destruct (loss_factor spline (fun _ => None) x f) as [m' o]. cbn [snd] in *. rewrite H. cbn [bind].
  split; f_equal; ring.
Qed.

(** Any history of questions: as long as materials of one name publish the same
    points, every answer is the one without history. *)
Definition consistent (xs : list material) : Prop :=
  forall x y, In x xs -> In y xs -> name x = name y -> points x = points y.
Definition ask (spline : list (R * R) -> R -> R) (m : memory) (history : list (material * R)) : memory :=
  fold_left (fun m q => fst (loss_factor spline m (fst q) (snd q))) history m.

Lemma ask_invariant : forall spline history m universe,
  (forall q, In q history -> In (fst q) universe) ->
  (forall n t, m n = Some t -> t <> [] /\ exists y, In y universe /\ name y = n /\ table (points y) = Ok t) ->
  forall n t, ask spline m history n = Some t -> t <> [] /\ exists y, In y universe /\ name y = n /\ table (points y) = Ok t.
Proof.
  intros spline history. induction history as [|[x f] history IH]; intros m universe U M; simpl; [exact M|].
  apply (IH _ universe); [intros q Q; apply U; right; exact Q|].
  intros n t H. unfold loss_factor in H. cbn [fst snd] in H.
  destruct (m (name x)) as [t0|] eqn:E; [apply M; exact H|].
  destruct (table (points x)) as [[|d t']| | |] eqn:T; cbn [fst] in H; try (apply M; exact H).
  unfold remember in H. destruct (String.eqb n (name x)) eqn:Q; [|apply M; exact H].
  injection H as <-. split; [discriminate|]. exists x. apply String.eqb_eq in Q.
  split; [apply (U (x, f)); left; reflexivity|]. split; [symmetry; exact Q|exact T].
Qed.

Theorem C139_history : forall spline history x f,
  consistent (x :: map fst history) ->
  snd (loss_factor spline (ask spline (fun _ => None) history) x f) = fresh spline x f.
Proof.
  intros spline history x f C.
  assert (I := ask_invariant spline history (fun _ => None) (map fst history)
    (fun q Q => in_map fst history q Q) (fun n t H => ltac:(discriminate))).
  unfold loss_factor. destruct (ask spline (fun _ => None) history (name x)) as [t|] eqn:E.
  - destruct (I _ _ E) as (N & y & Y & NY & T).
    rewrite (C y x (or_intror Y) (or_introl eq_refl) NY) in T. cbn [snd]. symmetry. apply fresh_table; assumption.
  - unfold fresh, loss_factor. destruct (table (points x)) as [[|d t]| | |]; reflexivity.
Qed.

(** But a material of the same name and other points gets the answer of the first. *)
Theorem C139_same_name_refuted : forall spline, exists x y f v w,
  name x = name y /\ fresh spline x f = Ok v /\ fresh spline y f = Ok w /\ v <> w /\
  snd (loss_factor spline (ask spline (fun _ => None) [(x, f)]) y f) = Ok v.
Proof.
  intros spline. set (mk := fun v => {| name := "31"; points := [{| at_frequency := Some 1000; value := v |}]; permeability := 1500 |}).
  exists (mk 1), (mk 2), 1000, 1, 2. split; [reflexivity|]. unfold fresh, ask. simpl. unfold loss_factor. simpl.
  destruct (Rlt_dec 1 0); [lra|]. destruct (Rlt_dec 2 0); [lra|]. repeat split; try reflexivity; lra.
Qed.

(** A point without frequency is read without asking. *)
Theorem C139_no_frequency_refuted : forall spline x f p rest, points x = p :: rest -> at_frequency p = None ->
  exists text, fresh spline x f = UB text.
Proof.
  intros spline x f p rest P N. unfold fresh, loss_factor, table. rewrite P. simpl. rewrite N. eexists. reflexivity.
Qed.

(** ** The turns behind an excitation *)

(** The fewest turns with which the current makes the flux density. *)
Theorem C139_turns : forall b i rel area, 0 < b -> 0 < i -> 0 < rel -> 0 < area ->
  exists n, implied_turns b i rel area = Ok n /\ (1 <= n)%nat /\ b <= INR n * i / rel / area /\
    (forall k, b <= INR k * i / rel / area -> (n <= k)%nat).
Proof.
  intros b i rel area B I RP A. unfold implied_turns. destruct (Req_EM_T i 0); [lra|].
  set (x := b / i * rel * area).
  assert (X : 0 < x) by (unfold x; repeat apply Rmult_lt_0_compat; try lra; apply Rinv_0_lt_compat; exact I).
  exists (nceil x). split; [rewrite nround_INR; reflexivity|]. destruct (nceil_bounds x X) as [L U].
  assert (EQ : forall r, b <= r * i / rel / area <-> x <= r).
  { intros r. assert (K : 0 < i / rel / area) by (unfold Rdiv; repeat apply Rmult_lt_0_compat; try lra; apply Rinv_0_lt_compat; assumption).
    assert (E1 : b = x * (i / rel / area)) by (unfold x; field; lra).
    assert (E2 : r * i / rel / area = r * (i / rel / area)) by (field; lra).
    rewrite E2, E1. split; intros H; [apply Rmult_le_reg_r in H; assumption|apply Rmult_le_compat_r; lra]. }
  split; [|split].
  - destruct (nceil x) as [|k]; [simpl in L; lra|lia].
  - apply EQ. exact L.
  - intros k K. apply EQ in K. apply nceil_le; assumption.
Qed.

(** A flux density made by whole turns gives their inductance, and the losses do
    not depend on the volume. *)
Theorem C139_core : forall spline x f n i rms rel area volume v,
  (1 <= n)%nat -> 0 < i -> 0 < rel -> 0 < area -> 0 < volume -> fresh spline x f = Ok v ->
  let total := rms ^ 2 * (v * permeability x * (2 * PI * f * (INR n ^ 2 / rel))) in
  snd (factor_core_losses spline (fun _ => None) x f (INR n * i / rel / area) i rms rel area volume) =
    Ok (total, total / volume).
Proof.
  intros spline x f n i rms rel area volume v N I RP A V H total. pose proof (INR_pos n N) as NP.
  unfold factor_core_losses, implied_inductance, implied_turns. destruct (Req_EM_T i 0); [lra|]. cbn [bind].
  replace (INR n * i / rel / area / i * rel * area) with (INR n) by (field; lra).
  assert (E : nceil (INR n) = n).
  { destruct (nceil_bounds (INR n) ltac:(lra)) as [L U]. apply Nat.le_antisymm; [apply nceil_le; lra|apply INR_le; exact L]. }
  rewrite E, nround_INR.
  destruct (C139_losses spline x f (INR n * INR n / rel) rms v H) as [_ HL].
  destruct (factor_losses spline (fun _ => None) x f (INR n * INR n / rel) rms) as [m' o]. cbn [snd] in *. rewrite HL.
  cbn [bind]. replace (INR n * INR n) with (INR n ^ 2) by ring. reflexivity.
Qed.

Theorem C139_no_current_refuted : forall b rel area, exists text, implied_inductance b 0 rel area = UB text.
Proof. intros. unfold implied_inductance, implied_turns. destruct (Req_EM_T 0 0); [eexists; reflexivity|lra]. Qed.

(** ** C140 *)

(** The series resistance of the other models: of the most turns whose inductance
    is not above the wanted one. *)
Theorem C140_turns : forall l rel, 0 <= l -> 0 < rel ->
  INR (whole_turns l rel) ^ 2 / rel <= l /\
  (forall k, INR k ^ 2 / rel <= l -> (k <= whole_turns l rel)%nat).
Proof.
  intros l rel L RP. assert (P : 0 <= l * rel) by (apply Rmult_le_pos; lra).
  pose proof (sqrt_pos (l * rel)) as SP. pose proof (sqrt_sqrt _ P) as SS.
  destruct (base_Int_part (sqrt (l * rel))) as [A B].
  assert (Z0 : (0 <= Int_part (sqrt (l * rel)))%Z) by (assert (-1 < Int_part (sqrt (l * rel)))%Z; [apply lt_IZR; lra|lia]).
  assert (W : INR (whole_turns l rel) = IZR (Int_part (sqrt (l * rel)))) by (unfold whole_turns; apply INR_to_nat; exact Z0).
  assert (Q : forall y, y / rel <= l <-> y <= l * rel).
  { intros y. split; intros H.
    - apply (Rmult_le_compat_r rel) in H; [|lra]. unfold Rdiv in H. rewrite Rmult_assoc, Rinv_l in H by lra. lra.
    - apply (Rmult_le_reg_r rel); [exact RP|]. unfold Rdiv. rewrite Rmult_assoc, Rinv_l by lra. lra. }
  split.
  - apply Q. rewrite <- SS, W. pose proof (IZR_le _ _ Z0). nra.
  - intros k K. apply Q in K. pose proof (pos_INR k).
    assert (INR k <= sqrt (l * rel)) by (apply Rsqr_incr_0_var; [unfold Rsqr; nra|exact SP]).
    assert (INR k < INR (whole_turns l rel + 1)) by (rewrite plus_INR, W; simpl; lra).
    apply INR_lt in H1. lia.
Qed.

(** With the inductance of whole turns, it is the losses of the model at the flux
    density that one ampere makes in them, and the losses of the current add up. *)
Theorem C140_resistance : forall losses n rel area, 0 < rel -> 0 < area ->
  model_resistance losses (INR n ^ 2 / rel) rel area = losses (sqrt 2 * INR n / (rel * area)) / 1 ^ 2.
Proof.
  intros losses n rel area RP A. unfold model_resistance, virtual_flux_density.
  replace (whole_turns (INR n ^ 2 / rel) rel) with n.
  - do 2 f_equal. field. lra.
  - pose proof (pos_INR n).
    assert (LP : 0 <= INR n ^ 2 / rel) by (unfold Rdiv; apply Rmult_le_pos; [apply pow2_ge_0|left; apply Rinv_0_lt_compat; exact RP]).
    destruct (C140_turns (INR n ^ 2 / rel) rel LP RP) as [T1 T2].
    apply Nat.le_antisymm; [apply T2; lra|]. apply INR_le.
    assert (K : INR (whole_turns (INR n ^ 2 / rel) rel) ^ 2 <= INR n ^ 2).
    { apply (Rmult_le_reg_r (/ rel)); [apply Rinv_0_lt_compat; exact RP|exact T1]. }
    pose proof (pos_INR (whole_turns (INR n ^ 2 / rel) rel)). nra.
Qed.

(** Losses that grow with the flux density give a resistance that grows with the
    inductance, but below the inductance of one turn it is that of no flux. *)
Theorem C140_grows : forall losses l l' rel area, 0 < rel -> 0 < area -> 0 <= l <= l' ->
  (forall b b', 0 <= b <= b' -> 0 <= losses b <= losses b') ->
  0 <= model_resistance losses l rel area <= model_resistance losses l' rel area.
Proof.
  intros losses l l' rel area RP A L G. unfold model_resistance.
  destruct (C140_turns l rel ltac:(lra) RP) as [T1 _]. destruct (C140_turns l' rel ltac:(lra) RP) as [_ T2].
  assert (N : (whole_turns l rel <= whole_turns l' rel)%nat) by (apply T2; lra). apply le_INR in N.
  assert (B : 0 <= virtual_flux_density l rel area <= virtual_flux_density l' rel area).
  { unfold virtual_flux_density. pose proof (pos_INR (whole_turns l rel)). pose proof (sqrt_pos 2).
    assert (0 < / rel) by (apply Rinv_0_lt_compat; exact RP). assert (0 < / area) by (apply Rinv_0_lt_compat; exact A).
    unfold Rdiv. split; [repeat apply Rmult_le_pos; lra|]. repeat apply Rmult_le_compat_r; try lra.
    apply Rmult_le_compat_l; lra. }
  destruct (G _ _ B). lra.
Qed.
Theorem C140_small_inductance_refuted : forall losses l rel area, 0 < rel -> 0 < l -> l < 1 / rel -> losses 0 = 0 ->
  model_resistance losses l rel area = 0.
Proof.
  intros losses l rel area RP L U Z. destruct (C140_turns l rel ltac:(lra) RP) as [T1 _].
  assert (W : whole_turns l rel = O).
  { destruct (whole_turns l rel) as [|k]; [reflexivity|exfalso].
    assert (1 <= INR (Datatypes.S k)) by (apply INR_pos; lia).
    assert (1 / rel <= INR (Datatypes.S k) ^ 2 / rel); [|lra].
    unfold Rdiv. apply Rmult_le_compat_r; [left; apply Rinv_0_lt_compat; exact RP|].
    generalize dependent (INR (Datatypes.S k)). intros r _ G. simpl. nra. }
  unfold model_resistance, virtual_flux_density. rewrite W. simpl INR.
  replace (sqrt 2 * 0 / rel / area) with 0 by (unfold Rdiv; ring). rewrite Z. simpl. field.
Qed.

(** The filters: whatever the models say, losses used for a candidate are not
    negative, and they are those of Steinmetz whenever the material has its data. *)
Theorem C140_filters : forall s p steinmetz proprietary,
  (forall v, filtered s p steinmetz proprietary = Ok (Some v) ->
     0 <= v /\ (if s then steinmetz else proprietary) = Ok v /\ (s = true \/ p = true)) /\
  (s = false -> p = false -> filtered s p steinmetz proprietary = Ok None) /\
  (forall v, s = false -> p = true -> proprietary = Ok v -> v < 0 -> filtered s p steinmetz proprietary = Ok None) /\
  (forall v, s = true -> steinmetz = Ok v -> v < 0 -> filtered s p steinmetz proprietary = Throw "CalculationException") /\
  (forall v, (if s then steinmetz else proprietary) = Ok v -> s = true \/ p = true -> 0 <= v ->
     filtered s p steinmetz proprietary = Ok (Some v)).
Proof.
  intros s p a b. unfold filtered, guarded. repeat split.
  - destruct s.
    + destruct a as [w| | |]; try discriminate. cbn [bind fst snd] in H. destruct (Rlt_dec w 0); [discriminate|]. injection H as <-. lra.
    + destruct p; [|discriminate]. destruct b as [w| | |]; try discriminate. cbn [bind fst snd] in H. destruct (Rle_dec 0 w); [|discriminate].
      destruct (Rlt_dec w 0); [discriminate|]. injection H as <-. lra.
  - destruct s.
    + destruct a as [w| | |]; try discriminate. cbn [bind fst snd] in H. destruct (Rlt_dec w 0); [discriminate|]. injection H as <-. reflexivity.
    + destruct p; [|discriminate]. destruct b as [w| | |]; try discriminate. cbn [bind fst snd] in H. destruct (Rle_dec 0 w); [|discriminate].
      destruct (Rlt_dec w 0); [discriminate|]. injection H as <-. reflexivity.
  - destruct s; [left; reflexivity|]. destruct p; [right; reflexivity|discriminate].
  - intros -> ->. reflexivity.
  - intros v -> -> -> N. cbn [bind fst snd]. destruct (Rle_dec 0 v); [lra|reflexivity].
  - intros v -> -> N. cbn [bind fst snd]. destruct (Rlt_dec v 0); [reflexivity|lra].
  - intros v H D N. destruct s; [|destruct D as [D|D]; [discriminate|subst p]]; rewrite H; cbn [bind fst snd].
    + destruct (Rlt_dec v 0); [lra|reflexivity].
    + destruct (Rle_dec 0 v); [|lra]. cbn [fst]. destruct (Rlt_dec v 0); [lra|reflexivity].
Qed.

(** ** Cases *)

Definition suppression : material :=
  {| name := "43"; points := [{| at_frequency := Some 3000; value := 3 |}; {| at_frequency := Some 1000; value := 1 |}];
     permeability := 800 |}.
Example C139_witness :
  published suppression [(3000, 3); (1000, 1)] /\ distinct [(3000, 3); (1000, 1)] /\
  (exists spline, passes spline) /\ consistent [suppression; suppression] /\
  (forall spline, fresh spline suppression 2000 = Ok 2).
Proof.
  assert (D : distinct [(3000, 3); (1000, 1)]).
  { unfold distinct. simpl. constructor; [intros [E|[]]; lra|]. constructor; [intros []|constructor]. }
  split; [reflexivity|split; [exact D|split; [|split]]].
  - exists (fun t x => match find (fun p => if Req_EM_T (fst p) x then true else false) t with Some p => snd p | None => 0 end).
    intros t x y _ S H. revert S H. induction t as [|[a b] t IH]; intros S H; [contradiction|].
    simpl. destruct (Req_EM_T a x) as [E|E].
    + destruct H as [H|H]; [injection H as _ ->; reflexivity|]. inversion S as [|? ? _ F]; subst. rewrite Forall_forall in F.
      specialize (F (x, y) H). simpl in F. lra.
    + destruct H as [H|H]; [injection H as H _; contradiction|]. inversion S; subst. apply IH; assumption.
  - intros x y [<-|[<-|[]]] [<-|[<-|[]]] _; reflexivity.
  - intros spline. unfold fresh, loss_factor. simpl name. cbn [points suppression]. unfold table, read. cbn [bind at_frequency value].
    unfold sort, fold_right, place. cbn [fst]. destruct (Rle_dec 3000 1000); [lra|].
    unfold rising. destruct (Rlt_dec 1000 3000); [|lra]. cbn [interpolation snd]. rewrite clamp_in by lra.
    replace (1 + (3 - 1) * (2000 - 1000) / (3000 - 1000)) with 2 by field. destruct (Rlt_dec 2 0); [lra|reflexivity].
Qed.

Example C140_witness : model_resistance (fun b => b ^ 2) (INR 3 ^ 2 / 2) 2 1 = 9 / 2.
Proof.
  rewrite C140_resistance by lra. pose proof (sqrt_sqrt 2 ltac:(lra)) as S. simpl INR. simpl pow.
  replace (sqrt 2 * (1 + 1 + 1) / (2 * 1) * (sqrt 2 * (1 + 1 + 1) / (2 * 1) * 1) / (1 * (1 * 1)))
    with (sqrt 2 * sqrt 2 * 9 / 4) by field. rewrite S. field.
Qed.

Print Assumptions C139_history.
Print Assumptions C139_order.
Print Assumptions C140_resistance.
