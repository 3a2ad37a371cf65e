(** Properties C26 (logarithmic mode) and C75 to C82: the core adviser. *)
From Coq Require Import ZArith QArith List String Bool Arith Lia Lqa Permutation Sorted.
From Verif Require Import Base QAux UtilsNumModel UtilsNumProofs AdviserModel AdviserProofs AdviserProgress.
Import ListNotations.
Open Scope Q_scope.

Arguments Verdict {M} valid score after.
Arguments Infeasible {M} why.
Arguments Fatal {M} why.
Arguments Sized {M} after.
Arguments Dropped {M}.
Arguments Abort {M} why.
Arguments area_product {M D} p.
Arguments energy_stored {M D} p.
Arguments size_turns {M D} p.
Arguments saturation {M D} p.
Arguments post_gap_fringing {M D} p.
Arguments cost {M D} p.
Arguments dimensions {M D} p.
Arguments losses {M D} p.
Arguments temperature {M D} p.
Arguments minimum_impedance {M D} p.
Arguments turn_count {M D} p.
Arguments inductance {M D} p.
Arguments early_fringing {M D} p.
Arguments size_gap {M D} p.
Arguments ferrite_materials {M D} p.
Arguments impedance_materials {M D} p.
Arguments powder_materials {M D} p.
Arguments cannot_score_losses {M D} p.
Arguments is_toroidal {M D} p.
Arguments suits_differential_choke {M D} p.
Arguments shape_name {M D} p.
Arguments correct_windings {M D} p.
Arguments add_alternatives {M D} p.
Arguments post_process {M D} p.
Arguments tag_relaxed {M D} p.
Arguments differential_choke {M D} p.
Arguments powder_wanted {M D} p.

(** ** Vocabulary *)

(** Scores never rise along a list. *)
Definition not_above (a b : dbl) : Prop :=
  match a, b with
  | Fin x, Fin y => y <= x
  | NaN, _ | _, NaN => True (* a NaN compares with nothing *)
  | PInf, _ | _, MInf => True
  | _, PInf | MInf, _ => False
  end.
Fixpoint best_first (l : list dbl) : Prop :=
  match l with [] => True | a :: t => Forall (not_above a) t /\ best_first t end.

(** A measurement accepts a candidate and leaves it as [m']. *)
Definition leads {M} (ev : M -> evaluation M) (m m' : M) : Prop :=
  exists score, ev m = Verdict true score m'.
Definition accepts {M} (ev : M -> evaluation M) (m : M) : Prop := exists m', leads ev m m'.

Section Vocabulary.
Context {M D : Type}.
Variable ph : physics M D.

(** Big enough, stores the energy, can be given turns and gap, and does not
    saturate, with margin [mg]. *)
Definition qualifies (mg : Q) (m0 m : M) : Prop :=
  accepts (area_product ph mg) m0 /\
  exists m1 m2, leads (energy_stored ph mg) m0 m1 /\ size_turns ph mg m1 = Sized m2 /\
    leads (saturation ph mg) m2 m.

(** ... and passes what comes after: fringing of the gap ([fr]: the relaxed
    limit), cost, dimensions, losses if judged, temperature if judged. *)
Definition advisable (mg : Q) (fr judge_losses judge_temperature : bool) (m0 m : M) : Prop :=
  exists m3 m4, qualifies mg m0 m3 /\
    accepts (post_gap_fringing ph fr) m3 /\ accepts (cost ph) m3 /\ accepts (dimensions ph) m3 /\
    (if judge_losses then leads (losses ph) m3 m4 else m4 = m3) /\
    (if judge_temperature then leads (temperature ph) m4 m else m = m4).

(** The design made of a candidate at the end. *)
Definition completes (alternatives : bool) (m : M) (d : D) : Prop :=
  exists m1 m2, correct_windings ph m = Ok m1 /\
    (if alternatives then add_alternatives ph m1 else Ok m1) = Ok m2 /\
    post_process ph m2 = Some d.

(** The margin is relaxed only when it is above one and no candidate qualifies
    with it. *)
Definition relaxation_due (o : options) (l : list (M * dbl)) : Prop :=
  1 < margin o /\ forall m0 s0 m, In (m0, s0) l -> ~ qualifies (margin o) m0 m.
Definition margin_used (o : options) (relaxed : bool) : Q := if relaxed then 1 else margin o.
Definition tagged (relaxed : bool) (m : M) : M := if relaxed then tag_relaxed ph m else m.
(** The relaxed fringing limit counts only when no qualifying candidate meets
    the strict one. *)
Definition fringing_due (o : options) (relaxed : bool) (l : list (M * dbl)) : Prop :=
  forall m0 s0 m, In (m0, s0) l -> qualifies (margin_used o relaxed) m0 m ->
    ~ accepts (post_gap_fringing ph false) m.
End Vocabulary.

Definition efficiency_weighted (w : weights) : Prop := 0 < weight_or_zero w EFFICIENCY.

(** ** From the vocabulary to the lemmas *)
Lemma not_above_falling a b : not_above a b <-> falling a b.
Proof.
  unfold falling. destruct a, b; cbn; try (split; [reflexivity|auto]); try (split; [contradiction|discriminate]).
  symmetry. apply Qlt_bool_false.
Qed.
Lemma best_first_sorted l : best_first l <-> StronglySorted falling l.
Proof.
  induction l as [|a t IH]; cbn; split; intros H.
  - constructor.
  - exact I.
  - destruct H as [F H]. constructor; [now apply IH|].
    eapply Forall_impl; [|exact F]. intros b. apply not_above_falling.
  - apply StronglySorted_inv in H as [S F]. split; [|now apply IH].
    eapply Forall_impl; [|exact F]. intros b. apply not_above_falling.
Qed.
Lemma pass_in {M} ev wb (m x : M) : In x (pass M ev wb m) <->
  exists m', leads ev m m' /\ x = if wb then m' else m.
Proof.
  unfold pass, leads. destruct (ev m) as [[|] s m'|e|e]; cbn; split; intros H;
    try contradiction; try (destruct H as (? & (? & K) & _); discriminate).
  - destruct H as [<-|[]]. exists m'. split; [eauto|reflexivity].
  - destruct H as (m1 & (s1 & K) & ->). injection K as -> ->. now left.
Qed.
Lemma pass_true {M} ev (ms : list M) x :
  In x (flat_map (pass M ev true) ms) <-> exists m, In m ms /\ leads ev m x.
Proof.
  rewrite in_flat_map. split; intros (m & Hm & K); exists m; (split; [exact Hm|]).
  - apply pass_in in K as (m' & K & ->). exact K.
  - apply pass_in. eauto.
Qed.
Lemma pass_false {M} ev (ms : list M) x :
  In x (flat_map (pass M ev false) ms) <-> In x ms /\ accepts ev x.
Proof.
  rewrite in_flat_map. split.
  - intros (m & Hm & K). apply pass_in in K as (m' & K & ->). split; [exact Hm|]. now exists m'.
  - intros [Hx (m' & K)]. exists x. split; [exact Hx|]. apply pass_in. eauto.
Qed.
Lemma grow_in {M} sz (ms : list M) x :
  In x (flat_map (grow M sz) ms) <-> exists m, In m ms /\ sz m = Sized x.
Proof.
  rewrite in_flat_map. unfold grow. split; intros (m & Hm & K); exists m; (split; [exact Hm|]).
  - destruct (sz m); cbn in K; try contradiction. destruct K as [<-|[]]. reflexivity.
  - rewrite K. now left.
Qed.

Lemma gaps_in {M} fr (ms : list M) x : In x (gaps M fr ms) -> In x ms /\ exists b, accepts (fr b) x.
Proof.
  unfold gaps. destruct (flat_map (pass M (fr false) false) ms) eqn:G; intros H.
  - apply pass_false in H as [H K]. eauto.
  - rewrite <- G in H. apply pass_false in H as [H K]. eauto.
Qed.

Section Bridge.
Context {M D : Type}.
Variable ph : physics M D.

Lemma flow_saturation_in mg (l : list (M * dbl)) x :
  In x (flow_saturation M D ph mg (map fst l)) <->
  exists m0 s0, In (m0, s0) l /\ qualifies ph mg m0 x.
Proof.
  unfold flow_saturation, qualifies. rewrite pass_true. split.
  - intros (m2 & H & Hs). apply grow_in in H as (m1 & H & Hz). apply pass_true in H as (m0 & H & He).
    apply pass_false in H as [H Ha]. apply in_map_iff in H as ((m0' & s0) & <- & H).
    exists m0', s0. split; [exact H|]. split; [exact Ha|]. eauto.
  - intros (m0 & s0 & H & Ha & m1 & m2 & He & Hz & Hs). exists m2. split; [|exact Hs].
    apply grow_in. exists m1. split; [|exact Hz]. apply pass_true. exists m0. split; [|exact He].
    apply pass_false. split; [|exact Ha]. apply in_map_iff. now exists (m0, s0).
Qed.
Lemma flow_gates_in ms : exists fr, forall x,
  In x (flow_gates M D ph ms) ->
  In x ms /\ accepts (post_gap_fringing ph fr) x /\ accepts (cost ph) x /\ accepts (dimensions ph) x.
Proof.
  unfold flow_gates, gaps.
  destruct (flat_map (pass M (post_gap_fringing ph false) false) ms) as [|y k] eqn:E.
  - exists true. intros x H. apply pass_false in H as [H Hd]. apply pass_false in H as [H Hc].
    apply pass_false in H as [H Hf]. auto.
  - exists false. intros x H. apply pass_false in H as [H Hd]. apply pass_false in H as [H Hc].
    rewrite <- E in H. apply pass_false in H as [H Hf]. auto.
Qed.
Lemma flow_gates_intro ms x (fr : bool) :
  In x ms -> accepts (post_gap_fringing ph fr) x -> accepts (cost ph) x -> accepts (dimensions ph) x ->
  (fr = true -> forall y, In y ms -> ~ accepts (post_gap_fringing ph false) y) ->
  In x (flow_gates M D ph ms).
Proof.
  intros Hx Hf Hc Hd Hr. unfold flow_gates. apply pass_false. split; [|exact Hd].
  apply pass_false. split; [|exact Hc]. unfold gaps. destruct fr.
  - destruct (flat_map (pass M (post_gap_fringing ph false) false) ms) as [|y k] eqn:E.
    + now apply pass_false.
    + exfalso. assert (K : In y (flat_map (pass M (post_gap_fringing ph false) false) ms)) by (rewrite E; now left).
      apply pass_false in K as [K1 K2]. now apply (Hr eq_refl y).
  - assert (K : In x (flat_map (pass M (post_gap_fringing ph false) false) ms)) by now apply pass_false.
    destruct (flat_map (pass M (post_gap_fringing ph false) false) ms); [destruct K|exact K].
Qed.
Lemma flow_end_in (b t : bool) ms x :
  In x (flow_end M D ph b t ms) <->
  exists m3 m4, In m3 ms /\ (if b then leads (losses ph) m3 m4 else m4 = m3) /\
    (if t then leads (temperature ph) m4 x else x = m4).
Proof.
  unfold flow_end.
  assert (A : forall y, In y (if b then flat_map (pass M (losses ph) true) ms else ms) <->
     exists m3, In m3 ms /\ (if b then leads (losses ph) m3 y else y = m3)).
  { intros y. destruct b; [apply pass_true|]. split; [eauto|]. intros (m3 & H & ->). exact H. }
  split.
  - intros H. destruct t.
    + apply pass_true in H as (m4 & H & K). apply A in H as (m3 & H & L). eauto.
    + apply A in H as (m3 & H & L). eauto.
  - intros (m3 & m4 & H & L & K). destruct t.
    + apply pass_true. exists m4. split; [|exact K]. apply A. eauto.
    + subst x. apply A. eauto.
Qed.
End Bridge.

(** ** C75: the best first, and no more than asked for *)
Theorem C75_available_best_first : forall lg M D (ph : physics M D) o w after n (l : list (M * dbl)) rs,
  best_first (map snd l) ->
  power_available lg M D ph o w after n l = Ok rs ->
  best_first (map snd rs) /\ (List.length rs <= n)%nat.
Proof.
  intros lg M D ph o w after n l rs S H. unfold power_available in H. ok.
  apply best_first_sorted in S. apply power_survivors_sorted in E; [|exact S].
  apply post_spec in H as (L & Sub & _). split; [|exact L].
  apply best_first_sorted. eapply sorted_subseq; eauto.
Qed.
Theorem C75_suppression_best_first : forall lg M D (ph : physics M D) o w n (l : list (M * dbl)) rs,
  best_first (map snd l) ->
  suppression_available lg M D ph o w n l = Ok rs ->
  best_first (map snd rs) /\ (List.length rs <= n)%nat.
Proof.
  intros lg M D ph o w n l rs S H. unfold suppression_available in H. ok.
  apply best_first_sorted in S. apply suppression_survivors_sorted in E; [|exact S].
  apply post_spec in H as (L & Sub & _). split; [|exact L].
  apply best_first_sorted. eapply sorted_subseq; eauto.
Qed.
Theorem C75_standard_suppression_best_first : forall lg M D (ph : physics M D) o w n (l : list (M * dbl)) rs,
  best_first (map snd l) ->
  standard_suppression lg M D ph o w n l = Ok rs ->
  best_first (map snd rs) /\ (List.length rs <= n)%nat.
Proof.
  intros lg M D ph o w n l rs S H. unfold standard_suppression in H. ok.
  apply best_first_sorted in S.
  apply size_all_lets in E0 as [_ K0]. apply skippable_filter_spec in E1 as [_ K1].
  apply gate_filter_spec in E2 as [_ K2]. apply gate_filter_spec in E3 as [_ K3].
  apply gate_filter_spec in E4 as [_ K4].
  assert (S5 : sorted a5).
  { eapply losses_or_all_sorted; [exact E5|]. apply K4, K3, K2, K1, K0, fan_out_sorted. exact S. }
  apply turn_count_filter_spec in E6 as [_ K6].
  apply post_spec in H as (L & Sub & _). split; [|exact L].
  apply best_first_sorted. eapply sorted_subseq; [exact Sub|]. now apply K6.
Qed.
Theorem C75_standard_at_most : forall lg M D (ph : physics M D) o w after n (l : list (M * dbl)) rs,
  standard_power lg M D ph o w after n l = Ok rs -> (List.length rs <= n)%nat.
Proof.
  intros lg M D ph o w after n l rs H. unfold standard_power in H. ok. now apply post_spec in H as (L & _).
Qed.

(** ** C76: what any advised design has been through, whatever the weights *)
Theorem C76_power_gates : forall lg M D (ph : physics M D) o w after n (l : list (M * dbl)) rs,
  power_available lg M D ph o w after n l = Ok rs ->
  exists relaxed fringing judge_losses,
    (relaxed = true -> relaxation_due ph o l) /\
    (judge_losses = true -> efficiency_weighted w) /\
    (judge_losses = false -> ~ efficiency_weighted w \/ exists m, cannot_score_losses ph m = true) /\
    forall d s, In (d, s) rs -> exists m0 s0 m, In (m0, s0) l /\
      advisable ph (margin_used o relaxed) fringing judge_losses
        (temperature_filter o && Qlt_bool 0 (weight_or_zero w EFFICIENCY)) m0 m /\
      completes ph false (tagged ph relaxed m) d.
Proof.
  intros lg M D ph o w after n l rs H. unfold power_available in H. ok.
  apply power_survivors_incl in E as (b & ms & B1 & B2 & E). cbn zeta in E.
  set (t := temperature_filter o && _) in *.
  apply post_spec in H as (_ & _ & H).
  destruct (flow_gates_in ph ms) as (fr & G).
  assert (X : forall mg, incl ms (flow_saturation M D ph mg (map fst l)) ->
    forall m, In m (flow_end M D ph b t (flow_gates M D ph ms)) ->
    exists m0 s0, In (m0, s0) l /\ advisable ph mg fr b t m0 m).
  { intros mg I m Hm. apply flow_end_in in Hm as (m3 & m4 & Hm & HL & HT).
    apply G in Hm as (Hm & Hf & Hc & Hd). apply I, flow_saturation_in in Hm as (m0 & s0 & K & Q).
    exists m0, s0. split; [exact K|]. exists m3, m4. auto 8. }
  assert (B2' : b = false -> ~ efficiency_weighted w \/ exists m, cannot_score_losses ph m = true).
  { intros Hb. destruct (B2 Hb) as [K|K]; [left|now right]. unfold efficiency_weighted. lra. }
  destruct E as [(I & J)|(M1 & N & I & J)].
  - exists false, fr, b. repeat split; auto; try discriminate.
    intros d s Hd. destruct (H d s Hd) as (m & Hm & F).
    assert (Hm' : In m (map fst a)) by (apply in_map_iff; now exists (m, s)).
    apply J in Hm'. destruct (X _ I m Hm') as (m0 & s0 & K1 & K2). exists m0, s0, m. auto.
  - exists true, fr, b. repeat split; auto.
    + intros m0 s0 m Hin Q. assert (In m (flow_saturation M D ph (margin o) (map fst l))) as C.
      { apply flow_saturation_in. eauto. } rewrite N in C. destruct C.
    + intros d s Hd. destruct (H d s Hd) as (m & Hm & F).
      assert (Hm' : In m (map fst a)) by (apply in_map_iff; now exists (m, s)).
      apply J in Hm'. apply in_map_iff in Hm' as (m' & <- & Hm').
      destruct (X _ I m' Hm') as (m0 & s0 & K1 & K2). exists m0, s0, m'. auto.
Qed.

Theorem C76_suppression_gates : forall lg M D (ph : physics M D) o w n (l : list (M * dbl)) rs d s,
  suppression_available lg M D ph o w n l = Ok rs -> In (d, s) rs ->
  exists m0 s0 m1 m2 m3 m4, In (m0, s0) l /\
    (differential_choke ph = true -> suits_differential_choke ph m0 = true) /\
    leads (minimum_impedance ph) m0 m1 /\ accepts (turn_count ph) m1 /\
    leads (saturation ph (margin o)) m1 m2 /\ accepts (cost ph) m2 /\ accepts (dimensions ph) m2 /\
    leads (inductance ph) m2 m3 /\ (leads (losses ph) m3 m4 \/ m4 = m3) /\
    completes ph false m4 d.
Proof.
  intros lg M D ph o w n l rs d s H Hd. unfold suppression_available, suppression_survivors in H. ok.
  apply post_spec in H as (_ & _ & H). destruct (H d s Hd) as (m4 & Hm & F). clear H.
  assert (H4 : In m4 (map fst a)) by (apply in_map_iff; now exists (m4, s)). clear Hm.
  apply skippable_filter_spec in E0 as [P0 _]. apply turn_count_filter_spec in E1 as [P1 _].
  apply saturation_filter_spec in E2 as [P2 _]. apply gate_filter_spec in E3 as [P3 _].
  apply gate_filter_spec in E4 as [P4 _]. apply gate_filter_spec in E5 as [P5 _].
  change (Qlt_bool 0 (1 # 1000)) with true in P0. change (Qlt_bool 0 1) with true in P1. cbv iota in P0, P1.
  assert (L : exists m3, In m3 (map fst a5) /\ (leads (losses ph) m3 m4 \/ m4 = m3)).
  { unfold losses_or_all in E. apply bind_ok in E as (k & E6 & E). injection E as <-.
    apply losses_filter_spec in E6 as [P6 _]. destruct k as [|y u]; [exists m4; auto|].
    pose proof (Permutation_in _ P6 H4) as K.
    destruct (scores_losses _ _ _ _); [|exists m4; auto].
    apply pass_true in K as (m3 & K & K'). eauto. }
  destruct L as (m3 & H3 & HL).
  apply (Permutation_in _ P5), pass_true in H3 as (m2 & H2 & Hi).
  apply (Permutation_in _ P4), pass_false in H2 as (H2 & Hdim).
  apply (Permutation_in _ P3), pass_false in H2 as (H2 & Hc).
  apply (Permutation_in _ P2), pass_true in H2 as (m1 & H1 & Hs).
  apply cut_incl in H1. apply (Permutation_in _ P1), pass_false in H1 as (H1 & Ht).
  apply (Permutation_in _ P0), pass_true in H1 as (m0 & H0 & Hz).
  assert (exists s0, In (m0, s0) l /\ (differential_choke ph = true -> suits_differential_choke ph m0 = true)) as (s0 & K0 & K1).
  { apply in_map_iff in H0 as ((m0' & s0) & <- & H0). exists s0.
    destruct (differential_choke ph).
    - apply filter_In in H0 as [A B]. auto.
    - split; [exact H0|discriminate]. }
  exists m0, s0, m1, m2, m3, m4. auto 12.
Qed.

Theorem C76_standard_gates : forall lg M D (ph : physics M D) o w after n (l : list (M * dbl)) rs d s,
  standard_power lg M D ph o w after n l = Ok rs -> In (d, s) rs ->
  exists m0 s0 m1 m2 m3 m4 m5 m6, In (m0, s0) l /\ accepts (area_product ph (margin o)) m0 /\
    ((* a gapped core *)
     (is_toroidal ph m0 = false /\ exists g, size_gap ph m0 = Sized g /\ leads (early_fringing ph) g m1 /\
        accepts (dimensions ph) m1 /\
        (exists f, ferrite_materials ph = Ok f /\ In m2 (f m1)) /\
        size_turns ph (margin o) m2 = Sized m3 /\ exists fr, accepts (post_gap_fringing ph fr) m3)
     \/ (* a toroid *)
     (is_toroidal ph m0 = true /\ powder_wanted ph = true /\
        (exists f, powder_materials ph = Ok f /\ In m1 (f m0)) /\
        leads (energy_stored ph (margin o)) m1 m2 /\ accepts (dimensions ph) m2 /\
        size_turns ph (margin o) m2 = Sized m3)) /\
    leads (inductance ph) m3 m4 /\ leads (saturation ph (margin o)) m4 m5 /\
    (exists m', (leads (losses ph) m5 m' \/ m' = m5) /\ (leads (temperature ph) m' m6 \/ m6 = m')) /\
    completes ph true m6 d.
Proof.
  intros lg M D ph o w after n l rs d s H Hd. unfold standard_power, standard_survivors in H. ok.
  apply post_spec in H as (_ & _ & H). destruct (H d s Hd) as (m6 & Hm & F). clear H Hd.
  apply gate_filter_spec in E0 as [P0 _].
  assert (Tail : forall (k r : list (M * dbl)) c, (if temperature_filter o
      then skippable_filter lg M (temperature ph) EFFICIENCY (weight_or_one w EFFICIENCY) k else Ok k) = Ok r ->
      losses_filter lg M (losses ph) (cannot_score_losses ph) (weight_or_one w EFFICIENCY) (cut (pruning o) (cap n 50) c) = Ok k ->
      forall x, In x (map fst r) -> exists m5, In m5 (map fst c) /\
        exists m', (leads (losses ph) m5 m' \/ m' = m5) /\ (leads (temperature ph) m' x \/ x = m')).
  { intros k r c Ht Hl x Hx.
    assert (A : exists m', In m' (map fst k) /\ (leads (temperature ph) m' x \/ x = m')).
    { destruct (temperature_filter o).
      - apply skippable_filter_spec in Ht as [P _]. apply (Permutation_in _ P) in Hx.
        destruct (Qlt_bool 0 _); [|eauto]. apply pass_true in Hx as (m' & K & K'). eauto.
      - ok. eauto. }
    destruct A as (m' & Hm' & A). apply losses_filter_spec in Hl as [P _].
    apply (Permutation_in _ P) in Hm'. destruct (scores_losses _ _ _ _).
    - apply pass_true in Hm' as (m5 & K & K'). apply cut_incl in K. exists m5. split; [exact K|]. eauto.
    - apply cut_incl in Hm'. exists m'. split; [exact Hm'|]. eauto. }
  assert (Src : forall g k, In k (map fst (cut (pruning o) after (filter g a0))) ->
     exists s0, In (k, s0) l /\ accepts (area_product ph (margin o)) k /\ exists s', g (k, s') = true).
  { intros g k Hk. apply cut_incl in Hk. apply in_map_iff in Hk as ((k' & s') & <- & Hk).
    apply filter_In in Hk as [Hk G]. assert (K : In k' (map fst a0)) by (apply in_map_iff; now exists (k', s')).
    apply (Permutation_in _ P0), pass_false in K as [K A]. apply in_map_iff in K as ((k'' & s0) & <- & K).
    exists s0. cbn [fst]. eauto. }
  apply in_app_or in Hm as [Hm|Hm].
  - assert (H6 : In m6 (map fst a1)) by (apply in_map_iff; now exists (m6, s)). clear Hm.
    unfold ferrite_stage in E1. destruct (cut _ _ _) as [|x0 t0] eqn:C; [ok; destruct H6|].
    rewrite <- C in E1. ok.
    apply size_all_lets in E as [P1 _]. apply gate_filter_spec in E0 as [P2 _]. apply gate_filter_spec in E3 as [P3 _].
    apply size_all_lets in E5 as [P4 _]. apply reject_spec in E6 as [P5 _]. apply gate_filter_spec in E7 as [P6 _].
    apply saturation_filter_spec in E8 as [P7 _].
    destruct (Tail _ _ _ E1 E9 m6 H6) as (m5 & H5 & TL).
    apply (Permutation_in _ P7), pass_true in H5 as (m4 & H4 & Hs).
    apply (Permutation_in _ P6), pass_true in H4 as (m3 & H3 & Hi).
    apply (Permutation_in _ P5) in H3.
    apply gaps_in in H3 as (H3' & fr & Hfr).
    apply (Permutation_in _ P4), grow_in in H3' as (m2 & H2 & Hz).
    rewrite fan_out_fst in H2. apply in_flat_map in H2 as (m1 & H1 & Hf).
    apply (Permutation_in _ P3), pass_false in H1 as (H1 & Hdim).
    apply (Permutation_in _ P2), pass_true in H1 as (g & H1 & He).
    apply (Permutation_in _ P1), grow_in in H1 as (m0 & H0 & Hg).
    apply Src in H0 as (s0 & K & A & s' & T). apply negb_true_iff in T. cbn [fst] in T.
    exists m0, s0, m1, m2, m3, m4, m5, m6. repeat split; auto.
    left. split; [exact T|]. exists g. repeat split; auto; eauto.
  - assert (H6 : In m6 (map fst a2)) by (apply in_map_iff; now exists (m6, s)). clear Hm.
    destruct (powder_wanted ph) eqn:W; [|ok; destruct H6].
    unfold powder_stage in E2.
    destruct (cut (pruning o) after (filter (fun x => is_toroidal ph (fst x)) a0)) as [|x0 t0] eqn:C; [ok; destruct H6|].
    rewrite <- C in E2. ok.
    apply gate_filter_spec in E0 as [P2 _]. apply gate_filter_spec in E3 as [P3 _].
    apply size_all_lets in E4 as [P4 _]. apply gate_filter_spec in E5 as [P6 _].
    apply saturation_filter_spec in E6 as [P7 _].
    destruct (Tail _ _ _ E2 E7 m6 H6) as (m5 & H5 & TL).
    apply (Permutation_in _ P7), pass_true in H5 as (m4 & H4 & Hs).
    apply (Permutation_in _ P6), pass_true in H4 as (m3 & H3 & Hi).
    apply (Permutation_in _ P4), grow_in in H3 as (m2 & H2 & Hz). apply cut_incl in H2.
    apply (Permutation_in _ P3), pass_false in H2 as (H2 & Hdim).
    apply (Permutation_in _ P2), pass_true in H2 as (m1 & H1 & He).
    rewrite fan_out_fst in H1. apply in_flat_map in H1 as (m0 & H0 & Hf).
    apply Src in H0 as (s0 & K & A & s' & T). cbn [fst] in T.
    exists m0, s0, m1, m2, m3, m4, m5, m6. repeat split; auto.
    right. repeat split; auto. eauto.
Qed.

(** ** C77: weights and the order of the catalog reorder the advice, nothing more *)
Theorem C77_weights_only_reorder_partial :
  forall lg M D (ph : physics M D) o w w' after after' n n' (l l' : list (M * dbl)) rs rs' c,
  pruning o = false -> unique_shapes o = false ->
  (forall m, cannot_score_losses ph m = c) ->
  (efficiency_weighted w <-> efficiency_weighted w') ->
  Permutation (map fst l) (map fst l') ->
  (List.length l <= n)%nat -> (List.length l' <= n')%nat ->
  power_available lg M D ph o w after n l = Ok rs ->
  power_available lg M D ph o w' after' n' l' = Ok rs' ->
  Permutation (map fst rs) (map fst rs').
Proof.
  intros lg M D ph o w w' after after' n n' l l' rs rs' c Pr Un C Hw P L L' H H'.
  unfold power_available in H, H'. rewrite Un in *.
  apply bind_ok in H as (a & E & H). apply bind_ok in H' as (a' & E0 & H').
  pose proof (power_survivors_flow _ _ _ _ _ _ _ _ _ _ _ Pr C E) as F.
  pose proof (power_survivors_flow _ _ _ _ _ _ _ _ _ _ _ Pr C E0) as F'.
  assert (Q : Qlt_bool 0 (weight_or_zero w' EFFICIENCY) = Qlt_bool 0 (weight_or_zero w EFFICIENCY)).
  { unfold efficiency_weighted in Hw. destruct (Qlt_bool 0 (weight_or_zero w EFFICIENCY)) eqn:A.
    - apply Qlt_bool_iff in A. apply Qlt_bool_iff. now apply Hw.
    - apply Qlt_bool_false in A. apply Qlt_bool_false.
      destruct (Qlt_le_dec 0 (weight_or_zero w' EFFICIENCY)) as [B|B]; [|exact B]. apply Hw in B. lra. }
  rewrite Q in F'.
  assert (Lf : forall m n (k : list (M * dbl)) (r : list (M * dbl)), (List.length k <= n)%nat ->
     Permutation (map fst r) (flow_power M D ph m (Qlt_bool 0 (weight_or_zero w EFFICIENCY) && negb c)
        (temperature_filter o && Qlt_bool 0 (weight_or_zero w EFFICIENCY)) (map fst k)) ->
     (List.length r <= n)%nat).
  { intros m k0 k r Hk K. apply Permutation_length in K. rewrite map_length in K.
    pose proof (flow_power_length M D ph m (Qlt_bool 0 (weight_or_zero w EFFICIENCY) && negb c)
        (temperature_filter o && Qlt_bool 0 (weight_or_zero w EFFICIENCY)) (map fst k)) as Z.
    rewrite map_length in Z. lia. }
  rewrite (post_all _ _ _ _ _ _ _ H) by (right; eapply Lf; eauto).
  rewrite (post_all _ _ _ _ _ _ _ H') by (right; eapply Lf; eauto).
  apply flat_map_perm. rewrite F, F'. now apply flow_power_perm.
Qed.

(** ** C78: fewer designs than asked for means there are no more *)
Theorem C78_nothing_is_lost_partial :
  forall lg M D (ph : physics M D) o w after n (l : list (M * dbl)) rs c,
  pruning o = false -> unique_shapes o = false -> (forall m, cannot_score_losses ph m = c) ->
  power_available lg M D ph o w after n l = Ok rs -> (List.length rs < n)%nat ->
  forall (relaxed fr : bool), (relaxed = true -> relaxation_due ph o l) ->
  (fr = true -> fringing_due ph o relaxed l) ->
  forall m0 s0 m d, In (m0, s0) l ->
  advisable ph (margin_used o relaxed) fr
    (Qlt_bool 0 (weight_or_zero w EFFICIENCY) && negb c)
    (temperature_filter o && Qlt_bool 0 (weight_or_zero w EFFICIENCY)) m0 m ->
  completes ph false (tagged ph relaxed m) d ->
  In d (map fst rs).
Proof.
  intros lg M D ph o w after n l rs c Pr Un C H L relaxed fr R G m0 s0 m d Hin A F.
  unfold power_available in H. rewrite Un in H. ok.
  pose proof (power_survivors_flow _ _ _ _ _ _ _ _ _ _ _ Pr C E) as P.
  set (b := _ && negb c) in *. set (t := temperature_filter o && _) in *.
  rewrite (post_all _ _ _ _ _ _ _ H) by (left; exact L).
  apply in_flat_map. exists (tagged ph relaxed m). split; [|apply designs_in; exact F].
  apply (Permutation_in _ (Permutation_sym P)). clear P.
  destruct A as (m3 & m4 & Qm & Hf & Hc & Hd & HL & HT).
  assert (K : In m3 (flow_saturation M D ph (margin_used o relaxed) (map fst l))).
  { apply flow_saturation_in. eauto. }
  assert (Kg : In m (flow_end M D ph b t (flow_gates M D ph (flow_saturation M D ph (margin_used o relaxed) (map fst l))))).
  { apply flow_end_in. exists m3, m4. repeat split; auto.
    apply (flow_gates_intro ph _ m3 fr K Hf Hc Hd). intros -> y Hy.
    apply flow_saturation_in in Hy as (y0 & t0 & Hy & Qy). now apply (G eq_refl y0 t0). }
  unfold flow_power. destruct relaxed; cbn [margin_used tagged] in *.
  - destruct (R eq_refl) as [M1 N].
    destruct (flow_saturation M D ph (margin o) (map fst l)) as [|z v] eqn:Z.
    + apply Qlt_bool_iff in M1. rewrite M1. now apply in_map.
    + exfalso. assert (Hz : In z (flow_saturation M D ph (margin o) (map fst l))) by (rewrite Z; now left).
      apply flow_saturation_in in Hz as (y0 & t0 & Hy & Qy). now apply (N y0 t0 z).
  - destruct (flow_saturation M D ph (margin o) (map fst l)) as [|z v]; [destruct K|exact Kg].
Qed.

(** ** C79: batches *)
Lemma batches_zero f : forall cs, cs <> [] -> batches f 0 cs = OutOfFuel.
Proof.
  induction f as [|f IH]; intros [|y u] N; cbn [batches]; try congruence.
  cbn [skipn]. rewrite IH by discriminate. reflexivity.
Qed.
Lemma batches_spec size f : forall cs bs, batches f size cs = Ok bs ->
  List.concat bs = cs /\ (forall b, In b bs -> (List.length b <= size)%nat /\ b <> []).
Proof.
  destruct size as [|k].
  - intros cs bs H. destruct cs as [|y u].
    + destruct f; cbn in H; ok; (split; [reflexivity|intros ? []]).
    + rewrite batches_zero in H by discriminate. discriminate.
  - induction f as [|f IH]; intros [|y u] bs H; cbn [batches] in H; ok; try discriminate;
      try (split; [reflexivity|intros ? []]; fail).
    destruct (IH _ _ E) as [A B]. split.
    + cbn [List.concat]. rewrite A. apply (firstn_skipn (S k) (y :: u)).
    + intros b [<-|Hb]; [|now apply B]. split; [apply (firstn_le_length (S k) (y :: u))|discriminate].
Qed.
Lemma batches_total size f : forall cs, (0 < size)%nat -> (List.length cs <= f)%nat ->
  exists bs, batches f size cs = Ok bs.
Proof.
  induction f as [|f IH]; intros [|y u] S L; cbn [batches]; try (eexists; reflexivity); try (cbn in L; lia).
  destruct (IH (skipn size (y :: u)) S) as (bs & ->).
  { rewrite skipn_length. cbn [List.length] in *. lia. }
  cbn [bind]. eauto.
Qed.

Theorem C79_batches_best_first :
  forall lg M D (ph : physics M D) rules fuel power o w cores n size rs,
  advise_in_batches lg M D ph rules fuel power o w cores n size = Ok rs ->
  best_first (map snd rs) /\ (List.length rs <= n)%nat /\
  (* the cores are split in order, and each design is one advised for its batch alone *)
  exists bs, List.concat bs = cores /\ (forall b, In b bs -> (List.length b <= size)%nat /\ b <> []) /\
    forall d s, In (d, s) rs -> exists b r, In b bs /\
      advise_cores lg M D ph rules power o w b n = Ok r /\ In (d, s) (fst r).
Proof.
  intros lg M D ph rules fuel power o w cores n size rs H. unfold advise_in_batches in H. ok.
  apply sort_ok in E1 as [P S]. split; [|split].
  - apply best_first_sorted. eapply sorted_subseq; [|exact S]. apply subseq_map, subseq_firstn.
  - apply firstn_le_length.
  - exists a. apply batches_spec in E as [A B]. split; [exact A|]. split; [exact B|].
    intros d s Hd. assert (K : In (d, s) a0).
    { apply (Permutation_in _ (Permutation_sym P)). eapply subseq_in; [apply subseq_firstn|exact Hd]. }
    clear -E0 K. revert a0 E0 K. induction a as [|b t IH]; intros r H K; cbn [advise_each] in H; ok; [destruct K|].
    apply in_app_or in K as [K|K].
    + exists b, a. repeat split; auto. now left.
    + destruct (IH _ E0 K) as (b' & r' & A & B & C). exists b', r'. repeat split; auto. now right.
Qed.
(** The split itself ends, unless the batch size is zero. *)
Theorem C79_batches_end : forall size cores, (0 < size)%nat ->
  exists bs, batches (List.length cores) size cores = Ok bs.
Proof. intros. now apply batches_total. Qed.
Theorem C79_batch_of_none_never_ends_refuted :
  forall lg M D (ph : physics M D) rules power o w cores n, cores <> [] ->
  forall fuel, advise_in_batches lg M D ph rules fuel power o w cores n 0 = OutOfFuel.
Proof. intros. unfold advise_in_batches. now rewrite batches_zero. Qed.

(** ** C80: an infeasible candidate does not spoil the call *)
Definition finite_scores {M} (l : list (M * dbl)) : Prop := forall m s, In (m, s) l -> exists q, s = Fin q.
Lemma finite_fin {M} (l : list (M * dbl)) : finite_scores l -> fin l.
Proof. intros H. apply Forall_forall. intros [m s] K. eapply H; eauto. Qed.

(** A measurement of any candidate: a verdict with a positive score, or an
    OpenMagneticsException. *)
Definition behaves {M} (ev : M -> evaluation M) : Prop := forall m,
  (exists score after, ev m = Verdict true (Some score) after /\ 0 < score) \/
  (exists score after, ev m = Verdict false score after) \/
  (exists why, ev m = Infeasible why).
Definition behaving {M D} (ph : physics M D) : Prop :=
  (forall mg, behaves (area_product ph mg) /\ behaves (energy_stored ph mg) /\ behaves (saturation ph mg)) /\
  behaves (cost ph) /\ behaves (dimensions ph) /\ behaves (losses ph) /\ behaves (temperature ph) /\
  behaves (minimum_impedance ph) /\ behaves (turn_count ph) /\ behaves (inductance ph) /\
  behaves (early_fringing ph) /\
  (* these are not caught, so they must not fail at all *)
  (forall b m, exists valid score after, post_gap_fringing ph b m = Verdict valid score after) /\
  (forall mg m, (exists m', size_turns ph mg m = Sized m') \/ size_turns ph mg m = Dropped) /\
  (forall m, (exists m', size_gap ph m = Sized m') \/ size_gap ph m = Dropped) /\
  (exists f, ferrite_materials ph = Ok f) /\ (exists f, powder_materials ph = Ok f) /\
  (exists f, impedance_materials ph = Ok f) /\
  (forall m, exists m', correct_windings ph m = Ok m') /\
  (forall m, exists m', add_alternatives ph m = Ok m').
Lemma behaves_sound {M} (ev : M -> evaluation M) : behaves ev -> sound_measure M ev.
Proof.
  intros H m. destruct (H m) as [(s & a & -> & P)|[(s & a & ->)|(e & ->)]]; [exact P|exact I|exact I].
Qed.
Lemma behaving_sound {M D} (ph : physics M D) : behaving ph -> sound_physics M D ph.
Proof.
  intros (A & C & Dm & L & T & Z & Tc & I & Ef & Fr & St & Sg & F & P & Ch & Cw & Aa).
  constructor; try (intros mg; apply behaves_sound; apply (A mg)); try (apply behaves_sound; assumption); auto.
  - intros mg m e K. destruct (St mg m) as [(m' & Q)|Q]; congruence.
  - intros m e K. destruct (Sg m) as [(m' & Q)|Q]; congruence.
Qed.

Theorem C80_always_an_answer_partial : forall lg M D (ph : physics M D) o w after n (l : list (M * dbl)),
  increasing lg -> behaving ph -> finite_scores l ->
  (exists rs, power_available lg M D ph o w after n l = Ok rs) /\
  (exists rs, suppression_available lg M D ph o w n l = Ok rs) /\
  (exists rs, standard_power lg M D ph o w after n l = Ok rs) /\
  (exists rs, standard_suppression lg M D ph o w n l = Ok rs).
Proof.
  intros lg M D ph o w after n l Lg B F. apply behaving_sound in B. apply finite_fin in F.
  repeat split.
  - now apply power_available_ok.
  - now apply suppression_available_ok.
  - now apply standard_power_ok.
  - now apply standard_suppression_ok.
Qed.

(** ** C81: advising leaves the caller's cores alone *)
Theorem C81_cores_untouched_partial : forall lg M D (ph : physics M D) rules power o w cores n rs cores',
  advise_cores lg M D ph rules power o w cores n = Ok (rs, cores') ->
  include_stacks o = false \/ power = false \/
    (forall c, In c cores -> stackable M rules c = false) ->
  cores' = cores.
Proof.
  intros lg M D ph rules power o w cores n rs cores' H K. unfold advise_cores in H.
  destruct power; ok.
  - destruct (n <=? List.length a)%nat; ok; [congruence|].
    destruct K as [K|[K|K]]; try discriminate.
    + rewrite K. reflexivity.
    + destruct (include_stacks o); [|reflexivity]. clear -K.
      induction cores as [|c t IH]; cbn [stacks_of]; [reflexivity|].
      rewrite K by now left. cbn [snd]. f_equal. apply IH. intros; apply K; now right.
  - congruence.
Qed.

(** ** C82: unique shapes *)
Theorem C82_unique_shapes : forall lg M D (ph : physics M D) o w after n (l : list (M * dbl)) rs,
  unique_shapes o = true ->
  power_available lg M D ph o w after n l = Ok rs \/
  suppression_available lg M D ph o w n l = Ok rs \/
  standard_power lg M D ph o w after n l = Ok rs \/
  standard_suppression lg M D ph o w n l = Ok rs ->
  (* the designs are made of candidates whose shapes are all different *)
  exists ms alternatives, Forall2 (fun m x => completes ph alternatives m (fst x)) ms rs /\
    NoDup (map (shape_name ph) ms).
Proof.
  intros lg M D ph o w after n l rs U H.
  assert (K : exists k alt, post_process_and_cut M D ph true alt n [] k = Ok rs).
  { destruct H as [H|[H|[H|H]]];
      [unfold power_available in H|unfold suppression_available in H
      |unfold standard_power in H|unfold standard_suppression in H];
      rewrite U in H; ok; eauto. }
  destruct K as (k & alt & K). apply post_unique in K as (ms & A & B & _).
  exists ms, alt. split; [|exact B]. clear -A. induction A as [|x y l l' [P _] A IH]; constructor; auto.
Qed.

(** ** C26, logarithmic mode *)
Theorem C26_log_normalised_scores : forall lg (scores : list Q) w inv,
  increasing lg -> (forall v, In v scores -> 0 < v) -> 0 <= w ->
  exists ns, normalise lg (map Some scores) w inv true = Ok (map Fin ns) /\
    List.length ns = List.length scores /\
    (forall i, (i < List.length scores)%nat -> 0 <= nth i ns 0 <= w) /\
    (forall i j, (i < List.length scores)%nat -> (j < List.length scores)%nat ->
       nth i scores 0 <= nth j scores 0 ->
       if inv then nth j ns 0 <= nth i ns 0 else nth i ns 0 <= nth j ns 0) /\
    (forall i j, (i < List.length scores)%nat -> (j < List.length scores)%nat ->
       0 < w -> nth i scores 0 < nth j scores 0 ->
       if inv then nth j ns 0 < nth i ns 0 else nth i ns 0 < nth j ns 0) /\
    (forall i, (i < List.length scores)%nat ->
       (forall k, (k < List.length scores)%nat ->
          if inv then nth i scores 0 <= nth k scores 0 else nth k scores 0 <= nth i scores 0) ->
       nth i ns 0 == w) /\
    (forall i j, (i < List.length scores)%nat -> (j < List.length scores)%nat ->
       ~ nth i scores 0 == nth j scores 0 ->
       (forall k, (k < List.length scores)%nat ->
          if inv then nth k scores 0 <= nth i scores 0 else nth i scores 0 <= nth k scores 0) ->
       nth i ns 0 == 0).
Proof.
  intros lg scores w inv Lg P Hw. destruct scores as [|x l].
  { exists []. split; [reflexivity|]. split; [reflexivity|]. repeat split; intros; simpl in *; lia. }
  rewrite (normalise_log lg x l w inv Lg P).
  exists (map (log_one lg (Qmaxl x l) (Qminl x l) w inv) (x :: l)).
  split; [reflexivity|]. split; [apply map_length|].
  destruct Lg as [G1 G2].
  set (v := x :: l) in *. set (mx := Qmaxl x l). set (mn := Qminl x l).
  destruct (Qmaxl_spec l x) as [Mi Mb]. destruct (Qminl_spec l x) as [mi mb].
  fold v mx in Mi, Mb. fold v mn in mi, mb.
  set (f := log_one lg mx mn w inv).
  assert (N : forall i, (i < List.length v)%nat -> nth i (map f v) 0 = f (nth i v 0)).
  { intros i Hi. rewrite (nth_indep _ 0 (f 0)) by (rewrite map_length; exact Hi). apply map_nth. }
  assert (B : forall i, (i < List.length v)%nat -> mn <= nth i v 0 /\ nth i v 0 <= mx /\ 0 < nth i v 0).
  { intros i Hi. repeat split; [apply mb|apply Mb|apply P]; apply nth_In; assumption. }
  assert (Pmn : 0 < mn) by now apply P.
  assert (Hmm : mn <= mx) by now apply Mb.
  assert (Gle : forall a b, 0 < a -> a <= b -> lg a <= lg b).
  { intros a b Ha Hab. destruct (Qlt_le_dec a b) as [K|K].
    - pose proof (G1 a b Ha K). lra.
    - assert (a == b) as E by lra. pose proof (G2 a b Ha E). lra. }
  assert (Gmn : lg mn <= lg mx) by now apply Gle.
  assert (Glt : ~ mx == mn -> lg mn < lg mx) by (intros; apply G1; lra).
  assert (Fe : mx == mn -> forall a, f a = w).
  { intros E a. unfold f, log_one. apply Qeq_bool_iff in E. now rewrite E. }
  assert (Fn : ~ mx == mn -> forall a, f a = normalize_one (lg mx) (lg mn) w inv (lg a)).
  { intros E a. unfold f, log_one. destruct (Qeq_bool mx mn) eqn:K; [|reflexivity].
    apply Qeq_bool_iff in K. contradiction. }
  assert (No : ~ mx == mn -> Qeq_bool (lg mx) (lg mn) = false).
  { intros E. apply Bool.not_true_is_false. intros K. apply Qeq_bool_iff in K. specialize (Glt E). lra. }
  (* the ends *)
  assert (Eq : ~ mx == mn -> forall a b, lg a == lg b -> f a == f b).
  { intros E a b H. rewrite !(Fn E). unfold normalize_one. rewrite (No E). cbn [negb].
    destruct inv; rewrite H; reflexivity. }
  assert (Ends : ~ mx == mn -> (if inv then f mn == w /\ f mx == 0 else f mx == w /\ f mn == 0)).
  { intros E. rewrite !(Fn E). destruct (normalize_one_ends (lg mx) (lg mn) w) as (E1 & E2 & E3 & E4); [specialize (Glt E); lra|].
    destruct inv; auto. }
  split; [|split; [|split; [|split]]].
  - intros i Hi. rewrite N by assumption. destruct (B i Hi) as (B1 & B2 & B3).
    destruct (Qeq_dec mx mn) as [E|E]; [rewrite (Fe E); lra|]. rewrite (Fn E).
    apply normalize_one_range; auto.
  - intros i j Hi Hj H. rewrite !N by assumption. destruct (B i Hi) as (B1 & B2 & B3).
    destruct (Qeq_dec mx mn) as [E|E]; [rewrite !(Fe E); destruct inv; lra|]. rewrite !(Fn E).
    destruct (normalize_one_mono (lg mx) (lg mn) w (lg (nth i v 0)) (lg (nth j v 0)) Hw (Glt E) (Gle _ _ B3 H)) as [P1 P2].
    destruct inv; assumption.
  - intros i j Hi Hj Hw' H. rewrite !N by assumption. destruct (B i Hi) as (B1 & B2 & B3). destruct (B j Hj) as (B4 & B5 & B6).
    assert (E : ~ mx == mn) by lra. rewrite !(Fn E).
    destruct (normalize_one_strict (lg mx) (lg mn) w (lg (nth i v 0)) (lg (nth j v 0)) Hw' (Glt E) (G1 _ _ B3 H)) as [P1 P2].
    destruct inv; assumption.
  - intros i Hi H. rewrite N by assumption. destruct (B i Hi) as (B1 & B2 & B3).
    destruct (Qeq_dec mx mn) as [E|E]; [rewrite (Fe E); reflexivity|].
    specialize (Ends E). destruct (In_nth v mx 0 Mi) as (kM & HkM & EkM). destruct (In_nth v mn 0 mi) as (km & Hkm & Ekm).
    destruct inv; destruct Ends as [En _].
    + specialize (H km Hkm). cbv beta iota in H. rewrite Ekm in H. refine (Qeq_trans _ _ _ _ En). apply (Eq E). apply G2; lra.
    + specialize (H kM HkM). cbv beta iota in H. rewrite EkM in H. refine (Qeq_trans _ _ _ _ En). apply (Eq E). apply G2; lra.
  - intros i j Hi Hj Hne H. rewrite N by assumption. destruct (B i Hi) as (B1 & B2 & B3). destruct (B j Hj) as (B4 & B5 & B6).
    assert (E : ~ mx == mn) by (intros K; apply Hne; lra).
    specialize (Ends E). destruct (In_nth v mx 0 Mi) as (kM & HkM & EkM). destruct (In_nth v mn 0 mi) as (km & Hkm & Ekm).
    destruct inv; destruct Ends as [_ En].
    + specialize (H kM HkM). cbv beta iota in H. rewrite EkM in H. refine (Qeq_trans _ _ _ _ En). apply (Eq E). apply G2; lra.
    + specialize (H km Hkm). cbv beta iota in H. rewrite Ekm in H. refine (Qeq_trans _ _ _ _ En). apply (Eq E). apply G2; lra.
Qed.

(** A score that is not a number is never ranked: the call throws. *)
Theorem C26_log_nan_rejected : forall lg (scores : list nanQ) w inv log,
  In None scores -> exists e, normalise lg scores w inv log = Throw e.
Proof.
  intros lg scores w inv log H. destruct scores as [|x l]; [contradiction|].
  unfold normalise. generalize (x :: l) H. clear H. intros s H.
  induction s as [|[v|] s IH]; [contradiction| |eexists; reflexivity].
  destruct H as [H|H]; [discriminate|]. destruct (IH H) as (e & E).
  exists e. cbn [normalise_loop]. rewrite E. reflexivity.
Qed.
Example C26_log_nan_witness : normalise (fun x => x) [Some 1; None; Some 2] 1 true true
  = Throw "scoring cannot be nan in normalize_scoring".
Proof. reflexivity. Qed.

(** Zero scores are taken as 1e-10, the largest and the smaller ones are not: a
    score below 1e-10 beats zero by more than the full weight, and equal zeros
    get nothing instead of the weight.  Identity stands for the logarithm where
    only its order matters. *)
Definition fin_value (d : dbl) : Q := match d with Fin q => q | _ => 0 end.
Theorem C26_log_zero_refuted :
  (forall lg, increasing lg -> exists ns,
     normalise lg (map Some [0; 1 # 1000000000000; 1 # 100000000]) 1 true true = Ok (map Fin ns) /\
     (* cheaper should never score less *)
     nth 0 ns 0 < nth 1 ns 0 /\ 1 < nth 1 ns 0) /\
  (forall lg, exists ns, normalise lg (map Some [0; 0]) 1 false true = Ok (map Fin ns) /\
     nth 0 ns 0 == 0).
Proof.
  split.
  - intros lg [G1 G2].
    assert (A : lg (1 # 1000000000000) < lg tiny) by (apply G1; reflexivity).
    assert (B : lg tiny < lg (1 # 100000000)) by (apply G1; reflexivity).
    assert (N : Qeq_bool (lg (1 # 100000000) + - lg tiny) 0 = false).
    { apply Bool.not_true_is_false. intros K. apply Qeq_bool_iff in K. lra. }
    change (normalise lg (map Some [0; 1 # 1000000000000; 1 # 100000000]) 1 true true) with
      (normalise_loop lg (Some (1 # 100000000)) (Some tiny) 1 true true
         (map Some [0; 1 # 1000000000000; 1 # 100000000])).
    set (g := fun v => 1 * (1 + - ((lg (if Qeq_bool v 0 then tiny else v) + - lg tiny) / (lg (1 # 100000000) + - lg tiny)))).
    exists (map g [0; 1 # 1000000000000; 1 # 100000000]).
    split.
    { apply normalise_loop_map. intros v [<-|[<-|[<-|[]]]].
      - change (normalised lg (Some (1 # 100000000)) (Some tiny) 1 true true 0) with
          (dscale 1 (dsub (Fin 1) (ddiv (Fin (lg tiny + - lg tiny)) (Fin (lg (1 # 100000000) + - lg tiny))))).
        unfold ddiv. rewrite N. reflexivity.
      - change (normalised lg (Some (1 # 100000000)) (Some tiny) 1 true true (1 # 1000000000000)) with
          (dscale 1 (dsub (Fin 1) (ddiv (Fin (lg (1 # 1000000000000) + - lg tiny)) (Fin (lg (1 # 100000000) + - lg tiny))))).
        unfold ddiv. rewrite N. reflexivity.
      - change (normalised lg (Some (1 # 100000000)) (Some tiny) 1 true true (1 # 100000000)) with
          (dscale 1 (dsub (Fin 1) (ddiv (Fin (lg (1 # 100000000) + - lg tiny)) (Fin (lg (1 # 100000000) + - lg tiny))))).
        unfold ddiv. rewrite N. reflexivity. }
    cbn [map nth]. unfold g. change (Qeq_bool 0 0) with true. change (Qeq_bool (1 # 1000000000000) 0) with false. cbv iota.
    set (u := lg (1 # 1000000000000)) in *. set (t := lg tiny) in *. set (z := lg (1 # 100000000)) in *.
    assert (I : 0 < / (z + - t)) by (apply Qinv_lt_0_compat; lra).
    assert (J : (u + - t) / (z + - t) < 0).
    { unfold Qdiv. assert (0 < (t - u) * / (z + - t)) by (apply Qmult_lt_0_compat; lra). lra. }
    assert (J0 : (t + - t) / (z + - t) == 0).
    { unfold Qdiv. setoid_replace (t + - t) with 0 by ring. ring. }
    split; lra.
  - intros lg. eexists [_; _]. split; [reflexivity|]. cbn [nth]. reflexivity.
Qed.

(** ** Concrete runs *)

(** Candidates are numbers; candidate [m] costs [m + 1] and is [m + 1] high. *)
Definition yes (m : nat) : evaluation nat := Verdict true (Some 1) m.
Definition rising (m : nat) : evaluation nat := Verdict true (Some (inject_Z (Z.of_nat m) + 1)) m.
Definition demo : physics nat nat := {|
  area_product := fun _ => rising; energy_stored := fun _ => yes;
  size_turns := fun _ m => Sized m; saturation := fun _ => yes;
  post_gap_fringing := fun _ => yes; cost := rising; dimensions := rising;
  losses := rising; temperature := yes; minimum_impedance := rising; turn_count := rising;
  inductance := yes; early_fringing := yes; size_gap := fun m => Sized m;
  ferrite_materials := Ok (fun m => [m; (m + 100)%nat]);
  impedance_materials := Ok (fun m => [m]); powder_materials := Ok (fun m => [m]);
  cannot_score_losses := fun _ => false; is_toroidal := fun m => (m =? 0)%nat;
  suits_differential_choke := fun _ => true; shape_name := fun m => if (m <? 2)%nat then "E" else "ETD";
  correct_windings := fun m => Ok m; add_alternatives := fun m => Ok m;
  post_process := fun m => Some m; tag_relaxed := fun m => (m + 1000)%nat;
  differential_choke := false; powder_wanted := true |}.
Definition plain_options : options := {|
  pruning := false; margin := 6 # 5; temperature_filter := true; include_stacks := false;
  unique_shapes := false; maximum_after_filtering := 10 |}.
Definition even (q : Q) : weights := fun _ => Some q.
Definition some_cores : list (nat * dbl) := [(2%nat, Fin 0); (0%nat, Fin 0); (1%nat, Fin 0)].
Lemma id_increasing : increasing (fun x => x).
Proof. split; auto. Qed.

Definition run_power := power_available (fun x => x) nat nat demo.
Definition names {A} (r : outcome (list (nat * A))) : outcome (list nat) :=
  bind r (fun l => Ok (map fst l)).

Lemma demo_behaves : behaving demo.
Proof.
  assert (Y : behaves yes) by (intros m; left; exists 1, m; split; reflexivity).
  assert (R : behaves rising).
  { intros m. left. exists (inject_Z (Z.of_nat m) + 1), m. split; [reflexivity|].
    assert (K : inject_Z 0 <= inject_Z (Z.of_nat m)) by (apply inj_le; lia). change (inject_Z 0) with 0 in K. lra. }
  repeat split; try exact Y; try exact R; cbn; eauto.
  intros _ m. unfold yes. eauto.
Qed.

Example C75_witness :
  best_first (map snd some_cores) /\
  names (run_power plain_options (even 1) 10 2 some_cores) = Ok [0%nat; 1%nat].
Proof. split; [cbn; repeat constructor; try (intros; discriminate); lra|vm_compute; reflexivity]. Qed.

Example C76_witness :
  names (run_power plain_options (even 1) 10 5 some_cores) = Ok [0%nat; 1%nat; 2%nat] /\
  names (suppression_available (fun x => x) nat nat demo plain_options (even 1) 5 some_cores) = Ok [0%nat; 1%nat; 2%nat] /\
  names (standard_power (fun x => x) nat nat demo plain_options (even 1) 10 9 some_cores)
  = Ok [1%nat; 101%nat; 2%nat; 102%nat; 0%nat].
Proof. repeat split; vm_compute; reflexivity. Qed.

(** With nothing fit at the set margin, the relaxed one is used and shows. *)
Definition saturating : physics nat nat := {|
  area_product := fun _ => rising; energy_stored := fun _ => yes;
  size_turns := fun _ m => Sized m;
  saturation := fun mg m => Verdict (Qle_bool mg 1) (Some 1) m;
  post_gap_fringing := fun _ => yes; cost := rising; dimensions := rising;
  losses := rising; temperature := yes; minimum_impedance := rising; turn_count := rising;
  inductance := yes; early_fringing := yes; size_gap := fun m => Sized m;
  ferrite_materials := Ok (fun m => [m]);
  impedance_materials := Ok (fun m => [m]); powder_materials := Ok (fun m => [m]);
  cannot_score_losses := fun _ => false; is_toroidal := fun m => (m =? 0)%nat;
  suits_differential_choke := fun _ => true; shape_name := fun _ => "E"%string;
  correct_windings := fun m => Ok m; add_alternatives := fun m => Ok m;
  post_process := fun m => Some m; tag_relaxed := fun m => (m + 1000)%nat;
  differential_choke := false; powder_wanted := true |}.
Example C76_relaxed_witness :
  names (power_available (fun x => x) nat nat saturating plain_options (even 1) 10 5 some_cores)
  = Ok [1000%nat; 1001%nat; 1002%nat] /\ relaxation_due saturating plain_options some_cores.
Proof.
  split; [vm_compute; reflexivity|]. split; [reflexivity|].
  intros m0 s0 m _ (_ & m1 & m2 & _ & _ & s & K). discriminate.
Qed.

Example C77_witness :
  names (run_power plain_options (even 1) 10 3 some_cores) = Ok [0%nat; 1%nat; 2%nat] /\
  names (run_power plain_options (fun b => match b with EFFICIENCY => Some (1 # 2) | _ => Some (-1) end) 10 3 (rev some_cores))
  = Ok [0%nat; 1%nat; 2%nat] /\
  (efficiency_weighted (even 1) <->
   efficiency_weighted (fun b => match b with EFFICIENCY => Some (1 # 2) | _ => Some (-1) end)) /\
  Permutation (map fst some_cores) (map fst (rev some_cores)).
Proof.
  repeat split; try (vm_compute; reflexivity).
  rewrite map_rev. apply Permutation_rev.
Qed.

Example C78_witness :
  names (run_power plain_options (even 1) 10 4 some_cores) = Ok [0%nat; 1%nat; 2%nat] /\
  advisable demo (margin_used plain_options false) false true true 2%nat 2%nat /\
  completes demo false (tagged demo false 2%nat) 2%nat.
Proof.
  repeat split; try (vm_compute; reflexivity).
  - exists 2%nat, 2%nat. cbn. unfold qualifies, accepts, leads. cbn. unfold yes, rising.
    repeat split; eauto 10. all: eexists; eauto 10.
  - exists 2%nat, 2%nat. repeat split.
Qed.

Example C80_witness : increasing (fun x => x) /\ behaving demo /\ finite_scores some_cores.
Proof.
  split; [exact id_increasing|]. split; [exact demo_behaves|].
  intros m s [K|[K|[K|[]]]]; injection K as <- <-; eauto.
Qed.
Example C82_witness :
  names (run_power (mk_options false (6 # 5) true false true 10) (even 1) 10 5 some_cores) = Ok [0%nat; 2%nat].
Proof. vm_compute. reflexivity. Qed.

(** ** Where the claims fail *)

Fixpoint in_order (l : list dbl) : bool :=
  match l with [] => true | a :: t => forallb (fun b => negb (dgt b a)) t && in_order t end.
Lemma best_first_check l : best_first l -> in_order l = true.
Proof.
  induction l as [|a t IH]; cbn; [reflexivity|]. intros [F B]. rewrite (IH B), andb_true_r.
  apply forallb_forall. rewrite Forall_forall in F. intros b Hb.
  specialize (F b Hb). apply not_above_falling in F. unfold falling in F. now rewrite F.
Qed.

(** C75: among all standard cores the gapped ones come first, whatever the
    scores. *)
Theorem C75_standard_order_refuted :
  exists (ph : physics nat nat) o w l rs,
    best_first (map snd l) /\
    standard_power (fun x => x) nat nat ph o w 10 5 l = Ok rs /\ ~ best_first (map snd rs).
Proof.
  set (ph := {|
  area_product := fun _ => rising; energy_stored := fun _ => yes;
  size_turns := fun _ m => Sized m; saturation := fun _ => yes;
  post_gap_fringing := fun _ => yes; cost := rising; dimensions := rising;
  losses := rising; temperature := yes; minimum_impedance := rising; turn_count := rising;
  inductance := yes; early_fringing := yes; size_gap := fun m => Sized m;
  ferrite_materials := Ok (fun m => [m]);
  impedance_materials := Ok (fun m => [m]); powder_materials := Ok (fun m => [m]);
  cannot_score_losses := fun _ => false; is_toroidal := fun m => (m =? 0)%nat;
  suits_differential_choke := fun _ => true; shape_name := fun _ => "E"%string;
  correct_windings := fun m => Ok m; add_alternatives := fun m => Ok m;
  post_process := fun m => Some m; tag_relaxed := fun m => m;
  differential_choke := false; powder_wanted := true |} : physics nat nat).
  exists ph, plain_options, (even 1), some_cores.
  eexists. split; [cbn; repeat constructor; try (intros; discriminate); lra|]. split; [vm_compute; reflexivity|].
  intros K. apply best_first_check in K. vm_compute in K. discriminate.
Qed.

(** C78: with pruning on, the cut before the losses hides fit candidates although
    fewer designs are returned than asked for; taking back the first cut does not
    help. *)
Definition heights_only : physics nat nat := {|
  area_product := fun _ => yes; energy_stored := fun _ => yes;
  size_turns := fun _ m => Sized m; saturation := fun _ => yes;
  post_gap_fringing := fun _ => yes; cost := yes; dimensions := rising;
  losses := yes; temperature := yes; minimum_impedance := yes; turn_count := yes;
  inductance := yes; early_fringing := yes; size_gap := fun m => Sized m;
  ferrite_materials := Ok (fun m => [m]);
  impedance_materials := Ok (fun m => [m]); powder_materials := Ok (fun m => [m]);
  cannot_score_losses := fun _ => false; is_toroidal := fun _ => false;
  suits_differential_choke := fun _ => true; shape_name := fun _ => "E"%string;
  correct_windings := fun m => Ok m; add_alternatives := fun m => Ok m;
  post_process := fun m => if (m <? 50)%nat then None else Some m; tag_relaxed := fun m => m;
  differential_choke := false; powder_wanted := true |}.
Definition numbered : dataset_rules nat :=
  mk_rules nat (fun _ => true) (fun _ => true) (fun c => body c).
Definition catalog (n : nat) : list core := map (mk_core "E" None) (seq 0 n).
Definition default_options : options := {|
  pruning := true; margin := 6 # 5; temperature_filter := true; include_stacks := false;
  unique_shapes := false; maximum_after_filtering := 500 |}.

Theorem C78_pruning_refuted :
  exists cores, advise_cores (fun x => x) nat nat heights_only numbered true default_options (even 1) cores 2
    = Ok ([], cores) /\
  exists c d, In c cores /\
    advisable heights_only (margin default_options) false true true (body c) d /\
    completes heights_only false d d.
Proof.
  exists (catalog 51). split; [vm_compute; reflexivity|].
  exists (mk_core "E" None 50), 50%nat. split.
  { apply in_map_iff. exists 50%nat. split; [reflexivity|]. apply in_seq. lia. }
  split.
  - exists 50%nat, 50%nat. cbn. unfold qualifies, accepts, leads. cbn. unfold yes, rising.
    repeat split; eauto 10. all: eexists; eauto 10.
  - exists 50%nat, 50%nat. repeat split.
Qed.

(** C79: the advice depends on the batch size.  Alone in its batch every core gets
    the full weight, so the first one wins instead of the cheapest. *)
Theorem C79_batch_size_changes_advice_refuted :
  exists cores r r' r1 r2,
    advise_cores (fun x => x) nat nat demo numbered true default_options (even 1) cores 1 = Ok (r, r') /\
    advise_in_batches (fun x => x) nat nat demo numbered 5 true default_options (even 1) cores 1 1 = Ok r1 /\
    advise_in_batches (fun x => x) nat nat demo numbered 5 true default_options (even 1) cores 1 5 = Ok r2 /\
    map fst r = [0%nat] /\ map fst r2 = [0%nat] /\ map fst r1 = [2%nat].
Proof.
  exists (rev (catalog 3)). do 4 eexists.
  split; [vm_compute; reflexivity|]. split; [vm_compute; reflexivity|]. split; [vm_compute; reflexivity|].
  repeat split.
Qed.

(** C80: three ways one candidate ends the whole call.  A gap that cannot be
    evaluated, an unwindable candidate, and measured values whose logarithms
    coincide, or are below zero. *)
Definition gap_throws : physics nat nat := {|
  area_product := fun _ => yes; energy_stored := fun _ => yes;
  size_turns := fun _ m => Sized m; saturation := fun _ => yes;
  post_gap_fringing := fun _ m => if (m =? 0)%nat then Infeasible "gap" else yes m;
  cost := yes; dimensions := rising;
  losses := yes; temperature := yes; minimum_impedance := yes; turn_count := yes;
  inductance := yes; early_fringing := yes; size_gap := fun m => Sized m;
  ferrite_materials := Ok (fun m => [m]);
  impedance_materials := Ok (fun m => [m]); powder_materials := Ok (fun m => [m]);
  cannot_score_losses := fun _ => false; is_toroidal := fun _ => false;
  suits_differential_choke := fun _ => true; shape_name := fun _ => "E"%string;
  correct_windings := fun m => if (m =? 1)%nat then Throw "winding" else Ok m; add_alternatives := fun m => Ok m;
  post_process := fun m => Some m; tag_relaxed := fun m => m;
  differential_choke := false; powder_wanted := true |}.
(** The raw cost of candidate 0 is below zero, those of the others positive. *)
Definition refund : physics nat nat := {|
  area_product := fun _ => yes; energy_stored := fun _ => yes;
  size_turns := fun _ m => Sized m; saturation := fun _ => yes;
  post_gap_fringing := fun _ => yes;
  cost := fun m => if (m =? 0)%nat then Verdict true (Some (-1)) m else rising m; dimensions := rising;
  losses := yes; temperature := yes; minimum_impedance := yes; turn_count := yes;
  inductance := yes; early_fringing := yes; size_gap := fun m => Sized m;
  ferrite_materials := Ok (fun m => [m]);
  impedance_materials := Ok (fun m => [m]); powder_materials := Ok (fun m => [m]);
  cannot_score_losses := fun _ => false; is_toroidal := fun _ => false;
  suits_differential_choke := fun _ => true; shape_name := fun _ => "E"%string;
  correct_windings := fun m => Ok m; add_alternatives := fun m => Ok m;
  post_process := fun m => Some m; tag_relaxed := fun m => m;
  differential_choke := false; powder_wanted := true |}.
Definition coarse (x : Q) : Q := inject_Z (Qround.Qfloor x).

Theorem C80_one_candidate_ends_the_call_refuted :
  (* the gap of candidate 0 *)
  power_available (fun x => x) nat nat gap_throws plain_options (even 1) 10 3 [(0%nat, Fin 0); (2%nat, Fin 0)] = Throw "gap" /\
  (* the windings of candidate 1 *)
  power_available (fun x => x) nat nat gap_throws plain_options (even 1) 10 3 [(1%nat, Fin 0); (2%nat, Fin 0)] = Throw "winding" /\
  (* candidate 2 alone is advised *)
  names (power_available (fun x => x) nat nat gap_throws plain_options (even 1) 10 3 [(2%nat, Fin 0)]) = Ok [2%nat] /\
  (* a value below zero on a logarithmic scale *)
  (exists why, power_available (fun x => x) nat nat refund plain_options (even 1) 10 3 some_cores = UB why) /\
  (* different values with the same logarithm *)
  (forall x y, x <= y -> coarse x <= coarse y) /\
  exists why l, sort l = UB why /\
    bind (normalise coarse [Some 1; Some (3 # 2)] 1 true true)
      (add_contributions [(0%nat, Fin 0); (1%nat, Fin 0)]) = Ok l.
Proof.
  split; [vm_compute; reflexivity|]. split; [vm_compute; reflexivity|]. split; [vm_compute; reflexivity|].
  split; [eexists; vm_compute; reflexivity|].
  split.
  - intros x y H. unfold coarse. apply inj_le. now apply Qround.Qfloor_resp_le.
  - do 2 eexists. split; [|vm_compute; reflexivity]. vm_compute. reflexivity.
Qed.

(** C81: with stacks on, a call that does not find enough designs leaves the
    caller's cores stacked and renamed; the next call sees those. *)
Definition stacking_options : options := {|
  pruning := true; margin := 6 # 5; temperature_filter := true; include_stacks := true;
  unique_shapes := false; maximum_after_filtering := 500 |}.
Theorem C81_stacked_catalog_refuted :
  exists cores rs cores',
    advise_cores (fun x => x) nat nat demo numbered true stacking_options (even 1) cores 2 = Ok (rs, cores') /\
    map core_name cores = ["E"%string] /\ map number_stacks cores = [None] /\
    map core_name cores' = ["E 4 stacks"%string] /\ map number_stacks cores' = [Some 4%nat].
Proof.
  exists (catalog 1). do 2 eexists. split; [vm_compute; reflexivity|]. repeat split.
Qed.
Example C81_witness :
  exists rs, advise_cores (fun x => x) nat nat demo numbered true plain_options (even 1) (catalog 3) 2
    = Ok (rs, catalog 3) /\ map fst rs = [0%nat; 1%nat].
Proof. eexists. split; [vm_compute; reflexivity|reflexivity]. Qed.
Example C79_witness :
  exists rs, advise_in_batches (fun x => x) nat nat demo numbered 5 true plain_options (even 1) (catalog 5) 3 2 = Ok rs /\
    map fst rs = [0%nat; 2%nat; 4%nat].
Proof. eexists. split; [vm_compute; reflexivity|reflexivity]. Qed.
Example C26_log_witness :
  increasing (fun x => x) /\
  normalise (fun x => x) (map Some [1; 3; 2]) 1 true true = Ok (map Fin [1 * (1 + - ((1 + - (1)) / (3 + - (1)))); 1 * (1 + - ((3 + - (1)) / (3 + - (1)))); 1 * (1 + - ((2 + - (1)) / (3 + - (1))))]).
Proof. split; [exact id_increasing|reflexivity]. Qed.

(** A weight left out of the request counts as nothing among the cores in stock
    and as one among the standard ones: the same request asks for the losses to be
    judged in one and not in the other. *)
Definition lossy : physics nat nat := {|
  area_product := fun _ => yes; energy_stored := fun _ => yes;
  size_turns := fun _ m => Sized m; saturation := fun _ => yes;
  post_gap_fringing := fun _ => yes; cost := rising; dimensions := rising;
  losses := fun m => Verdict (m <? 2)%nat (Some 1) m; temperature := yes;
  minimum_impedance := yes; turn_count := yes;
  inductance := yes; early_fringing := yes; size_gap := fun m => Sized m;
  ferrite_materials := Ok (fun m => [m]);
  impedance_materials := Ok (fun m => [m]); powder_materials := Ok (fun m => [m]);
  cannot_score_losses := fun _ => false; is_toroidal := fun _ => false;
  suits_differential_choke := fun _ => true; shape_name := fun _ => "E"%string;
  correct_windings := fun m => Ok m; add_alternatives := fun m => Ok m;
  post_process := fun m => Some m; tag_relaxed := fun m => m;
  differential_choke := false; powder_wanted := true |}.
Theorem C77_missing_weight_refuted :
  exists (w : weights) r1 r2,
    (forall b, b <> COST -> w b = None) /\
    power_available (fun x => x) nat nat lossy plain_options w 10 3 some_cores = Ok r1 /\
    standard_power (fun x => x) nat nat lossy plain_options w 10 3 some_cores = Ok r2 /\
    ~ accepts (losses lossy) 2%nat /\ In 2%nat (map fst r1) /\ ~ In 2%nat (map fst r2).
Proof.
  exists (fun b => match b with COST => Some 1 | _ => None end). do 2 eexists.
  split; [intros [] K; congruence|]. split; [vm_compute; reflexivity|]. split; [vm_compute; reflexivity|].
  split; [intros (m' & s & K); discriminate|]. cbn. split; [auto|]. intros [K|[K|[]]]; discriminate.
Qed.

Print Assumptions C75_available_best_first.
Print Assumptions C75_suppression_best_first.
Print Assumptions C75_standard_suppression_best_first.
Print Assumptions C75_standard_at_most.
Print Assumptions C75_standard_order_refuted.
Print Assumptions C76_power_gates.
Print Assumptions C76_suppression_gates.
Print Assumptions C76_standard_gates.
Print Assumptions C77_weights_only_reorder_partial.
Print Assumptions C77_missing_weight_refuted.
Print Assumptions C78_nothing_is_lost_partial.
Print Assumptions C78_pruning_refuted.
Print Assumptions C79_batches_best_first.
Print Assumptions C79_batches_end.
Print Assumptions C79_batch_of_none_never_ends_refuted.
Print Assumptions C79_batch_size_changes_advice_refuted.
Print Assumptions C80_always_an_answer_partial.
Print Assumptions C80_one_candidate_ends_the_call_refuted.
Print Assumptions C81_cores_untouched_partial.
Print Assumptions C81_stacked_catalog_refuted.
Print Assumptions C82_unique_shapes.
Print Assumptions C26_log_normalised_scores.
Print Assumptions C26_log_zero_refuted.
Print Assumptions C26_log_nan_rejected.
