(** * C153 and C154: permeability by measured points, and where it has dropped *)
From Coq Require Import Reals List String Bool Lra Lia Permutation Sorted.
From Verif Require Import Base SizingModel CoreLossModel PermeabilityModel PermeabilityProperties PermeabilityCacheProperties.
From Verif Require LossFactorModel LossFactorProperties.
Import ListNotations.
Local Open Scope R_scope.
Local Open Scope outcome_scope.

(** ** Vocabulary *)

Definition with_points (c : material) (l : list point) : Prop := initial c = Measured l.

(** The points that only differ along one axis from the reference: the other
    figures are the least given, and the temperature the one nearest to 25. *)
Definition least_of (key : point -> option R) (l : list point) (p : point) : Prop :=
  forall x, key p = Some x -> forall q y, In q l -> key q = Some y -> x <= y.
Definition nearest_of (l : list point) (p : point) : Prop :=
  forall x, at_temperature p = Some x -> forall q y, In q l -> at_temperature q = Some y -> y = x \/ Rabs (x - 25) < Rabs (y - 25).
Definition on_sweep (a : axis) (l : list point) (p : point) : Prop :=
  In p l /\
  match a with
  | Temperature => least_of at_frequency l p /\ least_of at_bias l p
  | Frequency => nearest_of l p /\ least_of at_bias l p
  | Bias => nearest_of l p /\ least_of at_frequency l p
  end.

(** The data follow the axis. *)
Definition follows (a : axis) (l : list point) : Prop :=
  match a with
  | Temperature => exists p q t u, In p l /\ In q l /\ at_temperature p = Some t /\ at_temperature q = Some u /\ 2 / 1000000000 < Rabs (t - u)
  | Frequency => exists p f, In p l /\ at_frequency p = Some f /\ 100 < f
  | Bias => exists p h, In p l /\ at_bias p = Some h /\ 0 < h
  end.

(** ** Least and nearest *)

Lemma least_spec : forall key l best r, least key l best = r ->
  match r with
  | None => best = None /\ forall q, In q l -> key q = None
  | Some x => (best = Some x \/ exists q, In q l /\ key q = Some x) /\
              (forall b, best = Some b -> x <= b) /\ (forall q y, In q l -> key q = Some y -> x <= y)
  end.
Proof.
  intros key l. induction l as [|p l IH]; intros best r H; cbn [least] in H.
  - subst r. destruct best as [b|].
    + split; [left; reflexivity|]. split; [intros b' E; injection E as <-; lra|intros q y []].
    + split; [reflexivity|intros q []].
  - assert (KEEP : forall b x, key p = Some x -> b = Some x \/ (exists b', b = Some b' /\ b' <= x) ->
      (forall b', best = Some b' -> exists z, b = Some z /\ z <= b') -> (forall z, b = Some z -> best = Some z \/ key p = Some z) ->
      least key l b = r ->
      match r with
      | None => best = None /\ (forall q, In q (p :: l) -> key q = None)
      | Some x => (best = Some x \/ exists q, In q (p :: l) /\ key q = Some x) /\
              (forall b, best = Some b -> x <= b) /\ (forall q y, In q (p :: l) -> key q = Some y -> x <= y)
      end).
    { intros b x K B L F H'. apply IH in H'. destruct r as [z|].
      - destruct H' as (H1 & H2 & H3). split; [|split].
        + destruct H1 as [H1|(q & Q & E)]; [|right; exists q; split; [right; exact Q|exact E]].
          destruct (F z H1) as [E|E]; [left; exact E|right; exists p; split; [left; reflexivity|exact E]].
        + intros b' E. destruct (L b' E) as (w & W & LE). specialize (H2 w W). lra.
        + intros q y [<-|Q] E; [|exact (H3 q y Q E)]. rewrite K in E. injection E as <-.
          destruct B as [B|(b' & B & LE)]; [exact (H2 x B)|]. specialize (H2 b' B). lra.
      - destruct H' as (H1 & _). exfalso. destruct B as [B|(b' & B & _)]; congruence. }
    destruct (key p) as [x|] eqn:K.
    + destruct best as [b|].
      * destruct (Rlt_dec x b) as [L|L].
        -- apply (KEEP (Some x) x); auto.
           ++ intros b' E. injection E as <-. exists x. split; [reflexivity|lra].
        -- apply (KEEP (Some b) x); auto.
           ++ right. exists b. split; [reflexivity|lra].
           ++ intros b' E. injection E as <-. exists b. split; [reflexivity|lra].
      * apply (KEEP (Some x) x); auto. intros b' E. discriminate.
    + apply IH in H. destruct r as [z|].
      * destruct H as (H1 & H2 & H3). split; [|split; [exact H2|]].
        -- destruct H1 as [H1|(q & Q & E)]; [left; exact H1|right; exists q; split; [right; exact Q|exact E]].
        -- intros q y [<-|Q] E; [congruence|exact (H3 q y Q E)].
      * destruct H as (H1 & H2). split; [exact H1|]. intros q [<-|Q]; [exact K|exact (H2 q Q)].
Qed.

Lemma nearest_spec : forall l best,
  match nearest l best with
  | None => best = None /\ forall q, In q l -> at_temperature q = None
  | Some x => (best = Some x \/ exists q, In q l /\ at_temperature q = Some x) /\
      (forall b, best = Some b -> Rabs (x - 25) <= Rabs (b - 25)) /\
      (forall q y, In q l -> at_temperature q = Some y -> Rabs (x - 25) <= Rabs (y - 25))
  end.
Proof.
  induction l as [|p l IH]; intros best; cbn [nearest].
  - destruct best as [b|].
    + split; [left; reflexivity|]. split; [intros b' E; injection E as <-; lra|intros q y []].
    + split; [reflexivity|intros q []].
  - destruct (at_temperature p) as [t|] eqn:K.
    + destruct best as [b|].
      * destruct (Rlt_dec (Rabs (t - 25)) (Rabs (b - 25))) as [L|L].
        -- specialize (IH (Some t)). destruct (nearest l (Some t)) as [z|]; [|destruct IH; discriminate].
           destruct IH as (H1 & H2 & H3). specialize (H2 t eq_refl). split; [|split].
           ++ right. destruct H1 as [H1|(q & Q & E)]; [injection H1 as <-; exists p; split; [left; reflexivity|exact K]|].
              exists q. split; [right; exact Q|exact E].
           ++ intros b' E. injection E as <-. lra.
           ++ intros q y [<-|Q] E; [rewrite K in E; injection E as <-; exact H2|exact (H3 q y Q E)].
        -- specialize (IH (Some b)). destruct (nearest l (Some b)) as [z|]; [|destruct IH; discriminate].
           destruct IH as (H1 & H2 & H3). split; [|split; [exact H2|]].
           ++ destruct H1 as [H1|(q & Q & E)]; [left; exact H1|right; exists q; split; [right; exact Q|exact E]].
           ++ intros q y [<-|Q] E; [rewrite K in E; injection E as <-; specialize (H2 b eq_refl); lra|exact (H3 q y Q E)].
      * specialize (IH (Some t)). destruct (nearest l (Some t)) as [z|]; [|destruct IH; discriminate].
        destruct IH as (H1 & H2 & H3). specialize (H2 t eq_refl). split; [|split].
        ++ right. destruct H1 as [H1|(q & Q & E)]; [injection H1 as <-; exists p; split; [left; reflexivity|exact K]|].
           exists q. split; [right; exact Q|exact E].
        ++ intros b' E. discriminate.
        ++ intros q y [<-|Q] E; [rewrite K in E; injection E as <-; exact H2|exact (H3 q y Q E)].
    + specialize (IH best). destruct (nearest l best) as [z|].
      * destruct IH as (H1 & H2 & H3). split; [|split; [exact H2|]].
        -- destruct H1 as [H1|(q & Q & E)]; [left; exact H1|right; exists q; split; [right; exact Q|exact E]].
        -- intros q y [<-|Q] E; [congruence|exact (H3 q y Q E)].
      * destruct IH as (H1 & H2). split; [exact H1|]. intros q [<-|Q]; [exact K|exact (H2 q Q)].
Qed.

Lemma at_most_least : forall key l d p, In p l ->
  (at_most (key p) (or_default d (least key l None)) = true <-> least_of key l p).
Proof.
  intros key l d p I. pose proof (least_spec key l None _ eq_refl) as H. unfold least_of, at_most. destruct (key p) as [x|] eqn:K.
  - destruct (least key l None) as [m|].
    + destruct H as (H1 & _ & H3). destruct H1 as [H1|(r & R & E)]; [discriminate|]. cbn [or_default]. destruct (Rlt_dec m x) as [L|L].
      * split; [discriminate|]. intros A. specialize (A x eq_refl r m R E). lra.
      * split; [|reflexivity]. intros _ x' E' q y Q QY. injection E' as <-. specialize (H3 q y Q QY). lra.
    + destruct H as (_ & H). specialize (H p I). congruence.
  - split; [|reflexivity]. intros _ x E. discriminate.
Qed.

Lemma is_at_nearest : forall l p, In p l -> nearest_of l p -> is_at (at_temperature p) (nearest_temperature l) = true.
Proof.
  intros l p I N. unfold nearest_temperature. pose proof (nearest_spec l None) as H. unfold is_at.
  destruct (at_temperature p) as [x|] eqn:K; [|reflexivity]. destruct (nearest l None) as [z|].
  - destruct H as (H1 & _ & H3). destruct H1 as [H1|(q & Q & E)]; [discriminate|].
    destruct (Req_EM_T x z) as [_|NE]; [reflexivity|]. destruct (N x K q z Q E) as [<-|L]; [contradiction|].
    specialize (H3 p x I K). lra.
  - destruct H as (_ & H). specialize (H p I). congruence.
Qed.

(** The points of a sweep are those the code picks. *)
Lemma sweep_points : forall a l, l <> [] -> exists s, only a l = Ok s /\ forall p, on_sweep a l p -> In p s.
Proof.
  intros a l N. destruct l as [|p0 l0] eqn:EL; [contradiction|]. rewrite <- EL in *.
  assert (F : minimum_frequency l = Ok (or_default 100 (least at_frequency l None))) by (rewrite EL; reflexivity).
  assert (B : minimum_bias l = Ok (or_default 0 (least at_bias l None))) by (rewrite EL; reflexivity).
  destruct a; cbn [only]; rewrite ?F, ?B; cbn [bind]; eexists; (split; [reflexivity|]); intros p (I & H1 & H2);
    apply filter_In; (split; [exact I|]); apply andb_true_iff; split;
    first [apply at_most_least; assumption | apply is_at_nearest; assumption].
Qed.

(** ** Tables *)

Lemma read_spec : forall a l t, read a l = Ok t ->
  (forall x v, In (x, v) t <-> exists p, In p l /\ key_of a p = Some x /\ value p = v) /\ (l <> [] -> t <> []).
Proof.
  intros a l. induction l as [|p l IH]; intros t H; cbn [read] in H.
  - apply ok_inj in H. subst t. split; [|contradiction]. intros x v. split; [intros []|intros (p & [] & _)].
  - destruct (key_of a p) as [x|] eqn:K; [|discriminate]. destruct (read a l) as [t'| | |]; cbn [bind] in H; try discriminate.
    apply ok_inj in H. subst t. split; [|discriminate]. destruct (IH t' eq_refl) as (I & _). intros y v. split.
    + intros [E|E]; [injection E as <- <-; exists p; auto using in_eq|]. apply I in E. destruct E as (q & Q & E).
      exists q. split; [right; exact Q|exact E].
    + intros (q & [<-|Q] & E & V); [left; congruence|]. right. apply I. exists q. auto.
Qed.

Lemma table_spec : forall a l t, table a l = Ok t ->
  StronglySorted (fun p q => fst p < fst q) t /\
  (forall x v, In (x, v) t -> exists p, In p l /\ key_of a p = Some x /\ value p = v) /\
  (forall p x, In p l -> key_of a p = Some x -> exists v, In (x, v) t) /\
  (forall p, In p l -> exists x, key_of a p = Some x).
Proof.
  intros a l t H. unfold table in H. destruct (read a l) as [r| | |] eqn:R; cbn [bind] in H; try discriminate. apply ok_inj in H. subst t.
  destruct (read_spec a l r R) as (I & _).
  destruct (LossFactorProperties.rising_spec (LossFactorModel.sort r) None (LossFactorProperties.sort_sorted r)) as (S1 & S2 & S3).
  pose proof (LossFactorProperties.sort_permutation r) as P. split; [exact S1|]. split; [|split].
  - intros x v V. apply S2 in V. destruct V as (V & _). apply (Permutation_in _ P) in V. apply I in V. exact V.
  - intros p x Q K. assert (V : In (x, value p) r) by (apply I; exists p; auto).
    apply (Permutation_in _ (Permutation_sym P)) in V. destruct (S3 _ V Logic.I) as ([x' v'] & V' & E). simpl in E. subst x'. exists v'. exact V'.
  - clear - R. revert r R. induction l as [|p l IH]; intros r R q Q; [contradiction|]. cbn [read] in R.
    destruct (key_of a p) as [x|] eqn:K; [|discriminate]. destruct (read a l) as [r'| | |]; cbn [bind] in R; try discriminate.
    destruct Q as [<-|Q]; [exists x; exact K|]. exact (IH r' eq_refl q Q).
Qed.

Section Points.
Variable spline : list (R * R) -> R -> R.
Variable samples : list R.
Variable amplitude : material -> option R -> option R -> R -> outcome (option R).
Notation ask := (answer spline samples amplitude).

(** The curve along an axis. *)
Definition curve (a : axis) (c : material) (x : R) : outcome R := fst (along spline samples a nothing c x).

Lemma along_value : forall c m a x, honest samples [c] m ->
  exists m', along spline samples a m c x = (curve a c x, m') /\ honest samples [c] m'.
Proof.
  intros c m a x H.
  assert (C : consistent [c]) by (intros y z [<-|[]] [<-|[]] _; reflexivity).
  destruct (along_steady spline samples [c] a c x C (or_introl eq_refl)) as (r & S).
  destruct (S m H) as (E & K). destruct (S nothing (honest_nothing samples [c])) as (E' & _).
  exists (snd (along spline samples a m c x)). split; [|exact K]. unfold curve. rewrite E', <- E. apply surjective_pairing.
Qed.

(** ** The permeability by its curves *)

Definition pure_reference (c : material) (l : list point) : outcome (R * bool) :=
  if depends_on_temperature c then r <- curve Temperature c 25 ;; Ok (r, false)
  else if depends_on_frequency c then f <- minimum_frequency l ;; r <- curve Frequency c f ;; Ok (r, false)
  else if depends_on_bias c then h <- minimum_bias l ;; r <- curve Bias c h ;; Ok (r, false)
  else match ambient l None with
       | None => if String.eqb (name c) "Dummy" then Ok (1, true) else Throw "InvalidInputException"
       | Some (_, v) => Ok (v, false)
       end.
Definition pure_factor (on : bool) (argument : option R) (a : axis) (r : R) (c : material) : outcome R :=
  match on, argument with
  | true, Some x => v <- curve a c x ;; if Req_EM_T r 0 then UB "reference of zero" else Ok (v / r)
  | _, _ => Ok 1
  end.

Lemma reference_value : forall c l m, honest samples [c] m ->
  exists m', reference spline samples m c l = (pure_reference c l, m') /\ honest samples [c] m'.
Proof.
  intros c l m H. unfold reference, pure_reference.
  destruct (depends_on_temperature c); [|destruct (depends_on_frequency c); [|destruct (depends_on_bias c)]].
  - destruct (along_value c m Temperature 25 H) as (m' & -> & H'). destruct (curve Temperature c 25); cbn [step bind]; eauto.
  - destruct (minimum_frequency l) as [f| | |]; cbn [step bind]; eauto.
    destruct (along_value c m Frequency f H) as (m' & -> & H'). destruct (curve Frequency c f); cbn [step bind]; eauto.
  - destruct (minimum_bias l) as [f| | |]; cbn [step bind]; eauto.
    destruct (along_value c m Bias f H) as (m' & -> & H'). destruct (curve Bias c f); cbn [step bind]; eauto.
  - destruct (ambient l None) as [[d v]|]; [eauto|]. destruct (String.eqb (name c) "Dummy"); eauto.
Qed.
Lemma factor_value : forall c on argument a r m, honest samples [c] m ->
  exists m', factor spline samples on argument a r m c = (pure_factor on argument a r c, m') /\ honest samples [c] m'.
Proof.
  intros c on argument a r m H. unfold factor, pure_factor. destruct on; [|eauto]. destruct argument as [x|]; [|eauto].
  destruct (along_value c m a x H) as (m' & -> & H'). destruct (curve a c x); cbn [step bind]; eauto.
Qed.

Definition pure (c : material) (l : list point) (t h f b : option R) : outcome R :=
  rb <- pure_reference c l ;;
  if snd rb : bool then Ok 1
  else
    let r := fst rb in
    x <- pure_factor (depends_on_temperature c) t Temperature r c ;;
    y <- pure_factor (depends_on_frequency c) f Frequency r c ;;
    z <- pure_factor (depends_on_bias c) h Bias r c ;;
    s <- saturation amplitude c r t h b ;;
    Ok (r * x * y * z * s).

Lemma measured_value : forall c l t h f b family, with_points c l -> cold c t ->
  ask c t h f b family = pure c l t h f b.
Proof.
  intros c l t h f b family W C. unfold answer, permeability, plain. rewrite W.
  assert (LIM : forall r : R, match curie c with Some limit => match t with Some x => if Rlt_dec limit x then Some 1 else Some r | None => Some r end | None => Some r end = Some r).
  { intros r. unfold cold in C. destruct (curie c) as [limit|]; [|reflexivity]. destruct t as [x|]; [|reflexivity].
    destruct (Rlt_dec limit x) as [L|]; [|reflexivity]. specialize (C limit x eq_refl eq_refl). lra. }
  unfold pure. destruct (reference_value c l nothing (honest_nothing samples [c])) as (m1 & -> & H1).
  destruct (pure_reference c l) as [[r stop]| | |]; cbn [step bind fst snd]; try reflexivity.
  destruct stop; [cbn [step fst]; rewrite LIM; reflexivity|].
  destruct (factor_value c (depends_on_temperature c) t Temperature r m1 H1) as (m2 & -> & H2).
  destruct (pure_factor (depends_on_temperature c) t Temperature r c) as [x| | |]; cbn [step bind fst]; try reflexivity.
  destruct (factor_value c (depends_on_frequency c) f Frequency r m2 H2) as (m3 & -> & H3).
  destruct (pure_factor (depends_on_frequency c) f Frequency r c) as [y| | |]; cbn [step bind fst]; try reflexivity.
  destruct (factor_value c (depends_on_bias c) h Bias r m3 H3) as (m4 & -> & H4).
  destruct (pure_factor (depends_on_bias c) h Bias r c) as [z| | |]; cbn [step bind fst]; try reflexivity.
  destruct (saturation amplitude c r t h b) as [s| | |]; cbn [step bind fst]; try reflexivity.
  rewrite LIM. reflexivity.
Qed.

Lemma saturation_none : forall c r t, saturation amplitude c r t None None = Ok 1.
Proof. intros c r t. unfold saturation. destruct (depends_on_bias c); reflexivity. Qed.
Lemma saturation_bias : forall c r t h b, depends_on_bias c = true -> saturation amplitude c r t h b = Ok 1.
Proof. intros c r t h b D. unfold saturation. rewrite D. reflexivity. Qed.

Lemma depends_bias_spec : forall c l, with_points c l -> (depends_on_bias c = true <-> follows Bias l).
Proof.
  intros c l W. unfold depends_on_bias. rewrite W. rewrite existsb_exists. unfold follows. split.
  - intros (p & I & H). exists p. destruct (at_bias p) as [h|]; [|discriminate]. exists h. destruct (Rlt_dec 0 h); [auto|discriminate].
  - intros (p & h & I & E & H). exists p. split; [exact I|]. rewrite E. destruct (Rlt_dec 0 h); [reflexivity|contradiction].
Qed.
Lemma depends_frequency_spec : forall c l, with_points c l -> (depends_on_frequency c = true <-> follows Frequency l).
Proof.
  intros c l W. unfold depends_on_frequency. rewrite W. rewrite existsb_exists. unfold follows. split.
  - intros (p & I & H). exists p. destruct (at_frequency p) as [h|]; [|discriminate]. exists h. destruct (Rlt_dec 100 h); [auto|discriminate].
  - intros (p & h & I & E & H). exists p. split; [exact I|]. rewrite E. destruct (Rlt_dec 100 h); [reflexivity|contradiction].
Qed.
Lemma differs_spec : forall l first, differs l (Some first) = false ->
  forall q y, In q l -> at_temperature q = Some y -> Rabs (first - y) <= 1 / 1000000000.
Proof.
  induction l as [|p l IH]; intros first D q y Q E; [contradiction|]. cbn [differs] in D.
  destruct (at_temperature p) as [t|] eqn:K.
  - destruct (Rlt_dec (1 / 1000000000) (Rabs (first - t))) as [L|L]; [discriminate|].
    destruct Q as [<-|Q]; [rewrite K in E; injection E as <-; lra|exact (IH first D q y Q E)].
  - destruct Q as [<-|Q]; [congruence|exact (IH first D q y Q E)].
Qed.
Lemma differs_close : forall l, differs l None = false ->
  forall p q x y, In p l -> In q l -> at_temperature p = Some x -> at_temperature q = Some y -> Rabs (x - y) <= 2 / 1000000000.
Proof.
  induction l as [|p0 l IH]; intros D p q x y P Q E F; [contradiction|]. cbn [differs] in D.
  destruct (at_temperature p0) as [t|] eqn:K.
  - assert (C : forall r z, In r (p0 :: l) -> at_temperature r = Some z -> Rabs (t - z) <= 1 / 1000000000).
    { intros r z [<-|R] Z; [rewrite K in Z; injection Z as <-; unfold Rminus; rewrite Rplus_opp_r, Rabs_R0; lra|].
      exact (differs_spec l t D r z R Z). }
    pose proof (C p x P E) as C1. pose proof (C q y Q F) as C2. apply Rabs_le. revert C1 C2. unfold Rabs.
    destruct (Rcase_abs (t - x)), (Rcase_abs (t - y)); lra.
  - destruct P as [<-|P]; [congruence|]. destruct Q as [<-|Q]; [congruence|]. exact (IH D p q x y P Q E F).
Qed.
Lemma depends_temperature_spec : forall c l, with_points c l -> follows Temperature l -> depends_on_temperature c = true.
Proof.
  intros c l W (p & q & t & u & P & Q & E & F & L). unfold depends_on_temperature. rewrite W.
  destruct (differs l None) eqn:D; [reflexivity|]. pose proof (differs_close l D p q t u P Q E F). lra.
Qed.
Definition depends (a : axis) (c : material) : bool :=
  match a with Temperature => depends_on_temperature c | Frequency => depends_on_frequency c | Bias => depends_on_bias c end.
Lemma depends_follows : forall a c l, with_points c l -> follows a l -> depends a c = true.
Proof.
  intros [] c l W F; cbn [depends]; [eapply depends_temperature_spec; eassumption|
    eapply depends_frequency_spec; eassumption|eapply depends_bias_spec; eassumption].
Qed.

(** ** C153 *)

Lemma pure_factor_none : forall on a r c, pure_factor on None a r c = Ok 1.
Proof. intros on a r c. unfold pure_factor. destruct on; reflexivity. Qed.

Ltac clean H := repeat (first [rewrite pure_factor_none in H | rewrite saturation_none in H]; cbn [bind] in H).

(** The answer without conditions is the reference. *)
Lemma ask_reference : forall c l family p0, with_points c l -> ask c None None None None family = Ok p0 ->
  exists stop, pure_reference c l = Ok (p0, stop) .
Proof.
  intros c l family p0 W H. rewrite (measured_value c l) in H by (first [assumption | apply cold_none]). unfold pure in H.
  destruct (pure_reference c l) as [[r stop]| | |] eqn:R; cbn [bind fst snd] in H; try discriminate.
  destruct stop.
  - unfold pure_reference in R. exists true. apply ok_inj in H. subst p0.
    destruct (depends_on_temperature c); [destruct (curve Temperature c 25); discriminate|].
    destruct (depends_on_frequency c); [destruct (minimum_frequency l) as [f| | |]; cbn [bind] in R; try discriminate; destruct (curve Frequency c f); discriminate|].
    destruct (depends_on_bias c); [destruct (minimum_bias l) as [f| | |]; cbn [bind] in R; try discriminate; destruct (curve Bias c f); discriminate|].
    destruct (ambient l None) as [[d v]|]; [discriminate|]. destruct (String.eqb (name c) "Dummy"); [|discriminate].
    apply ok_inj in R. rewrite <- R. reflexivity.
  - rewrite !pure_factor_none, saturation_none in H. cbn [bind] in H. apply ok_inj in H. exists false. do 2 f_equal. lra.
Qed.

(** A condition on one axis only. *)
Definition only_at (a : axis) (x : R) : option R * option R * option R :=
  match a with Temperature => (Some x, None, None) | Frequency => (None, None, Some x) | Bias => (None, Some x, None) end.
Definition ask_at (c : material) (a : axis) (x : R) (family : option string) : outcome R :=
  let '(t, h, f) := only_at a x in ask c t h f None family.

Lemma ask_curve : forall a c l family p0 x, with_points c l -> depends a c = true ->
  ask c None None None None family = Ok p0 -> p0 <> 0 -> (a = Temperature -> cold c (Some x)) ->
  ask_at c a x family = curve a c x.
Proof.
  intros a c l family p0 x W D H0 N C. destruct (ask_reference c l family p0 W H0) as (stop & R).
  assert (stop = false) as ->.
  { destruct stop; [|reflexivity]. exfalso. unfold pure_reference in R.
    destruct (depends_on_temperature c) eqn:DT; [destruct (curve Temperature c 25); discriminate|].
    destruct (depends_on_frequency c) eqn:DF; [destruct (minimum_frequency l) as [f| | |]; cbn [bind] in R; try discriminate; destruct (curve Frequency c f); discriminate|].
    destruct (depends_on_bias c) eqn:DB; [destruct (minimum_bias l) as [f| | |]; cbn [bind] in R; try discriminate; destruct (curve Bias c f); discriminate|].
    destruct a; cbn [depends] in D; congruence. }
  assert (PF : pure_factor true (Some x) a p0 c = (v <- curve a c x ;; Ok (v / p0))).
  { unfold pure_factor. destruct (curve a c x); cbn [bind]; try reflexivity. destruct (Req_EM_T p0 0); [contradiction|reflexivity]. }
  unfold ask_at. destruct a; cbn [only_at depends] in *.
  - rewrite (measured_value c l) by auto. unfold pure. rewrite R. cbn [bind fst snd]. rewrite D, PF.
    destruct (curve Temperature c x) as [v| | |]; cbn [bind]; try reflexivity.
    rewrite !pure_factor_none, saturation_none. cbn [bind]. f_equal. field. exact N.
  - rewrite (measured_value c l) by (first [assumption | apply cold_none]). unfold pure. rewrite R. cbn [bind fst snd]. rewrite D, PF.
    rewrite !pure_factor_none. cbn [bind].
    destruct (curve Frequency c x) as [v| | |]; cbn [bind]; try reflexivity.
    rewrite saturation_none. cbn [bind]. f_equal. field. exact N.
  - rewrite (measured_value c l) by (first [assumption | apply cold_none]). unfold pure. rewrite R. cbn [bind fst snd].
    rewrite saturation_bias by exact D. rewrite D, PF. rewrite !pure_factor_none. cbn [bind].
    destruct (curve Bias c x) as [v| | |]; cbn [bind]; try reflexivity. f_equal. field. exact N.
Qed.

(** What a curve is made of. *)
Lemma curve_table : forall a c l s x v, with_points c l -> only a l = Ok s -> curve a c x = Ok v ->
  s <> [] /\ exists t, table a s = Ok t /\
    (v = interpolate spline a t x \/ (a = Temperature /\ exists limit, curie c = Some limit /\ limit < x /\ v = 1)) /\
    (~ (a = Temperature /\ exists limit, curie c = Some limit /\ limit < x) -> v = interpolate spline a t x).
Proof.
  intros a c l s x v W O H. unfold curve, along, points_along in H. rewrite W in H.
  replace (match a with Temperature | _ => only a l end) with (only a l) in H by (destruct a; reflexivity).
  rewrite O in H. destruct s as [|p s]; cbn [fst] in H; [discriminate|]. split; [discriminate|].
  unfold nothing at 1 in H. destruct (table a (p :: s)) as [t| | |]; cbn [fst] in H; try discriminate. exists t. split; [reflexivity|].
  apply ok_inj in H. destruct a; try (split; [left|intros _]; symmetry; exact H).
  destruct (curie c) as [limit|]; [|split; [left|intros _]; symmetry; exact H].
  destruct (Rlt_dec limit x) as [L|L].
  - split; [right; split; [reflexivity|]; exists limit; auto|]. intros K. exfalso. apply K. split; [reflexivity|]. exists limit. auto.
  - split; [left|intros _]; symmetry; exact H.
Qed.

Lemma atleast1_id : forall x, 1 <= x -> atleast1 x = x.
Proof. intros x H. unfold atleast1. destruct (Rlt_dec 1 x); lra. Qed.

Lemma interpolate_point : forall a t x v, LossFactorProperties.passes spline ->
  StronglySorted (fun p q => fst p < fst q) t -> In (x, v) t -> 1 <= v ->
  a = Temperature \/ List.length t <> 2%nat -> interpolate spline a t x = v.
Proof.
  intros a t x v P S I V L. destruct t as [|[x0 y0] [|[x1 y1] [|p3 t]]]; [contradiction| | |].
  - destruct I as [I|[]]. injection I as -> ->. destruct a; cbn [interpolate]; try reflexivity. apply atleast1_id. exact V.
  - destruct L as [->|L]; [|exfalso; apply L; reflexivity]. cbn [interpolate].
    inversion S as [|? ? _ F]; subst. inversion F as [|? ? LT _]; subst. simpl in LT.
    replace (y0 + (y1 - y0) * (x - x0) / (x1 - x0)) with v; [apply atleast1_id; exact V|].
    destruct I as [I|[I|[]]]; injection I as -> ->; field; lra.
  - assert (E : interpolate spline a ((x0, y0) :: (x1, y1) :: p3 :: t) x = atleast1 (spline ((x0, y0) :: (x1, y1) :: p3 :: t) x)).
    { destruct a; reflexivity. }
    rewrite E, (P _ x v); [apply atleast1_id; exact V|simpl; lia|exact S|exact I].
Qed.

(** A measured point is what the permeability is there, when only its axis is asked
    for: along the temperature always, along the frequency and the bias when the
    sweep has one figure or at least three. *)
Theorem C153_point : forall a c l p x family p0,
  LossFactorProperties.passes spline -> with_points c l -> on_sweep a l p -> key_of a p = Some x -> 1 <= value p ->
  (forall q, In q l -> key_of a q = Some x -> value q = value p) -> follows a l ->
  (a = Temperature \/ (exists q1 q2 q3 x1 x2 x3, on_sweep a l q1 /\ on_sweep a l q2 /\ on_sweep a l q3 /\
     key_of a q1 = Some x1 /\ key_of a q2 = Some x2 /\ key_of a q3 = Some x3 /\ x1 < x2 < x3)) ->
  (a = Temperature -> cold c (Some x)) ->
  ask c None None None None family = Ok p0 -> p0 <> 0 ->
  (exists v, ask_at c a x family = Ok v) ->
  ask_at c a x family = Ok (value p).
Proof.
  intros a c l p x family p0 P W S K V U F A C H0 N (v & H).
  assert (NE : l <> []) by (destruct S as (I & _); destruct l; [contradiction|discriminate]).
  rewrite (ask_curve a c l family p0 x W (depends_follows a c l W F) H0 N C) in H |- *.
  destruct (sweep_points a l NE) as (s & O & I).
  destruct (curve_table a c l s x v W O H) as (_ & t & T & _ & E).
  rewrite H. f_equal. rewrite E.
  2:{ intros (-> & limit & CU & LT). specialize (C eq_refl limit x CU eq_refl). lra. }
  destruct (table_spec a s t T) as (T1 & T2 & T3 & _).
  destruct (T3 p x (I p S) K) as (v' & V'). destruct (T2 x v' V') as (q & Q & KQ & VQ).
  assert (IL : In q l).
  { clear - O Q. destruct a; cbn [only] in O; destruct (minimum_frequency l), (minimum_bias l); cbn [bind] in O; try discriminate;
      apply ok_inj in O; subst s; apply filter_In in Q; apply Q. }
  rewrite <- (U q IL KQ), VQ. apply interpolate_point; [exact P|exact T1|exact V'|rewrite <- VQ, (U q IL KQ); exact V|].
  destruct A as [->|(q1 & q2 & q3 & x1 & x2 & x3 & S1 & S2 & S3 & K1 & K2 & K3 & L)]; [left; reflexivity|right].
  destruct (T3 q1 x1 (I q1 S1) K1) as (w1 & W1). destruct (T3 q2 x2 (I q2 S2) K2) as (w2 & W2). destruct (T3 q3 x3 (I q3 S3) K3) as (w3 & W3).
  intros L2. destruct t as [|[y1 z1] [|[y2 z2] [|z t]]]; try discriminate. simpl in W1, W2, W3.
  destruct W1 as [W1|[W1|[]]], W2 as [W2|[W2|[]]], W3 as [W3|[W3|[]]]; injection W1 as ? ?; injection W2 as ? ?; injection W3 as ? ?; lra.
Qed.

(** Temperature, bias and frequency multiply: what each does to the reference it
    also does to what the others leave. *)
Theorem C153_product : forall c l t f family p0 pt pf v, with_points c l -> cold c (Some t) ->
  ask c None None None None family = Ok p0 ->
  ask c (Some t) None None None family = Ok pt ->
  ask c None None (Some f) None family = Ok pf ->
  ask c (Some t) None (Some f) None family = Ok v -> p0 * v = pt * pf.
Proof.
  intros c l t f family p0 pt pf v W C H0 HT HF HV. destruct (ask_reference c l family p0 W H0) as (stop & R).
  rewrite (measured_value c l) in HT, HF, HV by (first [assumption | apply cold_none]).
  unfold pure in HT, HF, HV. rewrite R in HT, HF, HV. cbn [bind fst snd] in HT, HF, HV.
  destruct stop.
  - apply ok_inj in HT, HF, HV. subst. unfold pure_reference in R.
    destruct (depends_on_temperature c) eqn:DT; [destruct (curve Temperature c 25); discriminate|].
    destruct (depends_on_frequency c) eqn:DF; [destruct (minimum_frequency l) as [g| | |]; cbn [bind] in R; try discriminate; destruct (curve Frequency c g); discriminate|].
    destruct (depends_on_bias c) eqn:DB; [destruct (minimum_bias l) as [g| | |]; cbn [bind] in R; try discriminate; destruct (curve Bias c g); discriminate|].
    destruct (ambient l None) as [[d w]|]; [discriminate|]. destruct (String.eqb (name c) "Dummy"); [|discriminate].
    apply ok_inj in R. injection R as <-. ring.
  - clean HT. clean HF. clean HV.
    destruct (pure_factor (depends_on_temperature c) (Some t) Temperature p0 c) as [x| | |]; cbn [bind] in HT, HV; try discriminate.
    destruct (pure_factor (depends_on_frequency c) (Some f) Frequency p0 c) as [y| | |]; cbn [bind] in HF, HV; try discriminate.
    clean HT. clean HF. clean HV. apply ok_inj in HT, HF, HV. subst. ring.
Qed.
Theorem C153_product_bias : forall c l t h f family p0 pt ph pf v, with_points c l -> follows Bias l -> cold c (Some t) ->
  ask c None None None None family = Ok p0 ->
  ask c (Some t) None None None family = Ok pt ->
  ask c None (Some h) None None family = Ok ph ->
  ask c None None (Some f) None family = Ok pf ->
  ask c (Some t) (Some h) (Some f) None family = Ok v -> p0 * p0 * v = pt * ph * pf.
Proof.
  intros c l t h f family p0 pt ph pf v W B C H0 HT HH HF HV. destruct (ask_reference c l family p0 W H0) as (stop & R).
  apply (depends_bias_spec c l W) in B.
  rewrite (measured_value c l) in HT, HH, HF, HV by (first [assumption | apply cold_none]).
  unfold pure in HT, HH, HF, HV. rewrite R in HT, HH, HF, HV. cbn [bind fst snd] in HT, HH, HF, HV.
  destruct stop.
  - exfalso. unfold pure_reference in R.
    destruct (depends_on_temperature c) eqn:DT; [destruct (curve Temperature c 25); discriminate|].
    destruct (depends_on_frequency c) eqn:DF; [destruct (minimum_frequency l) as [g| | |]; cbn [bind] in R; try discriminate; destruct (curve Frequency c g); discriminate|].
    rewrite B in R. destruct (minimum_bias l) as [g| | |]; cbn [bind] in R; try discriminate; destruct (curve Bias c g); discriminate.
  - rewrite !saturation_bias in HT, HH, HF, HV by exact B. clean HT. clean HH. clean HF. clean HV.
    destruct (pure_factor (depends_on_temperature c) (Some t) Temperature p0 c) as [x| | |]; cbn [bind] in HT, HV; try discriminate.
    destruct (pure_factor (depends_on_frequency c) (Some f) Frequency p0 c) as [y| | |]; cbn [bind] in HF, HV; try discriminate.
    destruct (pure_factor (depends_on_bias c) (Some h) Bias p0 c) as [z| | |]; cbn [bind] in HH, HV; try discriminate.
    clean HT. clean HH. clean HF. clean HV. cbn [bind] in *. apply ok_inj in HT, HH, HF, HV. subst. ring.
Qed.

(** What the data do not follow has no influence. *)
Theorem C153_independent : forall c l t f family, with_points c l -> cold c t ->
  (~ follows Frequency l -> ask c t None (Some f) None family = ask c t None None None family) /\
  (~ follows Bias l -> ask c t (Some 0) (Some f) None family = ask c t None (Some f) None family).
Proof.
  intros c l t f family W C. split; intros N; rewrite !(measured_value c l) by assumption; unfold pure.
  - assert (D : depends_on_frequency c = false).
    { destruct (depends_on_frequency c) eqn:D; [|reflexivity]. exfalso. apply N. apply (depends_frequency_spec c l W). exact D. }
    destruct (pure_reference c l) as [[r stop]| | |]; cbn [bind fst snd]; try reflexivity. rewrite D. reflexivity.
  - assert (D : depends_on_bias c = false).
    { destruct (depends_on_bias c) eqn:D; [|reflexivity]. exfalso. apply N. apply (depends_bias_spec c l W). exact D. }
    destruct (pure_reference c l) as [[r stop]| | |]; cbn [bind fst snd]; try reflexivity. destruct stop; [reflexivity|].
    rewrite D. cbn [pure_factor]. unfold saturation. rewrite D. destruct (Req_EM_T 0 0) as [_|K]; [|contradiction]. reflexivity.
Qed.

(** Without points along the bias, a bias saturates: it never raises the
    permeability, and its direction does not matter. *)
Theorem C153_saturation : forall c l t h f family p0 w v, with_points c l -> ~ follows Bias l -> cold c t ->
  ask c None None None None family = Ok p0 -> 0 < p0 ->
  ask c t None f None family = Ok w -> 0 <= w ->
  ask c t (Some h) f None family = Ok v -> v <= w /\ ask c t (Some (- h)) f None family = Ok v.
Proof.
  intros c l t h f family p0 w v W N C H0 P HW PW HV. destruct (ask_reference c l family p0 W H0) as (stop & R).
  assert (D : depends_on_bias c = false).
  { destruct (depends_on_bias c) eqn:D; [|reflexivity]. exfalso. apply N. apply (depends_bias_spec c l W). exact D. }
  rewrite (measured_value c l) in HW, HV |- * by assumption. unfold pure in *. rewrite R in HW, HV |- *. cbn [bind fst snd] in *.
  destruct stop; [apply ok_inj in HW, HV; subst; split; [lra|reflexivity]|].
  destruct (pure_factor (depends_on_temperature c) t Temperature p0 c) as [x| | |]; cbn [bind] in *; try discriminate.
  destruct (pure_factor (depends_on_frequency c) f Frequency p0 c) as [y| | |]; cbn [bind] in *; try discriminate.
  rewrite D in *. cbn [pure_factor] in *. unfold saturation in *. rewrite D in *. cbn [bind] in *.
  rewrite Rabs_Ropp. assert (E : (if Req_EM_T (- h) 0 then Ok None else amplitude c None (Some (Rabs h)) (or_default 25 t)) =
    (if Req_EM_T h 0 then Ok None else amplitude c None (Some (Rabs h)) (or_default 25 t))).
  { destruct (Req_EM_T (- h) 0), (Req_EM_T h 0); try reflexivity; exfalso; lra. }
  rewrite E. split; [|exact HV]. apply ok_inj in HW.
  destruct (if Req_EM_T h 0 then Ok None else amplitude c None (Some (Rabs h)) (or_default 25 t)) as [[a|]| | |]; cbn [bind] in HV; try discriminate.
  - destruct (Rlt_dec a p0) as [L|L]; [|cbn [bind] in HV; apply ok_inj in HV; lra].
    destruct (Req_EM_T p0 0) as [Z|_]; [lra|]. cbn [bind] in HV. apply ok_inj in HV. rewrite <- HV.
    replace (p0 * x * y * 1 * (a / p0)) with (w * (a / p0)) by (rewrite <- HW; ring).
    assert (a / p0 <= 1). { apply (Rmult_le_reg_r p0); [exact P|]. replace (a / p0 * p0) with a by (field; lra). lra. }
    rewrite <- (Rmult_1_r w) at 2. apply Rmult_le_compat_l; assumption.
  - apply ok_inj in HV. lra.
Qed.

(** Above the Curie temperature the permeability is 1. *)
Theorem C153_curie : forall c limit t h f b family v, curie c = Some limit -> limit < t ->
  ask c (Some t) h f b family = Ok v -> v = 1.
Proof.
  intros c limit t h f b family v C L. unfold answer, permeability.
  destruct (plain spline samples amplitude nothing c (Some t) h f b family) as [[r|e|e|] m]; cbn [step fst]; try discriminate.
  rewrite C. destruct (Rlt_dec limit t); [|contradiction]. cbv zeta iota. intros H. inversion H. reflexivity.
Qed.

(** With a temperature alone, the permeability of data that follow it is at least 1. *)
Theorem C153_at_least_one : forall c l t family v, with_points c l -> follows Temperature l ->
  ask c (Some t) None None None family = Ok v -> 1 <= v.
Proof.
  intros c l t family v W F H.
  assert (D := depends_temperature_spec c l W F).
  assert (G : forall a x w, a = Temperature -> curve a c x = Ok w -> 1 <= w).
  { intros a x w -> K. unfold curve, along, points_along in K. rewrite W in K.
    destruct (only Temperature l) as [[|q s]| | |]; cbn [fst] in K; try discriminate. unfold nothing at 1 in K.
    destruct (table Temperature (q :: s)) as [tt| | |] eqn:T; cbn [fst] in K; try discriminate. apply ok_inj in K.
    assert (I : 1 <= interpolate spline Temperature tt x).
    { assert (A1 : forall z, 1 <= atleast1 z) by (intros z; unfold atleast1; destruct (Rlt_dec 1 z); lra).
      destruct (table_spec _ _ _ T) as (_ & _ & T3 & T4). destruct (T4 q (or_introl eq_refl)) as (y & Y).
      destruct (T3 q y (or_introl eq_refl) Y) as (z & Z).
      destruct tt as [|[x0 y0] [|[x1 y1] [|p3 tt]]]; [contradiction| | |]; cbn [interpolate]; apply A1. }
    destruct (curie c) as [limit|]; [destruct (Rlt_dec limit x)|]; subst w; lra. }
  destruct (curie c) as [limit|] eqn:CU.
  - destruct (Rlt_le_dec limit t) as [L|L]; [rewrite (C153_curie c limit t None None None family v CU L H); lra|].
    assert (C : cold c (Some t)) by (intros l' t' E E'; rewrite CU in E; injection E as <-; injection E' as <-; exact L).
    rewrite (measured_value c l) in H by assumption. unfold pure in H. unfold pure_reference in H. rewrite D in H.
    destruct (curve Temperature c 25) as [r| | |] eqn:R; cbn [bind fst snd] in H; try discriminate.
    cbn [pure_factor] in H. destruct (curve Temperature c t) as [w| | |] eqn:K; cbn [bind] in H; try discriminate.
    destruct (Req_EM_T r 0); [discriminate|]. cbn [bind] in H. rewrite !pure_factor_none, saturation_none in H. cbn [bind] in H.
    apply ok_inj in H. replace v with w by (rewrite <- H; field; assumption). exact (G Temperature t w eq_refl K).
  - assert (C : cold c (Some t)) by (intros l' t' E; rewrite CU in E; discriminate).
    rewrite (measured_value c l) in H by assumption. unfold pure in H. unfold pure_reference in H. rewrite D in H.
    destruct (curve Temperature c 25) as [r| | |] eqn:R; cbn [bind fst snd] in H; try discriminate.
    cbn [pure_factor] in H. destruct (curve Temperature c t) as [w| | |] eqn:K; cbn [bind] in H; try discriminate.
    destruct (Req_EM_T r 0); [discriminate|]. cbn [bind] in H. rewrite !pure_factor_none, saturation_none in H. cbn [bind] in H.
    apply ok_inj in H. replace v with w by (rewrite <- H; field; assumption). exact (G Temperature t w eq_refl K).
Qed.

(** At 25 degrees data that follow the temperature give what they give without one. *)
Theorem C153_ambient : forall c l f family p0 v, with_points c l -> follows Temperature l -> cold c (Some 25) ->
  ask c None None None None family = Ok p0 ->
  ask c (Some 25) None (Some f) None family = Ok v -> ask c None None (Some f) None family = Ok v.
Proof.
  intros c l f family p0 v W F C H0 H. assert (D := depends_temperature_spec c l W F).
  rewrite (measured_value c l) in H |- * by (first [assumption | apply cold_none]). unfold pure, pure_reference in *. rewrite D in *.
  destruct (curve Temperature c 25) as [r| | |] eqn:R; cbn [bind fst snd pure_factor] in *; try discriminate.
  rewrite R in H. cbn [bind] in H. destruct (Req_EM_T r 0); [discriminate|]. cbn [bind] in H. rewrite !pure_factor_none, saturation_none in *.
  destruct (pure_factor (depends_on_frequency c) (Some f) Frequency r c) as [y| | |]; cbn [bind] in *; try discriminate.
  rewrite <- H. f_equal. field. assumption.
Qed.

(** Data that follow no axis: a point nearest to 25 degrees, whatever is asked. *)
Definition distance (p : point) : R := Rabs (or_default 25 (at_temperature p) - 25).
Lemma ambient_spec : forall l best, l <> [] \/ best <> None ->
  exists d v, ambient l best = Some (d, v) /\
    (best = Some (d, v) \/ exists p, In p l /\ distance p = d /\ value p = v) /\
    (forall b w, best = Some (b, w) -> d <= b) /\ (forall q, In q l -> d <= distance q).
Proof.
  induction l as [|p l IH]; intros best N; cbn [ambient].
  - destruct N as [N|N]; [contradiction|]. destruct best as [[d v]|]; [|contradiction]. exists d, v. split; [reflexivity|].
    split; [left; reflexivity|]. split; [intros b w E; injection E as -> _; lra|intros q []].
  - fold (distance p).
    destruct (IH (match best with Some (b, _) => if Rlt_dec (distance p) b then Some (distance p, value p) else best | None => Some (distance p, value p) end))
      as (d & v & E & H1 & H2 & H3).
    { right. destruct best as [[b w]|]; [destruct (Rlt_dec (distance p) b)|]; discriminate. }
    exists d, v. split; [exact E|]. destruct best as [[b w]|].
    + destruct (Rlt_dec (distance p) b) as [L|L].
      * specialize (H2 _ _ eq_refl). split; [|split].
        -- right. destruct H1 as [H1|(q & Q & K)]; [injection H1 as <- <-; exists p; auto using in_eq|exists q; split; [right; exact Q|exact K]].
        -- intros b' w' K. injection K as <- _. lra.
        -- intros q [<-|Q]; [exact H2|exact (H3 q Q)].
      * split; [|split; [exact H2|]].
        -- destruct H1 as [H1|(q & Q & K)]; [left; exact H1|right; exists q; split; [right; exact Q|exact K]].
        -- specialize (H2 _ _ eq_refl). intros q [<-|Q]; [lra|exact (H3 q Q)].
    + specialize (H2 _ _ eq_refl). split; [|split].
      * right. destruct H1 as [H1|(q & Q & K)]; [injection H1 as <- <-; exists p; auto using in_eq|exists q; split; [right; exact Q|exact K]].
      * intros b' w' K. discriminate.
      * intros q [<-|Q]; [exact H2|exact (H3 q Q)].
Qed.

Theorem C153_constant : forall c l t f family, with_points c l -> l <> [] ->
  (forall p q x y, In p l -> In q l -> at_temperature p = Some x -> at_temperature q = Some y -> x = y) ->
  ~ follows Frequency l -> ~ follows Bias l -> cold c t ->
  exists p, In p l /\ (forall q, In q l -> distance p <= distance q) /\ ask c t None f None family = Ok (value p).
Proof.
  intros c l t f family W NE ST NF NB C. rewrite (measured_value c l) by assumption. unfold pure, pure_reference.
  assert (DT : depends_on_temperature c = false).
  { unfold depends_on_temperature. rewrite W. destruct (differs l None) eqn:D; [|reflexivity]. exfalso. clear NE NF NB W.
    assert (G : forall l' first, (forall q, In q l' -> In q l) -> (forall x, first = Some x -> exists p, In p l /\ at_temperature p = Some x) ->
      differs l' first = true -> False).
    { induction l' as [|q l' IH]; intros first S H K; cbn [differs] in K; [discriminate|].
      destruct (at_temperature q) as [y|] eqn:Y.
      - destruct first as [x|].
        + destruct (H x eq_refl) as (p & P & X). rewrite (ST p q x y P (S q (or_introl eq_refl)) X Y) in *.
          destruct (Rlt_dec (1 / 1000000000) (Rabs (y - y))) as [L|L].
          * unfold Rminus in L. rewrite Rplus_opp_r, Rabs_R0 in L. lra.
          * apply (IH (Some y)); [intros r R; apply S; right; exact R|exact H|exact K].
        + apply (IH (Some y)); [intros r R; apply S; right; exact R| |exact K]. intros x E. injection E as <-. exists q. split; [apply S; left; reflexivity|exact Y].
      - apply (IH first); [intros r R; apply S; right; exact R|exact H|exact K]. }
    apply (G l None); [auto|intros x E; discriminate|exact D]. }
  assert (DF : depends_on_frequency c = false).
  { destruct (depends_on_frequency c) eqn:D; [|reflexivity]. exfalso. apply NF. apply (depends_frequency_spec c l W). exact D. }
  assert (DB : depends_on_bias c = false).
  { destruct (depends_on_bias c) eqn:D; [|reflexivity]. exfalso. apply NB. apply (depends_bias_spec c l W). exact D. }
  rewrite DT, DF, DB. destruct (ambient_spec l None (or_introl NE)) as (d & v & -> & H1 & _ & H3).
  destruct H1 as [H1|(p & P & D & V)]; [discriminate|]. exists p. split; [exact P|]. split; [intros q Q; rewrite D; exact (H3 q Q)|].
  cbn [bind fst snd pure_factor]. rewrite saturation_none. cbn [bind]. f_equal. rewrite V. ring.
Qed.

(** Without points there is no answer, but for the placeholder of the advisers. *)
Theorem C153_empty : forall c t h f b family, with_points c [] ->
  (name c <> "Dummy"%string -> exists e, ask c t h f b family = Throw e) /\
  (name c = "Dummy"%string -> ask c t h f b family = Ok 1).
Proof.
  intros c t h f b family W. unfold with_points in W. unfold answer, permeability, plain. rewrite W.
  assert (R : reference spline samples nothing c [] =
    (if String.eqb (name c) "Dummy" then (Ok (1, true), nothing) else (Throw "InvalidInputException", nothing))).
  { unfold reference, depends_on_temperature, depends_on_frequency, depends_on_bias. rewrite W. reflexivity. }
  rewrite R. split; intros N.
  - destruct (String.eqb (name c) "Dummy") eqn:E; [apply String.eqb_eq in E; contradiction|]. eexists. reflexivity.
  - rewrite N. change (String.eqb "Dummy" "Dummy") with true. cbv iota. cbn [step fst]. cbv zeta.
    destruct (curie c) as [limit|]; [|reflexivity]. destruct t as [x|]; [|reflexivity]. destruct (Rlt_dec limit x); reflexivity.
Qed.

(** ** C154 *)

(** What the search is for: the permeability where the result is. *)
Definition reaches (c : material) (wanted error f : R) : Prop :=
  exists v, curve Frequency c f = Ok v /\ wanted <> 0 /\ Rabs (v - wanted) / wanted < error.
Definition bracket (n : nat) (c : material) (wanted low high f : R) : Prop :=
  exists lo hi, low <= lo <= hi /\ hi <= high /\ f = (hi + lo) / 2 /\ hi - lo = (high - low) / 2 ^ n /\
    (lo = low \/ exists v, curve Frequency c lo = Ok v /\ wanted < v) /\
    (hi = high \/ exists v, curve Frequency c hi = Ok v /\ v <= wanted).

Lemma halve_step : forall n m c wanted error low high current,
  halve spline samples (S n) m c wanted error low high current =
  step (along spline samples Frequency m c current) (fun v m =>
    if (if Req_EM_T wanted 0 then false
        else if Rlt_dec (Rabs (v - wanted) / wanted) error then true else false) then (Ok current, m)
    else if Rlt_dec wanted v then halve spline samples n m c wanted error current high ((high + current) / 2)
    else halve spline samples n m c wanted error low current ((current + low) / 2)).
Proof. reflexivity. Qed.

Lemma halve_spec : forall n m c wanted error low high f, honest samples [c] m -> low <= high ->
  fst (halve spline samples n m c wanted error low high ((high + low) / 2)) = Ok f ->
  low <= f <= high /\ (reaches c wanted error f \/ bracket n c wanted low high f).
Proof.
  induction n as [|n IH]; intros m c wanted error low high f H L R; cbn [halve] in R.
  - cbn [fst] in R. apply ok_inj in R. subst f. split; [lra|]. right. exists low, high. simpl. repeat split; try lra; left; reflexivity.
  - destruct (along_value c m Frequency ((high + low) / 2) H) as (m' & E & H'). rewrite E in R.
    destruct (curve Frequency c ((high + low) / 2)) as [v| | |] eqn:CV; cbn [step fst] in R; try discriminate.
    destruct (if Req_EM_T wanted 0 then false else if Rlt_dec (Rabs (v - wanted) / wanted) error then true else false) eqn:B.
    + cbn [fst] in R. apply ok_inj in R. subst f. split; [lra|]. left. exists v. split; [exact CV|].
      destruct (Req_EM_T wanted 0); [discriminate|]. split; [assumption|]. destruct (Rlt_dec (Rabs (v - wanted) / wanted) error); [assumption|discriminate].
    + assert (P : 2 ^ n <> 0) by (apply pow_nonzero; lra).
      destruct (Rlt_dec wanted v) as [LT|LT].
      * apply IH in R; [|exact H'|lra]. destruct R as (R1 & R2). split; [lra|]. destruct R2 as [R2|(lo & hi & A1 & A2 & A3 & A4 & A5 & A6)]; [left; exact R2|].
        right. exists lo, hi. split; [lra|]. split; [exact A2|]. split; [exact A3|]. split; [rewrite A4; simpl; field; exact P|].
        split; [|exact A6]. right. destruct A5 as [->|A5]; [exists v; auto|exact A5].
      * replace (((high + low) / 2 + low) / 2) with (((high + low) / 2 + low) / 2) in R by reflexivity.
        apply IH in R; [|exact H'|lra]. destruct R as (R1 & R2). split; [lra|]. destruct R2 as [R2|(lo & hi & A1 & A2 & A3 & A4 & A5 & A6)]; [left; exact R2|].
        right. exists lo, hi. split; [exact A1|]. split; [lra|]. split; [exact A3|]. split; [rewrite A4; simpl; field; exact P|].
        split; [exact A5|]. right. destruct A6 as [->|A6]; [exists v; split; [exact CV|lra]|exact A6].
Qed.

(** The frequencies the search begins with. *)
Definition spans (l : list point) (low high : R) : Prop :=
  (exists p, In p l /\ at_frequency p = Some low) /\ (exists p, In p l /\ at_frequency p = Some high) /\
  forall p, In p l -> exists f, at_frequency p = Some f /\ low <= f <= high.

Lemma greatest_spec : forall l best h, greatest l best = Some h ->
  (h = best \/ exists p, In p l /\ at_frequency p = Some h) /\ best <= h /\ forall p, In p l -> exists f, at_frequency p = Some f /\ f <= h.
Proof.
  induction l as [|p l IH]; intros best h H; cbn [greatest] in H.
  - injection H as <-. split; [left; reflexivity|]. split; [lra|]. intros p [].
  - destruct (at_frequency p) as [x|] eqn:X; [|discriminate]. apply IH in H. destruct H as (H1 & H2 & H3).
    destruct (Rlt_dec best x) as [L|L].
    + split; [|split; [lra|]].
      * right. destruct H1 as [->|(q & Q & E)]; [exists p; auto using in_eq|exists q; split; [right; exact Q|exact E]].
      * intros q [<-|Q]; [exists x; split; [exact X|exact H2]|exact (H3 q Q)].
    + split; [|split; [lra|]].
      * destruct H1 as [->|(q & Q & E)]; [left; reflexivity|right; exists q; split; [right; exact Q|exact E]].
      * intros q [<-|Q]; [exists x; split; [exact X|lra]|exact (H3 q Q)].
Qed.

Lemma span_of : forall l low high, minimum_frequency l = Ok low -> maximum_frequency l = Ok (Some high) -> spans l low high.
Proof.
  intros l low high L H. destruct l as [|p l]; [discriminate|]. cbn [maximum_frequency] in H.
  destruct (at_frequency p) as [x|] eqn:X; [|apply ok_inj in H; discriminate]. apply ok_inj in H. apply greatest_spec in H.
  destruct H as (H1 & H2 & H3). unfold minimum_frequency in L. apply ok_inj in L.
  pose proof (least_spec at_frequency (p :: l) None _ eq_refl) as M. destruct (least at_frequency (p :: l) None) as [z|].
  - cbn [or_default] in L. subst z. destruct M as (M1 & _ & M3). destruct M1 as [M1|M1]; [discriminate|].
    split; [exact M1|]. split.
    + destruct H1 as [->|(q & Q & E)]; [exists p; auto using in_eq|exists q; split; [right; exact Q|exact E]].
    + intros q Q. destruct Q as [<-|Q].
      * exists x. split; [exact X|]. split; [|exact H2]. apply (M3 p x); [left; reflexivity|exact X].
      * destruct (H3 q Q) as (y & Y & LY). exists y. split; [exact Y|]. split; [|exact LY]. apply (M3 q y); [right; exact Q|exact Y].
  - destruct M as (_ & M). specialize (M p (or_introl eq_refl)). congruence.
Qed.

(** The points the frequency of a material is followed by. *)
Definition frequency_points (c : material) : outcome (list point) :=
  match initial c with Formula p => sampled_points samples p | Measured l => Ok l end.
Definition drop_of (c : material) (drop error : R) : outcome (option R) := fst (drop_frequency spline samples nothing c drop error).

(** The frequency lies between the least and the greatest measured, and either the
    permeability there is the one wanted within the error, or the search has shut
    it in between two frequencies nearer than a part in 2 ^ 100 of that range. *)
Theorem C154_drop : forall c drop error f, drop_of c drop error = Ok (Some f) ->
  exists l low high r, frequency_points c = Ok l /\ spans l low high /\ curve Frequency c low = Ok r /\ low <= f <= high /\
    (reaches c (r * (1 - drop)) error f \/ bracket 100 c (r * (1 - drop)) low high f).
Proof.
  intros c drop error f H. unfold drop_of, drop_frequency in H. destruct (depends_on_frequency c); [|discriminate]. fold (frequency_points c) in H.
  destruct (frequency_points c) as [l| | |]; cbn [step fst] in H; try discriminate.
  destruct (minimum_frequency l) as [low| | |] eqn:ML; cbn [step fst] in H; try discriminate.
  destruct (maximum_frequency l) as [high| | |] eqn:MH; cbn [step fst] in H; try discriminate.
  destruct (along_value c nothing Frequency low (honest_nothing samples [c])) as (m & E & M). rewrite E in H.
  destruct (curve Frequency c low) as [r| | |] eqn:R; cbn [step fst] in H; try discriminate.
  destruct high as [high|]; [|discriminate].
  assert (S := span_of l low high ML MH).
  destruct (halve spline samples 100 m c (r * (1 - drop)) error low high ((high + low) / 2)) as [o m'] eqn:HV.
  destruct o as [g| | |]; cbn [step fst] in H; try discriminate. apply ok_inj in H. injection H as ->.
  exists l, low, high, r. split; [reflexivity|]. split; [exact S|]. split; [exact R|].
  apply (halve_spec 100 m c (r * (1 - drop)) error low high f M).
  - destruct S as ((p & P & X) & _ & S). destruct (S p P) as (y & Y & L). lra.
  - rewrite HV. reflexivity.
Qed.

(** If the curve is continuous and has dropped that far at the greatest frequency,
    then the result either meets the error or is next to a frequency where the drop
    is exactly the one wanted. *)
Theorem C154_crossing : forall c drop error f (g : R -> R) l low high,
  drop_of c drop error = Ok (Some f) -> frequency_points c = Ok l -> spans l low high ->
  (forall x, curve Frequency c x = Ok (g x)) -> continuity g ->
  g high <= g low * (1 - drop) < g low ->
  reaches c (g low * (1 - drop)) error f \/
  exists x, low <= x <= high /\ g x = g low * (1 - drop) /\ Rabs (f - x) <= (high - low) / 2 ^ 101.
Proof.
  intros c drop error f g l low high H FP S G CT D. destruct (C154_drop c drop error f H) as (l' & lo & hi & r & FP' & S' & R & _ & K).
  rewrite FP in FP'. apply ok_inj in FP'. subst l'.
  assert (lo = low).
  { destruct S as ((p & P & X) & _ & SA). destruct S' as ((p' & P' & X') & _ & SA').
    destruct (SA p' P') as (y & Y & L1). destruct (SA' p P) as (y' & Y' & L2). rewrite X' in Y. rewrite X in Y'.
    injection Y as <-. injection Y' as <-. lra. }
  assert (hi = high).
  { destruct S as (_ & (p & P & X) & SA). destruct S' as (_ & (p' & P' & X') & SA').
    destruct (SA p' P') as (y & Y & L1). destruct (SA' p P) as (y' & Y' & L2). rewrite X' in Y. rewrite X in Y'.
    injection Y as <-. injection Y' as <-. lra. }
  subst lo hi. rewrite G in R. apply ok_inj in R. subst r. destruct K as [K|K]; [left; exact K|right].
  destruct K as (a & b & A1 & A2 & A3 & A4 & A5 & A6). set (w := g low * (1 - drop)) in *.
  assert (GA : w < g a) by (destruct A5 as [->|(v & V & L)]; [apply D|rewrite G in V; apply ok_inj in V; lra]).
  assert (GB : g b <= w) by (destruct A6 as [->|(v & V & L)]; [apply D|rewrite G in V; apply ok_inj in V; lra]).
  assert (P : 0 < 2 ^ 100) by (apply pow_lt; lra).
  assert (Z : exists x, a <= x <= b /\ g x = w).
  { destruct GB as [GB|GB]; [|exists b; split; [lra|exact GB]].
    assert (AB : a < b). { destruct (proj2 A1) as [LT|EQ]; [exact LT|]. subst b. lra. }
    destruct (IVT (fun x => w - g x) a b) as (x & X1 & X2).
    - apply (continuity_minus (fct_cte w) g); [apply derivable_continuous, derivable_const|exact CT].
    - exact AB.
    - lra.
    - lra.
    - exists x. split; [exact X1|]. lra. }
  destruct Z as (x & X & E). exists x. split; [lra|]. split; [exact E|].
  assert (W2 : (high - low) / 2 ^ 101 = (b - a) / 2). { rewrite A4. change (2 ^ 101) with (2 * 2 ^ 100). field. }
  rewrite W2, A3. apply Rabs_le. lra.
Qed.

(** Data that do not follow the frequency have no such frequency. *)
Theorem C154_no_dependency : forall c l drop error, with_points c l -> ~ follows Frequency l -> drop_of c drop error = Ok None.
Proof.
  intros c l drop error W N. unfold drop_of, drop_frequency.
  destruct (depends_on_frequency c) eqn:D; [|reflexivity]. exfalso. apply N. apply (depends_frequency_spec c l W). exact D.
Qed.

(** To ask for a drop of more than all of it gives the middle of the range. *)
Theorem C154_more_than_all_refuted : forall c drop error low high r l m, frequency_points c = Ok l -> l <> [] -> 1 < drop -> 0 < error -> 0 < r ->
  depends_on_frequency c = true -> minimum_frequency l = Ok low -> maximum_frequency l = Ok (Some high) ->
  curve Frequency c low = Ok r -> curve Frequency c ((high + low) / 2) = Ok m ->
  drop_of c drop error = Ok (Some ((high + low) / 2)).
Proof.
  intros c drop error low high r l m FP NE D E R DF ML MH CL CM. unfold drop_of, drop_frequency. rewrite DF. fold (frequency_points c).
  rewrite FP. cbn [step]. rewrite ML. cbn [step]. rewrite MH. cbn [step].
  destruct (along_value c nothing Frequency low (honest_nothing samples [c])) as (m1 & -> & H1). rewrite CL. cbn [step].
  change 100%nat with (S 99). rewrite halve_step.
  destruct (along_value c m1 Frequency ((high + low) / 2) H1) as (m2 & -> & H2). rewrite CM. cbn [step].
  assert (W : r * (1 - drop) < 0). { replace (r * (1 - drop)) with (- (r * (drop - 1))) by ring. pose proof (Rmult_lt_0_compat r (drop - 1) R). lra. }
  destruct (Req_EM_T (r * (1 - drop)) 0); [lra|].
  destruct (Rlt_dec (Rabs (m - r * (1 - drop)) / (r * (1 - drop))) error) as [_|K]; [reflexivity|]. exfalso. apply K.
  apply (Rle_lt_trans _ 0); [|exact E]. unfold Rdiv. pose proof (Rabs_pos (m - r * (1 - drop))).
  pose proof (Rinv_lt_0_compat _ W). replace 0 with (Rabs (m - r * (1 - drop)) * 0) by ring. apply Rmult_le_compat_l; lra.
Qed.
End Points.

(** ** What does not hold *)

(** What is assumed of the splines besides: points on a line give the line. *)
Definition straight (spline : list (R * R) -> R -> R) : Prop :=
  forall t a b x, (3 <= List.length t)%nat -> (forall y v, In (y, v) t -> v = a + b * y) -> spline t x = a + b * x.

Definition at_point (v : R) (t f h : option R) : point :=
  {| value := v; at_temperature := t; at_frequency := f; at_bias := h; modifiers := None |}.
Definition of_points (n : string) (l : list point) : material := {| name := n; initial := Measured l; curie := None |}.

Lemma cold_of_points : forall n l t, cold (of_points n l) t.
Proof. intros n l t limit x H. discriminate. Qed.

Ltac decide_R :=
  repeat match goal with
  | |- context [Rlt_dec ?a ?b] => destruct (Rlt_dec a b); try (exfalso; lra)
  | |- context [Rle_dec ?a ?b] => destruct (Rle_dec a b); try (exfalso; lra)
  | |- context [Req_EM_T ?a ?b] => destruct (Req_EM_T a b); try (exfalso; lra)
  end.

(** Measured at 20 and at 100 degrees, and at 20 degrees along the frequency. *)
Definition twice_swept : list point :=
  [at_point 2000 (Some 20) (Some 10000) None; at_point 3000 (Some 100) (Some 10000) None;
   at_point 1500 (Some 20) (Some 100000) None; at_point 1000 (Some 20) (Some 500000) None].

Lemma twice_temperature : forall spline samples x,
  curve spline samples Temperature (of_points "N87" twice_swept) x = Ok (atleast1 (2000 + (3000 - 2000) * (x - 20) / (100 - 20))).
Proof.
  intros spline samples x. unfold curve, along, points_along, of_points. cbn [initial only].
  assert (F : minimum_frequency twice_swept = Ok 10000).
  { unfold minimum_frequency, twice_swept. cbn [least at_frequency at_point]. decide_R. reflexivity. }
  rewrite F. change (minimum_bias twice_swept) with (Ok 0). cbn [bind].
  assert (E : filter (fun p => at_most (at_frequency p) 10000 && at_most (at_bias p) 0)%bool twice_swept =
    [at_point 2000 (Some 20) (Some 10000) None; at_point 3000 (Some 100) (Some 10000) None]).
  { unfold twice_swept. cbn [filter at_frequency at_bias at_point at_most]. decide_R. reflexivity. }
  rewrite E. unfold nothing at 1.
  assert (T : table Temperature [at_point 2000 (Some 20) (Some 10000) None; at_point 3000 (Some 100) (Some 10000) None] = Ok [(20, 2000); (100, 3000)]).
  { unfold table. cbn [read key_of at_temperature at_point bind value LossFactorModel.sort fold_right LossFactorModel.place fst].
    decide_R. cbn [LossFactorModel.rising]. decide_R. reflexivity. }
  rewrite T. reflexivity.
Qed.

Lemma twice_frequency : forall spline samples x, 
  curve spline samples Frequency (of_points "N87" twice_swept) x = Ok (atleast1 (spline [(10000, 2000); (100000, 1500); (500000, 1000)] x)).
Proof.
  intros spline samples x. unfold curve, along, points_along, of_points. cbn [initial only].
  change (minimum_bias twice_swept) with (Ok 0). cbn [bind].
  assert (N : nearest_temperature twice_swept = Some 20).
  { unfold nearest_temperature, twice_swept. cbn [nearest at_temperature at_point].
    assert (A : Rabs (20 - 25) = 5) by (rewrite Rabs_left; lra). assert (B : Rabs (100 - 25) = 75) by (rewrite Rabs_right; lra).
    rewrite A, B. decide_R. reflexivity. }
  rewrite N.
  assert (E : filter (fun p => is_at (at_temperature p) (Some 20) && at_most (at_bias p) 0)%bool twice_swept =
    [at_point 2000 (Some 20) (Some 10000) None; at_point 1500 (Some 20) (Some 100000) None; at_point 1000 (Some 20) (Some 500000) None]).
  { unfold twice_swept. cbn [filter at_temperature at_bias at_point at_most is_at]. decide_R. reflexivity. }
  rewrite E. unfold nothing at 1.
  assert (T : table Frequency [at_point 2000 (Some 20) (Some 10000) None; at_point 1500 (Some 20) (Some 100000) None; at_point 1000 (Some 20) (Some 500000) None]
     = Ok [(10000, 2000); (100000, 1500); (500000, 1000)]).
  { unfold table. cbn [read key_of at_frequency at_point bind value LossFactorModel.sort fold_right LossFactorModel.place fst].
    decide_R. cbn [LossFactorModel.place fst]. decide_R. cbn [LossFactorModel.rising]. decide_R. reflexivity. }
  rewrite T. reflexivity.
Qed.

Lemma twice_value : forall spline samples amplitude t f family, LossFactorProperties.passes spline ->
  answer spline samples amplitude (of_points "N87" twice_swept) t None f None family =
  let r := 4125 / 2 in
  Ok (r * (match t with Some x => atleast1 (2000 + (3000 - 2000) * (x - 20) / (100 - 20)) / r | None => 1 end)
        * (match f with Some x => atleast1 (spline [(10000, 2000); (100000, 1500); (500000, 1000)] x) / r | None => 1 end) * 1 * 1).
Proof.
  intros spline samples amplitude t f family P.
  rewrite (measured_value spline samples amplitude (of_points "N87" twice_swept) twice_swept) by (first [reflexivity | apply cold_of_points]).
  unfold pure, pure_reference.
  assert (DT : depends_on_temperature (of_points "N87" twice_swept) = true).
  { apply (depends_temperature_spec _ twice_swept); [reflexivity|]. exists (at_point 2000 (Some 20) (Some 10000) None), (at_point 3000 (Some 100) (Some 10000) None), 20, 100.
    unfold twice_swept. simpl. repeat split; auto. rewrite Rabs_left; lra. }
  assert (DF : depends_on_frequency (of_points "N87" twice_swept) = true).
  { apply (depends_frequency_spec _ twice_swept); [reflexivity|]. exists (at_point 2000 (Some 20) (Some 10000) None), 10000.
    unfold twice_swept. simpl. repeat split; auto. lra. }
  rewrite DT, DF. change (depends_on_bias (of_points "N87" twice_swept)) with false. rewrite twice_temperature. cbn [bind fst snd].
  assert (R : atleast1 (2000 + (3000 - 2000) * (25 - 20) / (100 - 20)) = 4125 / 2) by (unfold atleast1; decide_R; lra).
  rewrite R. unfold pure_factor. rewrite saturation_none.
  destruct t as [x|], f as [y|]; rewrite ?twice_temperature, ?twice_frequency; cbn [bind]; decide_R; reflexivity.
Qed.

(** A point measured at another temperature than 25 is not what the permeability is
    there, when both its temperature and its frequency are asked for. *)
Theorem C153_corner_refuted : forall spline samples amplitude family, LossFactorProperties.passes spline ->
  exists c l p t f v, with_points c l /\ In p l /\ at_temperature p = Some t /\ at_frequency p = Some f /\
    answer spline samples amplitude c (Some t) None (Some f) None family = Ok v /\ value p - v > 60.
Proof.
  intros spline samples amplitude family P. exists (of_points "N87" twice_swept), twice_swept, (at_point 2000 (Some 20) (Some 10000) None), 20, 10000.
  eexists. split; [reflexivity|]. split; [left; reflexivity|]. split; [reflexivity|]. split; [reflexivity|].
  split; [apply twice_value; exact P|].
  cbv beta iota zeta. rewrite (P [(10000, 2000); (100000, 1500); (500000, 1000)] 10000 2000).
  - unfold atleast1. decide_R. cbn [value at_point]. lra.
  - simpl. lia.
  - repeat constructor; simpl; lra.
  - left. reflexivity.
Qed.

(** With points along the bias its direction does matter. *)
Definition biased : list point :=
  [at_point 100 (Some 25) (Some 10) (Some 0); at_point 80 (Some 25) (Some 10) (Some 1000); at_point 60 (Some 25) (Some 10) (Some 2000)].
Lemma biased_curve : forall spline samples x,
  curve spline samples Bias (of_points "KM" biased) x = Ok (atleast1 (spline [(0, 100); (1000, 80); (2000, 60)] x)).
Proof.
  intros spline samples x. unfold curve, along, points_along, of_points. cbn [initial only].
  assert (F : minimum_frequency biased = Ok 10).
  { unfold minimum_frequency, biased. cbn [least at_frequency at_point]. decide_R. reflexivity. }
  rewrite F. cbn [bind].
  assert (N : nearest_temperature biased = Some 25).
  { unfold nearest_temperature, biased. cbn [nearest at_temperature at_point]. decide_R. reflexivity. }
  rewrite N.
  assert (E : filter (fun p => is_at (at_temperature p) (Some 25) && at_most (at_frequency p) 10)%bool biased = biased).
  { unfold biased. cbn [filter at_temperature at_frequency at_point at_most is_at]. decide_R. reflexivity. }
  rewrite E. unfold nothing at 1.
  assert (T : table Bias biased = Ok [(0, 100); (1000, 80); (2000, 60)]).
  { unfold table, biased. cbn [read key_of at_bias at_point bind value LossFactorModel.sort fold_right LossFactorModel.place fst].
    decide_R. cbn [LossFactorModel.place fst]. decide_R. cbn [LossFactorModel.rising]. decide_R. reflexivity. }
  rewrite T. reflexivity.
Qed.
Lemma biased_value : forall spline samples amplitude h family, straight spline ->
  answer spline samples amplitude (of_points "KM" biased) None (Some h) None None family = Ok (100 * 1 * 1 * (atleast1 (100 - h / 50) / 100) * 1).
Proof.
  intros spline samples amplitude h family S.
  assert (L : forall x, spline [(0, 100); (1000, 80); (2000, 60)] x = 100 - x / 50).
  { intros x. rewrite (S _ 100 (-(1) / 50) x).
    - lra.
    - simpl. lia.
    - intros y v [H|[H|[H|[]]]]; injection H as <- <-; lra. }
  rewrite (measured_value spline samples amplitude (of_points "KM" biased) biased) by (first [reflexivity | apply cold_of_points]).
  unfold pure, pure_reference.
  assert (DT : depends_on_temperature (of_points "KM" biased) = false).
  { unfold depends_on_temperature, of_points, biased. cbn [initial differs at_temperature at_point].
    replace (Rabs (25 - 25)) with 0 by (unfold Rminus; rewrite Rplus_opp_r, Rabs_R0; reflexivity). decide_R. reflexivity. }
  assert (DF : depends_on_frequency (of_points "KM" biased) = false).
  { unfold depends_on_frequency, of_points, biased. cbn [initial existsb at_frequency at_point]. decide_R. reflexivity. }
  assert (DB : depends_on_bias (of_points "KM" biased) = true).
  { unfold depends_on_bias, of_points, biased. cbn [initial existsb at_bias at_point]. decide_R. reflexivity. }
  assert (B : minimum_bias biased = Ok 0).
  { unfold minimum_bias, biased. cbn [least at_bias at_point]. decide_R. reflexivity. }
  rewrite DT, DF, DB, B. cbn [bind]. rewrite biased_curve, L. cbn [bind fst snd].
  assert (R : atleast1 (100 - 0 / 50) = 100) by (unfold atleast1; decide_R; lra). rewrite R.
  unfold pure_factor. rewrite biased_curve, L. cbn [bind]. decide_R. rewrite saturation_bias by exact DB. reflexivity.
Qed.
Theorem C153_bias_sign_refuted : forall spline samples amplitude family, straight spline ->
  exists c l h v w, with_points c l /\
    answer spline samples amplitude c None (Some h) None None family = Ok v /\
    answer spline samples amplitude c None (Some (- h)) None None family = Ok w /\ v = 80 /\ w = 120.
Proof.
  intros spline samples amplitude family S. exists (of_points "KM" biased), biased, 1000. do 2 eexists.
  split; [reflexivity|]. split; [apply biased_value; exact S|]. split; [apply biased_value; exact S|].
  unfold atleast1. split; decide_R; lra.
Qed.

(** A point without a figure the curve is made of is read without asking. *)
Theorem C153_missing_figure_refuted : forall spline samples amplitude family v w,
  exists e, answer spline samples amplitude
    (of_points "N" [at_point v (Some 25) (Some 1000) None; at_point w (Some 25) None None]) None None None None family = UB e.
Proof.
  intros spline samples amplitude family v w. exists "point without its figure"%string.
  rewrite (measured_value spline samples amplitude _ [at_point v (Some 25) (Some 1000) None; at_point w (Some 25) None None]) by (first [reflexivity | apply cold_of_points]).
  unfold pure, pure_reference.
  replace (depends_on_temperature _) with false
    by (unfold depends_on_temperature; cbn; replace (Rabs (25 - 25)) with 0 by (unfold Rminus; rewrite Rplus_opp_r, Rabs_R0; reflexivity); decide_R; reflexivity).
  replace (depends_on_frequency _) with true by (unfold depends_on_frequency; cbn; decide_R; reflexivity).
  change (minimum_frequency [at_point v (Some 25) (Some 1000) None; at_point w (Some 25) None None]) with (Ok 1000). cbn [bind].
  unfold curve, along, points_along, of_points. cbn [initial only].
  change (minimum_bias [at_point v (Some 25) (Some 1000) None; at_point w (Some 25) None None]) with (Ok 0). cbn [bind].
  assert (N : nearest_temperature [at_point v (Some 25) (Some 1000) None; at_point w (Some 25) None None] = Some 25).
  { unfold nearest_temperature. cbn [nearest at_temperature at_point]. decide_R. reflexivity. }
  rewrite N. cbn [filter at_temperature at_bias at_point at_most is_at]. decide_R. reflexivity.
Qed.

(** ** Witnesses *)

Example C153_witness_points : forall spline samples amplitude family, LossFactorProperties.passes spline ->
  answer spline samples amplitude (of_points "N87" twice_swept) None None None None family = Ok (4125 / 2) /\
  on_sweep Frequency twice_swept (at_point 1500 (Some 20) (Some 100000) None) /\ follows Frequency twice_swept /\
  ask_at spline samples amplitude (of_points "N87" twice_swept) Frequency 100000 family = Ok 1500.
Proof.
  intros spline samples amplitude family P.
  assert (A0 : answer spline samples amplitude (of_points "N87" twice_swept) None None None None family = Ok (4125 / 2)).
  { rewrite twice_value by exact P. cbv zeta. f_equal. lra. }
  assert (NB : forall p, least_of at_bias twice_swept p -> True) by auto.
  assert (NR : forall v f, nearest_of twice_swept (at_point v (Some 20) f None)).
  { intros v f x E q y Q Y. injection E as <-. unfold twice_swept in Q. simpl in Q.
    destruct Q as [<-|[<-|[<-|[<-|[]]]]]; simpl in Y; injection Y as <-; auto. right.
    rewrite Rabs_left, Rabs_right; lra. }
  assert (LB : forall v f, least_of at_bias twice_swept (at_point v (Some 20) f None)) by (intros v f x E; discriminate).
  assert (SW : forall v f, In (at_point v (Some 20) (Some f) None) twice_swept -> on_sweep Frequency twice_swept (at_point v (Some 20) (Some f) None)).
  { intros v f I. split; [exact I|]. split; [apply NR|apply LB]. }
  assert (FO : follows Frequency twice_swept).
  { exists (at_point 2000 (Some 20) (Some 10000) None), 10000. simpl. repeat split; auto. lra. }
  split; [exact A0|]. split; [apply SW; simpl; auto|]. split; [exact FO|].
  apply (C153_point spline samples amplitude Frequency (of_points "N87" twice_swept) twice_swept (at_point 1500 (Some 20) (Some 100000) None) 100000 family (4125 / 2)).
  - exact P.
  - reflexivity.
  - apply SW. simpl. auto.
  - reflexivity.
  - simpl. lra.
  - intros q Q K. unfold twice_swept in Q. simpl in Q. destruct Q as [<-|[<-|[<-|[<-|[]]]]]; simpl in K; try reflexivity; injection K as K; exfalso; lra.
  - exact FO.
  - right. exists (at_point 2000 (Some 20) (Some 10000) None), (at_point 1500 (Some 20) (Some 100000) None), (at_point 1000 (Some 20) (Some 500000) None), 10000, 100000, 500000.
    split; [apply SW; simpl; auto|]. split; [apply SW; simpl; auto|]. split; [apply SW; simpl; auto|]. simpl. repeat split; auto; lra.
  - intros H. discriminate.
  - exact A0.
  - lra.
  - eexists. unfold ask_at. cbn [only_at]. apply twice_value. exact P.
Qed.
Example C153_witness_spline : exists spline, LossFactorProperties.passes spline.
Proof.
  exists (fun t x => match find (fun p => if Req_EM_T (fst p) x then true else false) t with Some p => snd p | None => 0 end).
  intros t x y _ S H. induction t as [|[a b] t IH]; [contradiction|]. cbn [find fst snd]. inversion S as [|? ? S' F]; subst.
  destruct H as [H|H].
  - injection H as -> ->. destruct (Req_EM_T x x); [reflexivity|contradiction].
  - destruct (Req_EM_T a x) as [->|_]; [|apply IH; assumption]. rewrite Forall_forall in F. specialize (F _ H). simpl in F. lra.
Qed.
Example C154_witness : forall spline samples, (forall x, spline [(10000, 2000); (100000, 1500); (500000, 1000)] x = 2000 - x / 1000) ->
  exists f, drop_of spline samples (of_points "N87" twice_swept) (255 / 2000) (1 / 10) = Ok (Some f).
Proof.
  intros spline samples L. unfold drop_of, drop_frequency.
  assert (DF : depends_on_frequency (of_points "N87" twice_swept) = true).
  { unfold depends_on_frequency, of_points, twice_swept. cbn [initial existsb at_frequency at_point]. decide_R. reflexivity. }
  rewrite DF. cbn [initial of_points step].
  assert (F : minimum_frequency twice_swept = Ok 10000).
  { unfold minimum_frequency, twice_swept. cbn [least at_frequency at_point]. decide_R. reflexivity. }
  assert (G : maximum_frequency twice_swept = Ok (Some 500000)).
  { unfold maximum_frequency, twice_swept. cbn [greatest at_frequency at_point]. decide_R. reflexivity. }
  rewrite F, G. cbn [step].
  destruct (along_value spline samples (of_points "N87" twice_swept) nothing Frequency 10000 (honest_nothing samples _)) as (m1 & E1 & H1).
  unfold of_points in *. rewrite E1. rewrite twice_frequency, L. cbn [step].
  change 100%nat with (S 99). rewrite halve_step.
  destruct (along_value spline samples (of_points "N87" twice_swept) m1 Frequency ((500000 + 10000) / 2) H1) as (m2 & E2 & H2).
  unfold of_points in *. rewrite E2. rewrite twice_frequency, L. cbn [step].
  assert (A : atleast1 (2000 - 10000 / 1000) = 1990) by (unfold atleast1; decide_R; lra).
  assert (B : atleast1 (2000 - (500000 + 10000) / 2 / 1000) = 1745) by (unfold atleast1; decide_R; lra).
  rewrite A, B. destruct (Req_EM_T (1990 * (1 - 255 / 2000)) 0) as [Z|_]; [exfalso; lra|].
  destruct (Rlt_dec (Rabs (1745 - 1990 * (1 - 255 / 2000)) / (1990 * (1 - 255 / 2000))) (1 / 10)) as [_|N]; [eexists; reflexivity|].
  exfalso. apply N. rewrite Rabs_right by lra. lra.
Qed.

Print Assumptions C153_point.
Print Assumptions C154_crossing.
