(** * C152: permeability by the formulas of the makers *)
From Coq Require Import Reals List String Ascii Bool Lra Lia.
From Verif Require Import Base SizingModel SizingProofs CoreLossModel CoreLossProofs PermeabilityModel.
Import ListNotations.
Local Open Scope R_scope.
Local Open Scope outcome_scope.

(** ** Vocabulary *)

(** What is asked of a material with a formula, whatever the caches hold. *)
Definition answer (spline : list (R * R) -> R -> R) (samples : list R)
    (amplitude : material -> option R -> option R -> R -> outcome (option R))
    (c : material) (temperature bias frequency flux : option R) (family : option string) : outcome R :=
  fst (permeability spline samples amplitude nothing c temperature bias frequency flux family).
Definition with_formula (c : material) (p : point) : Prop := initial c = Formula p.

(** Coefficients that make the permeability fall with the bias: the makers publish
    them positive. *)
Definition sensible (m : modifier) : Prop :=
  match by_bias m with
  | None => True
  | Some f => 0 < bc f /\
      match method m with
      | Some Poco => 0 <= ba f /\ 0 < bb f
      | _ => 0 < ba f /\ 0 <= bb f
      end
  end.

(** ** The formula *)

Lemma ok_inj : forall (A : Type) (x y : A), Ok x = Ok y -> x = y.
Proof. intros A x y H. congruence. Qed.

Lemma thousandths_opp : forall x, thousandths (- x) = thousandths x.
Proof. intros x. unfold thousandths. rewrite Rabs_Ropp. reflexivity. Qed.
Lemma oersted_opp : forall x, oersted (- x) = oersted x.
Proof. intros x. unfold oersted. rewrite Rabs_Ropp. reflexivity. Qed.
Lemma thousandths_nonneg : forall x, 0 <= thousandths x.
Proof. intros x. unfold thousandths. pose proof (pos_INR (nround (Rabs x * 1000))). lra. Qed.
Lemma oersted_nonneg : forall x, 0 <= oersted x.
Proof. intros x. unfold oersted. pose proof (Rabs_pos x). lra. Qed.
Lemma thousandths_mono : forall x y, Rabs x <= Rabs y -> thousandths x <= thousandths y.
Proof.
  intros x y H. unfold thousandths. pose proof (Rabs_pos x).
  assert (nround (Rabs x * 1000) <= nround (Rabs y * 1000))%nat as L.
  { apply nround_ge; [lra|]. destruct (nround_bounds (Rabs x * 1000)); lra. }
  apply le_INR in L. lra.
Qed.
Lemma oersted_mono : forall x y, Rabs x <= Rabs y -> oersted x <= oersted y.
Proof. intros x y H. unfold oersted. lra. Qed.

(** The part of the formula that looks at the bias, and the rest. *)
Definition bias_law (k : maker) (f : bias_factor) (h : R) : outcome figure :=
  match k with
  | Magnetics => Ok (magnetics_bias f h)
  | Micrometals => micrometals_bias f h
  | Poco => poco_bias f h
  | Tdg => Ok (tdg_bias f h)
  | FairRite => Ok (Some 1)
  end.

Lemma fmul_1 : forall x, fmul x (Some 1) = x.
Proof. intros [x|]; simpl; [rewrite Rmult_1_r|]; reflexivity. Qed.
Lemma fmul_swap : forall a b c, fmul (fmul a b) c = fmul (fmul a c) b.
Proof. intros [a|] [b|] [c|]; simpl; try reflexivity. f_equal. ring. Qed.

Lemma formula_bias : forall p l family m k temperature h frequency flux v,
  modifiers p = Some l -> resolve l family = Ok m -> method m = Some k ->
  formula p temperature (Some h) frequency flux family = Ok v ->
  exists w b, formula p temperature None frequency flux family = Ok w /\
    (match by_bias m with Some f => bias_law k f h | None => Ok (Some 1) end) = Ok b /\ v = fmul w b.
Proof.
  intros p l family m k temperature h frequency flux v HL HR HK. unfold formula. rewrite HL, HR. cbn [bind]. rewrite HK.
  destruct k.
  - destruct (applied temperature (by_temperature m) magnetics_temperature) as [t|e| |]; cbn [bind]; try discriminate.
    destruct (applied frequency (by_frequency m) magnetics_frequency) as [f|e| |]; cbn [bind]; try discriminate.
    unfold applied. destruct (by_bias m) as [bf|]; cbn [bind]; intros H; apply ok_inj in H; subst v; do 2 eexists;
      (split; [reflexivity|]); (split; [reflexivity|]); rewrite ?fmul_1; reflexivity.
  - destruct (applied temperature (by_temperature m) micrometals_temperature) as [t|e| |]; cbn [bind]; try discriminate.
    unfold bias_law. unfold applied. destruct (by_bias m) as [bf|]; cbn [bind].
    + destruct (micrometals_bias bf h) as [b|e| |]; cbn [bind]; try discriminate.
      destruct flux as [x|], (by_flux m) as [xf|]; cbn [bind]; intros H; apply ok_inj in H; subst v; do 2 eexists;
      (split; [reflexivity|]); (split; [reflexivity|]); rewrite ?fmul_1; try apply fmul_swap; reflexivity.
    + destruct flux as [x|], (by_flux m) as [xf|]; cbn [bind]; intros H; apply ok_inj in H; subst v; do 2 eexists;
      (split; [reflexivity|]); (split; [reflexivity|]); rewrite ?fmul_1; reflexivity.
  - destruct (applied frequency (by_frequency m) (fun f x => Ok (poco_frequency f x))) as [f|e| |]; cbn [bind]; try discriminate.
    unfold applied, bias_law. destruct (by_bias m) as [bf|]; cbn [bind].
    + destruct (poco_bias bf h) as [b|e| |]; cbn [bind]; try discriminate. intros H; apply ok_inj in H; subst v; do 2 eexists;
      (split; [reflexivity|]); (split; [reflexivity|]); rewrite ?fmul_1; reflexivity.
    + intros H; apply ok_inj in H; subst v; do 2 eexists;
      (split; [reflexivity|]); (split; [reflexivity|]); rewrite ?fmul_1; reflexivity.
  - unfold applied, bias_law. destruct (by_bias m) as [bf|]; cbn [bind]; intros H; apply ok_inj in H; subst v; do 2 eexists;
      (split; [reflexivity|]); (split; [reflexivity|]); rewrite ?fmul_1; reflexivity.
  - destruct (applied temperature (by_temperature m) (fun f t => Ok (fair_rite_temperature f t))) as [t|e| |]; cbn [bind]; try discriminate.
    unfold bias_law. intros H. apply ok_inj in H. subst v. exists (fmul (Some (value p)) t), (Some 1).
    split; [reflexivity|]. split; [destruct (by_bias m); reflexivity|]. rewrite fmul_1. reflexivity.
Qed.

Lemma falling_pos : forall a b c x, 0 < a -> 0 <= b -> 0 < c -> 0 <= x ->
  falling a b c x = Some (a + b * pw x c) /\ 0 < a + b * pw x c.
Proof.
  intros a b c x A B C X. unfold falling. rewrite cpow_pw by assumption. split; [reflexivity|].
  pose proof (Rmult_le_pos b (pw x c) B (pw_nonneg x c)). lra.
Qed.

Lemma fdiv_some : forall a b, b <> 0 -> fdiv (Some a) (Some b) = Some (a / b).
Proof. intros a b H. unfold fdiv. destruct (Req_EM_T b 0); [contradiction|reflexivity]. Qed.

Lemma inverse_mono : forall a x y, 0 <= a -> 0 < x <= y -> a / y <= a / x.
Proof.
  intros a x y A H. unfold Rdiv. apply Rmult_le_compat_l; [exact A|]. apply Rinv_le_contravar; lra.
Qed.

Lemma bias_law_falls : forall m f k h1 h2 b1 b2, by_bias m = Some f -> method m = Some k -> sensible m ->
  Rabs h1 <= Rabs h2 -> bias_law k f h1 = Ok (Some b1) -> bias_law k f h2 = Ok (Some b2) -> b2 <= b1.
Proof.
  intros m f k h1 h2 b1 b2 HF HK S H. unfold sensible in S. rewrite HF, HK in S. destruct S as (C & S).
  pose proof (thousandths_mono _ _ H) as TM. pose proof (oersted_mono _ _ H) as OM.
  pose proof (thousandths_nonneg h1) as T1. pose proof (oersted_nonneg h1) as O1.
  pose proof (thousandths_nonneg h2) as T2. pose proof (oersted_nonneg h2) as O2.
  destruct k; cbn [bias_law].
  - destruct S as (A & B). unfold magnetics_bias.
    destruct (falling_pos _ _ _ _ A B C T1) as (-> & P1). destruct (falling_pos _ _ _ _ A B C T2) as (-> & P2).
    rewrite !fdiv_some by lra. intros E1 E2. apply ok_inj in E1, E2. injection E1 as <-. injection E2 as <-.
    apply inverse_mono; [lra|]. split; [exact P1|].
    pose proof (Rmult_le_compat_l _ _ _ B (pw_mono _ _ _ C (conj T1 TM))). lra.
  - destruct S as (A & B). unfold micrometals_bias. destruct (bd f) as [d|]; cbn [needed bind]; [|discriminate].
    destruct (falling_pos _ _ _ _ A B C T1) as (-> & P1). destruct (falling_pos _ _ _ _ A B C T2) as (-> & P2).
    rewrite !fdiv_some by lra. cbn [fadd fmul fmap2]. intros E1 E2. apply ok_inj in E1, E2. injection E1 as <-. injection E2 as <-.
    apply Rmult_le_compat_r; [lra|]. apply Rplus_le_compat_r.
    apply inverse_mono; [lra|]. split; [exact P1|].
    pose proof (Rmult_le_compat_l _ _ _ B (pw_mono _ _ _ C (conj T1 TM))). lra.
  - destruct S as (A & B). unfold poco_bias. destruct (bd f) as [d|]; cbn [needed bind]; [|discriminate].
    rewrite !fdiv_some by lra. unfold rolloff.
    assert (I : 0 < / bb f) by (apply Rinv_0_lt_compat; exact B).
    assert (Q1 : 0 <= oersted h1 / bb f) by (apply Rmult_le_pos; lra).
    assert (Q2 : 0 <= oersted h2 / bb f) by (apply Rmult_le_pos; lra).
    assert (QM : oersted h1 / bb f <= oersted h2 / bb f) by (apply Rmult_le_compat_r; lra).
    rewrite !cpow_pw by assumption. cbn [fadd fmul fmap2].
    pose proof (pw_nonneg (oersted h1 / bb f) (bc f)). pose proof (pw_nonneg (oersted h2 / bb f) (bc f)).
    rewrite !fdiv_some by lra. cbn [fmap2]. intros E1 E2. apply ok_inj in E1, E2. injection E1 as <-. injection E2 as <-.
    apply Rmult_le_compat_r; [lra|]. apply Rplus_le_compat_r. apply inverse_mono; [exact A|].
    pose proof (pw_mono _ _ _ C (conj Q1 QM)). lra.
  - destruct S as (A & B). unfold tdg_bias.
    destruct (falling_pos _ _ _ _ A B C O1) as (-> & P1). destruct (falling_pos _ _ _ _ A B C O2) as (-> & P2).
    rewrite !fdiv_some by lra. cbn [fmul fmap2]. intros E1 E2. apply ok_inj in E1, E2. injection E1 as <-. injection E2 as <-.
    apply Rmult_le_compat_r; [lra|].
    apply inverse_mono; [lra|]. split; [exact P1|].
    pose proof (Rmult_le_compat_l _ _ _ B (pw_mono _ _ _ C (conj O1 OM))). lra.
  - intros E1 E2. apply ok_inj in E1, E2. injection E1 as <-. injection E2 as <-. lra.
Qed.

(** ** C152 *)

Section C152.
Variable spline : list (R * R) -> R -> R.
Variable samples : list R.
Variable amplitude : material -> option R -> option R -> R -> outcome (option R).
Notation ask := (answer spline samples amplitude).

(** The direction of the bias does not matter. *)
Theorem C152_bias_sign : forall c p temperature h frequency flux family, with_formula c p ->
  ask c temperature (Some (- h)) frequency flux family = ask c temperature (Some h) frequency flux family.
Proof.
  intros c p temperature h frequency flux family W. unfold answer, permeability, plain. rewrite W.
  replace (formula p temperature (Some (- h)) frequency flux family)
    with (formula p temperature (Some h) frequency flux family); [reflexivity|].
  unfold formula. destruct (modifiers p) as [l|]; [|reflexivity].
  destruct (resolve l family) as [m| | |]; cbn [bind]; try reflexivity.
  destruct (method m) as [k|]; [|reflexivity].
  destruct k; unfold applied; destruct (by_bias m) as [f|]; try reflexivity;
    unfold magnetics_bias, micrometals_bias, poco_bias, tdg_bias; rewrite ?thousandths_opp, ?oersted_opp; reflexivity.
Qed.

(** Below the Curie temperature the answer is the formula, above it 1. *)
Definition cold (c : material) (temperature : option R) : Prop :=
  forall limit t, curie c = Some limit -> temperature = Some t -> t <= limit.
Lemma ask_formula : forall c p temperature h frequency flux family v, with_formula c p -> cold c temperature ->
  (ask c temperature h frequency flux family = Ok v <-> formula p temperature h frequency flux family = Ok (Some v)).
Proof.
  intros c p temperature h frequency flux family v W C. unfold answer, permeability, plain. rewrite W.
  destruct (formula p temperature h frequency flux family) as [r|e|e|]; cbn [step fst]; try (split; discriminate).
  cbv zeta.
  replace (match curie c with Some limit => match temperature with Some t => if Rlt_dec limit t then Some 1 else r | None => r end | None => r end)
    with r.
  - destruct r as [r|]; cbv beta iota; split; intros H; inversion H; reflexivity.
  - unfold cold in C. destruct (curie c) as [limit|]; [|reflexivity]. destruct temperature as [t|]; [|reflexivity].
    destruct (Rlt_dec limit t) as [L|]; [|reflexivity]. specialize (C limit t eq_refl eq_refl). lra.
Qed.

Theorem C152_curie : forall c p limit t h frequency flux family v, with_formula c p -> curie c = Some limit -> limit < t ->
  ask c (Some t) h frequency flux family = Ok v -> v = 1.
Proof.
  intros c p limit t h frequency flux family v W C L. unfold answer, permeability, plain. rewrite W, C.
  destruct (formula p (Some t) h frequency flux family) as [r|e|e|]; cbn [step fst]; try discriminate.
  destruct (Rlt_dec limit t); [|contradiction]. cbv beta iota zeta. intros H. inversion H. reflexivity.
Qed.

(** More bias never raises the permeability. *)
Theorem C152_bias_falls : forall c p l m temperature h1 h2 frequency flux family v0 v1 v2,
  with_formula c p -> modifiers p = Some l -> resolve l family = Ok m -> sensible m ->
  Rabs h1 <= Rabs h2 ->
  ask c temperature None frequency flux family = Ok v0 -> 0 <= v0 ->
  ask c temperature (Some h1) frequency flux family = Ok v1 ->
  ask c temperature (Some h2) frequency flux family = Ok v2 -> v2 <= v1.
Proof.
  intros c p l m temperature h1 h2 frequency flux family v0 v1 v2 W HL HR S H A0 N A1 A2.
  assert (D : (exists limit t, curie c = Some limit /\ temperature = Some t /\ limit < t) \/ cold c temperature).
  { unfold cold. destruct (curie c) as [limit|]; [|right; intros; discriminate].
    destruct temperature as [t|]; [|right; intros; discriminate].
    destruct (Rlt_le_dec limit t) as [L|L]; [left; exists limit, t; auto|right; intros; congruence]. }
  destruct D as [(limit & t & HC & -> & L)|D].
  - rewrite (C152_curie _ _ _ _ _ _ _ _ _ W HC L A1), (C152_curie _ _ _ _ _ _ _ _ _ W HC L A2). lra.
  - rewrite (ask_formula c p) in A0, A1, A2 by assumption.
    destruct (method m) as [k|] eqn:HK.
    + destruct (formula_bias _ _ _ _ _ _ _ _ _ _ HL HR HK A1) as (w1 & b1 & W1 & B1 & E1).
      destruct (formula_bias _ _ _ _ _ _ _ _ _ _ HL HR HK A2) as (w2 & b2 & W2 & B2 & E2).
      rewrite A0 in W1, W2. apply ok_inj in W1, W2. subst w1 w2.
      destruct b1 as [b1|]; [|discriminate]. destruct b2 as [b2|]; [|discriminate].
      cbn [fmul fmap2] in E1, E2. injection E1 as ->. injection E2 as ->.
      apply Rmult_le_compat_l; [exact N|].
      destruct (by_bias m) as [f|] eqn:HF; [eapply bias_law_falls; eassumption|].
      apply ok_inj in B1, B2. injection B1 as <-. injection B2 as <-. lra.
    + exfalso. unfold formula in A0. rewrite HL, HR in A0. cbn [bind] in A0. rewrite HK in A0. discriminate.
Qed.

(** ** What the coefficients mean *)

Lemma ask_ok : forall c p temperature h frequency flux family v, with_formula c p -> cold c temperature ->
  formula p temperature h frequency flux family = Ok (Some v) -> ask c temperature h frequency flux family = Ok v.
Proof. intros c p temperature h frequency flux family v W C H. apply (ask_formula c p); assumption. Qed.

Lemma cold_none : forall c, cold c None.
Proof. intros c limit t _ H. discriminate. Qed.

(** Without modifiers the permeability is the one of the point. *)
Theorem C152_no_modifiers : forall c p temperature h frequency flux family,
  with_formula c p -> modifiers p = None -> cold c temperature ->
  ask c temperature h frequency flux family = Ok (value p).
Proof.
  intros c p temperature h frequency flux family W M C. apply (ask_ok c p); [assumption..|].
  unfold formula. rewrite M. reflexivity.
Qed.

(** Magnetics: the bias counts to the thousandth, and the share left is
    1 / (100 (a + b h ^ c)). *)
Theorem C152_magnetics_bias : forall c p l m f h family,
  with_formula c p -> modifiers p = Some l -> resolve l family = Ok m -> method m = Some Magnetics -> by_bias m = Some f ->
  0 < ba f -> 0 <= bb f -> 0 < bc f ->
  exists x, 0 <= x /\ Rabs (x - Rabs h) <= 1 / 2000 /\
    ask c None (Some h) None None family = Ok (value p * (1 / 100 / (ba f + bb f * pw x (bc f)))).
Proof.
  intros c p l m f h family W HL HR HK HF A B C. exists (thousandths h). split; [apply thousandths_nonneg|]. split.
  - unfold thousandths. pose proof (Rabs_pos h). destruct (nround_bounds (Rabs h * 1000)) as (U & V); [lra|].
    apply Rabs_le. lra.
  - apply (ask_ok c p); [assumption|apply cold_none|]. unfold formula. rewrite HL, HR. cbn [bind]. rewrite HK. unfold applied.
    rewrite HF. cbn [bind]. unfold magnetics_bias.
    destruct (falling_pos _ _ _ _ A B C (thousandths_nonneg h)) as (-> & P). rewrite fdiv_some by lra. cbn [fmul fmap2].
    rewrite !Rmult_1_r. reflexivity.
Qed.

(** Micrometals: the same with an asymptote of d per cent. *)
Theorem C152_micrometals_bias : forall c p l m f d h family,
  with_formula c p -> modifiers p = Some l -> resolve l family = Ok m -> method m = Some Micrometals -> by_bias m = Some f ->
  bd f = Some d -> 0 < ba f -> 0 <= bb f -> 0 < bc f ->
  exists x, 0 <= x /\ Rabs (x - Rabs h) <= 1 / 2000 /\
    ask c None (Some h) None None family = Ok (value p * ((1 / (ba f + bb f * pw x (bc f)) + d) / 100)).
Proof.
  intros c p l m f d h family W HL HR HK HF D A B C. exists (thousandths h). split; [apply thousandths_nonneg|]. split.
  - unfold thousandths. pose proof (Rabs_pos h). destruct (nround_bounds (Rabs h * 1000)) as (U & V); [lra|].
    apply Rabs_le. lra.
  - apply (ask_ok c p); [assumption|apply cold_none|]. unfold formula. rewrite HL, HR. cbn [bind]. rewrite HK. unfold applied.
    rewrite HF. cbn [bind]. unfold micrometals_bias. rewrite D. cbn [needed bind].
    destruct (falling_pos _ _ _ _ A B C (thousandths_nonneg h)) as (-> & P). rewrite fdiv_some by lra. cbn [fadd fmul fmap2].
    do 2 f_equal. field. lra.
Qed.

(** Micrometals: with a frequency the value of the point no longer counts. *)
Theorem C152_micrometals_frequency : forall c p l m f x family,
  with_formula c p -> modifiers p = Some l -> resolve l family = Ok m -> method m = Some Micrometals ->
  by_frequency m = Some f -> 0 < fa f -> 0 <= fb f -> 0 < fc f -> 0 < x ->
  ask c None None (Some x) None family = Ok (1 / (fa f + fb f * Rpower x (fc f)) + fd f).
Proof.
  intros c p l m f x family W HL HR HK HF A B C X. apply (ask_ok c p); [assumption|apply cold_none|].
  unfold formula. rewrite HL, HR. cbn [bind]. rewrite HK, HF. unfold applied. cbn [bind]. unfold micrometals_frequency.
  destruct (falling_pos _ _ _ _ A B C (Rlt_le _ _ X)) as (-> & P). rewrite pw_pos_eq in * by exact X.
  rewrite fdiv_some by lra. cbn [fadd fmul fmap2]. rewrite !Rmult_1_r. reflexivity.
Qed.

(** Micrometals, short form: millionths per degree from 20 on. *)
Theorem C152_micrometals_temperature : forall c p l m f t family,
  with_formula c p -> modifiers p = Some l -> resolve l family = Ok m -> method m = Some Micrometals ->
  by_temperature m = Some f -> tb f = None -> cold c (Some t) ->
  ask c (Some t) None None None family = Ok (value p + value p * ta f * (t - 20) / 1000000).
Proof.
  intros c p l m f t family W HL HR HK HF HB C. apply (ask_ok c p); [assumption..|].
  unfold formula. rewrite HL, HR. cbn [bind]. rewrite HK, HF. unfold applied, micrometals_temperature. rewrite HB. cbn [bind].
  destruct (by_frequency m); cbn [fadd fmul fmap2 bind]; do 2 f_equal; field.
Qed.

(** Poco: at the corner, of the frequency or of the bias in oersted, half of the
    rolling share is left above the asymptote. *)
Lemma corner : forall a c d, 0 < c -> rolloff a c d (Some 1) = Some ((a / 2 + d) / 100).
Proof.
  intros a c d C. unfold rolloff. rewrite cpow_pos by lra. unfold Rpower. rewrite ln_1, Rmult_0_r, exp_0.
  cbn [fadd fmap2]. rewrite fdiv_some by lra. cbn [fmul fadd fmap2]. f_equal. field.
Qed.
Theorem C152_poco_corner : forall c p l m family,
  with_formula c p -> modifiers p = Some l -> resolve l family = Ok m -> method m = Some Poco ->
  (forall f, by_frequency m = Some f -> 0 < fb f -> 0 < fc f ->
    ask c None None (Some (fb f)) None family = Ok (value p * ((fa f / 2 + fd f) / 100))) /\
  (forall f d, by_bias m = Some f -> bd f = Some d -> 0 < bb f -> 0 < bc f ->
    ask c None (Some (bb f * (7957747 / 100000))) None None family = Ok (value p * ((ba f / 2 + d) / 100))).
Proof.
  intros c p l m family W HL HR HK. split.
  - intros f HF B C. apply (ask_ok c p); [assumption|apply cold_none|].
    unfold formula. rewrite HL, HR. cbn [bind]. rewrite HK, HF. unfold applied, poco_frequency. cbn [bind].
    rewrite fdiv_some by lra. replace (fb f / fb f) with 1 by (field; lra). rewrite corner by exact C.
    cbn [fmul fmap2]. rewrite !Rmult_1_r. reflexivity.
  - intros f d HF D B C. apply (ask_ok c p); [assumption|apply cold_none|].
    unfold formula. rewrite HL, HR. cbn [bind]. rewrite HK, HF. unfold applied, poco_bias. rewrite D. cbn [needed bind].
    rewrite fdiv_some by lra. unfold oersted. rewrite Rabs_right by lra.
    replace (bb f * (7957747 / 100000) / (7957747 / 100000) / bb f) with 1 by (field; lra). rewrite corner by exact C.
    cbn [fmul fmap2]. rewrite !Rmult_1_r. reflexivity.
Qed.

(** Poco: over the corner the rolling share of the frequency falls. *)
Theorem C152_poco_frequency : forall c p l m f x family,
  with_formula c p -> modifiers p = Some l -> resolve l family = Ok m -> method m = Some Poco ->
  by_frequency m = Some f -> 0 < fb f -> 0 < x ->
  ask c None None (Some x) None family =
    Ok (value p * ((fa f / (1 + Rpower (x / fb f) (fc f)) + fd f) / 100)).
Proof.
  intros c p l m f x family W HL HR HK HF B X. apply (ask_ok c p); [assumption|apply cold_none|].
  unfold formula. rewrite HL, HR. cbn [bind]. rewrite HK, HF. unfold applied, poco_frequency. cbn [bind].
  rewrite fdiv_some by lra. unfold rolloff. assert (Q : 0 < x / fb f) by (apply Rdiv_lt_0_compat; assumption).
  rewrite cpow_pos by exact Q. cbn [fadd fmap2]. assert (P : 0 < Rpower (x / fb f) (fc f)) by apply exp_pos.
  rewrite fdiv_some by lra. cbn [fmul fadd fmap2]. do 2 f_equal. field. lra.
Qed.

(** Micrometals: the correction for the flux density is the parallel of three terms, in per cent. *)
Theorem C152_micrometals_flux : forall c p l m f b family,
  with_formula c p -> modifiers p = Some l -> resolve l family = Ok m -> method m = Some Micrometals ->
  by_flux m = Some f -> 0 < b -> 0 < xa f -> 0 <= xb f -> 0 < xd f -> 0 < xf f ->
  exists k, 0 < k /\
    1 / k = 1 / (xa f + xb f * Rpower b (xc f)) + 1 / (xd f * Rpower b (xe f)) + 1 / xf f /\
    ask c None None None (Some b) family = Ok (value p * k / 100).
Proof.
  intros c p l m f b family W HL HR HK HF B A1 B1 D1 F1.
  assert (P1 : 0 < Rpower b (xc f)) by apply exp_pos. assert (P2 : 0 < Rpower b (xe f)) by apply exp_pos.
  assert (U : 0 < xa f + xb f * Rpower b (xc f)) by (pose proof (Rmult_le_pos _ _ B1 (Rlt_le _ _ P1)); lra).
  assert (V : 0 < xd f * Rpower b (xe f)) by (apply Rmult_lt_0_compat; assumption).
  set (u := xa f + xb f * Rpower b (xc f)) in *. set (v := xd f * Rpower b (xe f)) in *.
  assert (iu : 0 < 1 / u) by (apply Rdiv_lt_0_compat; lra). assert (iv : 0 < 1 / v) by (apply Rdiv_lt_0_compat; lra).
  assert (iw : 0 < 1 / xf f) by (apply Rdiv_lt_0_compat; lra).
  exists (1 / (1 / u + 1 / v + 1 / xf f)). split; [apply Rdiv_lt_0_compat; lra|]. split.
  { set (k := 1 / u + 1 / v + 1 / xf f) in *. field. unfold k. lra. }
  apply (ask_ok c p); [assumption|apply cold_none|].
  unfold formula. rewrite HL, HR. cbn [bind]. rewrite HK, HF. unfold applied, micrometals_flux, falling. cbn [bind].
  rewrite !cpow_pos by exact B. cbn [fadd fmul fmap2]. fold u v. unfold parallel.
  destruct (Req_EM_T u 0); [lra|]. destruct (Req_EM_T v 0); [lra|]. destruct (Req_EM_T (xf f) 0); [lra|].
  rewrite fdiv_some by lra. cbn [fmul fmap2]. do 2 f_equal. unfold Rdiv. ring.
Qed.

(** TDG: the bias in oersted. *)
Theorem C152_tdg_bias : forall c p l m f x family,
  with_formula c p -> modifiers p = Some l -> resolve l family = Ok m -> method m = Some Tdg -> by_bias m = Some f ->
  0 < ba f -> 0 <= bb f -> 0 < bc f -> 0 < x ->
  ask c None (Some (x * (7957747 / 100000))) None None family = Ok (value p / (100 * (ba f + bb f * Rpower x (bc f)))).
Proof.
  intros c p l m f x family W HL HR HK HF A B C X. apply (ask_ok c p); [assumption|apply cold_none|].
  unfold formula. rewrite HL, HR. cbn [bind]. rewrite HK, HF. unfold applied, tdg_bias. cbn [bind].
  unfold oersted. rewrite Rabs_right by lra. replace (x * (7957747 / 100000) / (7957747 / 100000)) with x by (field; lra).
  destruct (falling_pos _ _ _ _ A B C (Rlt_le _ _ X)) as (-> & P). rewrite pw_pos_eq in * by exact X.
  rewrite fdiv_some by lra. cbn [fmul fmap2]. do 2 f_equal. field. lra.
Qed.

(** Fair-Rite: a per cent per degree, from zero on. *)
Theorem C152_fair_rite_temperature : forall c p l m f t family,
  with_formula c p -> modifiers p = Some l -> resolve l family = Ok m -> method m = Some FairRite ->
  by_temperature m = Some f -> cold c (Some t) ->
  ask c (Some t) None None None family = Ok (value p + value p * ta f * t / 100).
Proof.
  intros c p l m f t family W HL HR HK HF C. apply (ask_ok c p); [assumption..|].
  unfold formula. rewrite HL, HR. cbn [bind]. rewrite HK, HF. unfold applied, fair_rite_temperature. cbn [bind fmul fmap2].
  do 2 f_equal. field.
Qed.

(** Magnetics: polynomials of the fourth degree, which need all their coefficients. *)
Theorem C152_magnetics_temperature : forall c p l m f t family,
  with_formula c p -> modifiers p = Some l -> resolve l family = Ok m -> method m = Some Magnetics ->
  by_temperature m = Some f -> cold c (Some t) ->
  (forall b k d e, tb f = Some b -> tc f = Some k -> td f = Some d -> te f = Some e ->
    ask c (Some t) None None None family
    = Ok (value p + value p * (ta f + b * t + k * (t * t) + d * (t * t * t) + e * (t * t * t * t)))) /\
  (tb f = None \/ tc f = None \/ td f = None \/ te f = None -> exists e, ask c (Some t) None None None family = Throw e).
Proof.
  intros c p l m f t family W HL HR HK HF C. split.
  - intros b k d e HB HC HD HE. apply (ask_ok c p); [assumption..|].
    unfold formula. rewrite HL, HR. cbn [bind]. rewrite HK, HF. unfold applied, magnetics_temperature.
    rewrite HB, HC, HD, HE. cbn [needed bind]. destruct (by_frequency m); cbn [bind fmul fmap2]; unfold polynomial;
      do 2 f_equal; ring.
  - intros H. exists "bad_optional_access"%string. unfold answer, permeability, plain. rewrite W.
    unfold formula. rewrite HL, HR. cbn [bind]. rewrite HK, HF. unfold applied, magnetics_temperature.
    destruct (tb f); [|reflexivity]. destruct (tc f); [|reflexivity]. destruct (td f); [|reflexivity].
    destruct (te f); [|reflexivity]. destruct H as [H|[H|[H|H]]]; discriminate.
Qed.
Theorem C152_magnetics_frequency : forall c p l m f x e family,
  with_formula c p -> modifiers p = Some l -> resolve l family = Ok m -> method m = Some Magnetics ->
  by_frequency m = Some f -> fe f = Some e ->
  ask c None None (Some x) None family
  = Ok (value p + value p * (fa f + fb f * x + fc f * (x * x) + fd f * (x * x * x) + e * (x * x * x * x))).
Proof.
  intros c p l m f x e family W HL HR HK HF HE. apply (ask_ok c p); [assumption|apply cold_none|].
  unfold formula. rewrite HL, HR. cbn [bind]. rewrite HK, HF. unfold applied, magnetics_frequency.
  rewrite HE. cbn [needed bind fmul fmap2]. unfold polynomial. do 2 f_equal. ring.
Qed.

(** The corrections multiply: for every maker but Micrometals. *)
Theorem C152_product : forall c p l m k t h x flux family vt vh vx v,
  with_formula c p -> modifiers p = Some l -> resolve l family = Ok m -> method m = Some k -> k <> Micrometals ->
  cold c (Some t) ->
  ask c (Some t) None None None family = Ok vt ->
  ask c None (Some h) None None family = Ok vh ->
  ask c None None (Some x) None family = Ok vx ->
  ask c (Some t) (Some h) (Some x) flux family = Ok v ->
  v * value p * value p = vt * vh * vx.
Proof.
  intros c p l m k t h x flux family vt vh vx v W HL HR HK N C.
  rewrite !(ask_formula c p) by first [assumption | apply cold_none].
  unfold formula. rewrite HL, HR. cbn [bind]. rewrite HK. destruct k; try contradiction; unfold applied.
  - destruct (match by_temperature m with Some f => magnetics_temperature f t | None => Ok (Some 1) end) as [[T|]| | |];
      destruct (by_bias m) as [bf|]; cbn [bind fmul fmap2];
      try (destruct (magnetics_bias bf h) as [B|]; cbn [bind fmul fmap2]);
      destruct (match by_frequency m with Some f => magnetics_frequency f x | None => Ok (Some 1) end) as [[F|]| | |];
      cbn [bind fmul fmap2]; intros E1 E2 E3 E4; try discriminate;
      injection E1 as <-; injection E2 as <-; injection E3 as <-; injection E4 as <-; ring.
  - destruct (by_frequency m) as [ff|]; cbn [bind]; try (destruct (poco_frequency ff x) as [F|]);
      destruct (match by_bias m with Some f => poco_bias f h | None => Ok (Some 1) end) as [[B|]| | |];
      cbn [bind fmul fmap2]; intros E1 E2 E3 E4; try discriminate;
      injection E1 as <-; injection E2 as <-; injection E3 as <-; injection E4 as <-; ring.
  - destruct (by_bias m) as [bf|]; cbn [bind fmul fmap2];
      try (destruct (tdg_bias bf h) as [B|]; cbn [bind fmul fmap2]); intros E1 E2 E3 E4; try discriminate;
      injection E1 as <-; injection E2 as <-; injection E3 as <-; injection E4 as <-; ring.
  - destruct (by_temperature m) as [f|]; cbn [bind]; unfold fair_rite_temperature; cbn [fmul fmap2]; intros E1 E2 E3 E4;
      injection E1 as <-; injection E2 as <-; injection E3 as <-; injection E4 as <-; ring.
Qed.
End C152.
