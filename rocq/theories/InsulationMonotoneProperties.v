(** Property C55: higher working voltages never ask for less insulation. *)
From Coq Require Import ZArith QArith Qround Qabs List String Bool Lia Lqa Sorting.Sorted.
From Verif Require Import Base QAux InsulationModel InsulationData InsulationProofs InsulationProperties.
Import ListNotations.
Open Scope Q_scope.

(** The same design at working voltages that are not lower. *)
Definition raised (i j : inputs) : Prop :=
  i_insulation j = i_insulation i /\ i_wiring j = i_wiring i /\ i_sides j = i_sides i /\
  i_ratios j = i_ratios i /\ i_freq j = i_freq i /\
  i_vrms i <= i_vrms j /\ i_vrms0 i <= i_vrms0 j /\
  i_vpeak i <= i_vpeak j /\ i_vpeak0 i <= i_vpeak0 j.

(** Tables whose requirements grow with the voltage: values not below zero that
    do not decrease, and for the interpolated ones at least two rows in strictly
    increasing order. *)
Definition growing (t : table) : Prop := nondecreasing t /\ Forall (fun r => 0 <= snd r) t.
Definition curve (t : table) : Prop := growing t /\ (2 <= List.length t)%nat /\ ascending t.

Fixpoint frequencies_rise (prev : Q) (m : list (Q * table)) : Prop :=
  match m with [] => True | (f, _) :: rest => prev < f /\ frequencies_rise f rest end.

Record regular (D : standards_data) : Prop := mk_regular {
  reg_F1 : forall c, growing (F1 (d60664 D) c);
  reg_F2 : forall p, growing (F2 (d60664 D) p);
  reg_F8 : growing (F8 (d60664 D));
  reg_A2 : curve (A2 (d60664 D));
  reg_U10 : forall d p, curve (U10 (d62368 D) d p);
  reg_U11 : forall d, curve (U11 (d62368 D) d);
  reg_U14 : forall d p, curve (U14 (d62368 D) d p);
  reg_U17 : forall p g, curve (U17 (d62368 D) p g);
  reg_U18 : Forall (fun ft => curve (snd ft)) (U18 (d62368 D));
  reg_U25 : forall d, curve (U25 (d62368 D) d);
  reg_U26 : forall d, curve (U26 (d62368 D) d);
  reg_G13 : forall d, curve (UG13 (d62368 D) d);
  reg_V14 : forall c ty, curve (V14 (d61558 D) c ty);
  reg_V21 : forall g ty p, ty <> FUNCTIONAL -> curve (V21 (d61558 D) g ty p);
  reg_V22 : forall ty, ty <> FUNCTIONAL -> ty <> BASIC -> curve (V22thin (d61558 D) ty);
  reg_V105 : forall d p, Forall (fun ft => curve (snd ft)) (V105 (d61558 D) d p) /\
                         frequencies_rise 30000 (V105 (d61558 D) d p);
  reg_W7 : forall ty t, W7 (d60335 D) ty = Some t -> growing t;
  reg_W19 : forall c, growing (W19 (d60335 D) c) }.

(** ** The bundled tables are regular *)

Definition values_ok (t : table) : bool := forallb (fun r => Qle_bool 0 (snd r)) t.
Fixpoint steps (cmp : row -> row -> bool) (t : table) : bool :=
  match t with
  | [] => true
  | r :: rest => match rest with [] => true | s :: _ => cmp r s && steps cmp rest end
  end.
Definition growing_b (t : table) : bool :=
  steps (fun r s => Qle_bool (snd r) (snd s)) t && values_ok t.
Definition curve_b (t : table) : bool :=
  growing_b t && Nat.leb 2 (List.length t) && steps (fun r s => Qlt_bool (fst r) (fst s)) t.

Lemma steps_sorted : forall (R : row -> row -> Prop) cmp, (forall r s u, R r s -> R s u -> R r u) ->
  (forall r s, cmp r s = true -> R r s) -> forall t, steps cmp t = true -> StronglySorted R t.
Proof.
  intros R cmp TR CR t H. apply Sorted_StronglySorted; [intros a b c; apply TR|].
  induction t as [|r t IH]; [constructor|]. destruct t as [|s t].
  - repeat constructor.
  - change (cmp r s && steps cmp (s :: t) = true) in H. apply andb_prop in H. destruct H as (H1 & H2).
    constructor; [apply IH; exact H2|]. constructor. apply CR. exact H1.
Qed.

Lemma growing_sound : forall t, growing_b t = true -> growing t.
Proof.
  intros t H. apply andb_prop in H. destruct H as (H1 & H2). split.
  - eapply steps_sorted; [| |exact H1].
    + intros r s u A B. eapply Qle_trans; eassumption.
    + intros r s A. apply Qle_true. exact A.
  - apply Forall_forall. intros r I. unfold values_ok in H2. rewrite forallb_forall in H2.
    apply Qle_true. apply H2. exact I.
Qed.

Lemma curve_sound : forall t, curve_b t = true -> curve t.
Proof.
  intros t H. apply andb_prop in H. destruct H as (H & H3). apply andb_prop in H. destruct H as (H1 & H2).
  split; [apply growing_sound; exact H1|]. split; [apply Nat.leb_le; exact H2|].
  eapply steps_sorted; [| |exact H3].
  - intros r s u A B. eapply Qlt_trans; eassumption.
  - intros r s A. apply Qlt_true. exact A.
Qed.

Lemma curves_sound : forall m : list (Q * table), forallb (fun ft => curve_b (snd ft)) m = true ->
  Forall (fun ft => curve (snd ft)) m.
Proof.
  intros m H. rewrite forallb_forall in H. apply Forall_forall. intros ft I. apply curve_sound. apply H. exact I.
Qed.

Theorem C55_bundled_tables_are_regular : forall skin, regular (bundled skin).
Proof.
  intro skin. constructor.
  - intros []; apply growing_sound; vm_compute; reflexivity.
  - intros []; apply growing_sound; vm_compute; reflexivity.
  - apply growing_sound; vm_compute; reflexivity.
  - apply curve_sound; vm_compute; reflexivity.
  - intros [] []; apply curve_sound; vm_compute; reflexivity.
  - intros []; apply curve_sound; vm_compute; reflexivity.
  - intros [] []; apply curve_sound; vm_compute; reflexivity.
  - intros [] []; apply curve_sound; vm_compute; reflexivity.
  - apply curves_sound; vm_compute; reflexivity.
  - intros []; apply curve_sound; vm_compute; reflexivity.
  - intros []; apply curve_sound; vm_compute; reflexivity.
  - intros []; apply curve_sound; vm_compute; reflexivity.
  - intros [] []; apply curve_sound; vm_compute; reflexivity.
  - intros [] [] [] N; try congruence; apply curve_sound; vm_compute; reflexivity.
  - intros [] N M; try congruence; apply curve_sound; vm_compute; reflexivity.
  - intros [] []; (split; [apply curves_sound; vm_compute; reflexivity | vm_compute; repeat split]).
  - intros [] t H; vm_compute in H; try discriminate; injection H as <-; apply growing_sound; vm_compute; reflexivity.
  - intros []; apply growing_sound; vm_compute; reflexivity.
Qed.

(** ** Monotone computations *)

Definition below (m n : outcome Q) : Prop := forall a b, m = Ok a -> n = Ok b -> a <= b.

Lemma below_ok : forall a b, a <= b -> below (Ok a) (Ok b).
Proof. intros a b H x y E F. congruence. Qed.

Lemma below_refl : forall m, below m m.
Proof. intros m a b E F. assert (a = b) by congruence. subst. apply Qle_refl. Qed.

Lemma below_bind : forall m n (f g : Q -> outcome Q), below m n ->
  (forall a b, m = Ok a -> n = Ok b -> a <= b -> below (f a) (g b)) -> below (bind m f) (bind n g).
Proof.
  intros m n f g H K a b E F. destruct m as [x| | |]; try discriminate. destruct n as [y| | |]; try discriminate.
  cbn [bind] in *. exact (K x y eq_refl eq_refl (H x y eq_refl eq_refl) a b E F).
Qed.

Lemma below_bind_same : forall (A : Type) (m : outcome A) (f g : A -> outcome Q),
  (forall a, m = Ok a -> below (f a) (g a)) -> below (bind m f) (bind m g).
Proof.
  intros A m f g K a b E F. destruct m as [x| | |]; try discriminate. cbn [bind] in *.
  exact (K x eq_refl a b E F).
Qed.

Lemma below_if : forall c m n m' n', below m m' -> below n n' ->
  below (if c : bool then m else n) (if c then m' else n').
Proof. intros [] m n m' n' A B; assumption. Qed.

Lemma cmax_mono : forall a b c d, a <= c -> b <= d -> cmax a b <= cmax c d.
Proof.
  intros a b c d H K. apply cmax_lub.
  - eapply Qle_trans; [exact H | apply cmax_ge_l].
  - eapply Qle_trans; [exact K | apply cmax_ge_r].
Qed.

Lemma below_interp : forall t x y, curve t -> x <= y -> below (interp t x) (interp t y).
Proof.
  intros t x y ((N & _) & L & A) H a b E F. exact (C13_monotone t x y a b L A N H E F).
Qed.

Lemma interp_nonneg : forall t x y, curve t -> interp t x = Ok y -> 0 <= y.
Proof.
  intros [|r t] x y ((N & P) & L & A) E; [simpl in L; lia|].
  assert (U : usable (r :: t)) by (split; assumption).
  pose proof (interp_floor _ _ _ _ U N E). inversion P; subst. lra.
Qed.

Lemma below_lookup_le : forall t x y w, growing t -> x <= y ->
  below (or_throw (lookup_le t x) w) (or_throw (lookup_le t y) w).
Proof.
  intros t x y w (N & _) H a b E F.
  destruct (lookup_le t x) as [u|] eqn:X; [|discriminate].
  destruct (lookup_le t y) as [v|] eqn:Y; [|discriminate].
  cbn [or_throw] in *. injection E as <-. injection F as <-.
  exact (lookup_le_mono t x y u v N H X Y).
Qed.

Lemma ceilFloat_mono : forall x y d, x <= y -> ceilFloat x d <= ceilFloat y d.
Proof.
  intros x y d H. pose proof (p10_pos d) as P. unfold ceilFloat.
  rewrite (Qdiv_le_iff _ _ _ P).
  assert (E : inject_Z (Qceiling (y * p10 d)) / p10 d * p10 d == inject_Z (Qceiling (y * p10 d))) by (field; lra).
  rewrite E. rewrite <- Zle_Qle. apply Qceiling_resp_le. nra.
Qed.

Lemma ceilFloat_lub : forall x z d, x <= inject_Z z / p10 d -> ceilFloat x d <= inject_Z z / p10 d.
Proof.
  intros x z d H. pose proof (p10_pos d) as P. unfold ceilFloat.
  rewrite (Qdiv_le_iff _ _ _ P).
  assert (E : inject_Z z / p10 d * p10 d == inject_Z z) by (field; lra).
  rewrite E. rewrite <- Zle_Qle. apply (Qle_div_iff _ _ _ P) in H.
  rewrite <- (Qceiling_Z z). apply Qceiling_resp_le. exact H.
Qed.

Lemma round_clearance_mono : forall x y, x <= y -> round_clearance x <= round_clearance y.
Proof.
  intros x y H. unfold round_clearance. dlt x (5 # 1000); dlt y (5 # 1000).
  - apply ceilFloat_mono. exact H.
  - assert (A : ceilFloat x 5 <= 5 # 1000).
    { assert (EQ : 5 # 1000 == inject_Z 500 / p10 5) by reflexivity. rewrite EQ.
      apply ceilFloat_lub. rewrite <- EQ. lra. }
    pose proof (ceilFloat_ge y 4). lra.
  - lra.
  - apply ceilFloat_mono. exact H.
Qed.

(** ** Withstand voltages *)

Section Regular.
Variable D : standards_data.
Hypothesis R : regular D.
Variables i j : inputs.
Variable q : requirements.
Hypothesis RJ : raised i j.

Ltac raise := destruct RJ as (HI & HW & HS & HT & HF & V1 & V2 & V3 & V4).

Lemma impulse_below : below (rated_impulse_60664 (d60664 D) (q_category q) (i_vrms i) (q_type q))
  (rated_impulse_60664 (d60664 D) (q_category q) (i_vrms j) (q_type q)).
Proof.
  raise. unfold rated_impulse_60664. destruct (strong (q_type q)).
  - intros a b E F. destruct (reg_F1 _ R (q_category q)) as (N & P).
    destruct (lookup_next _ (i_vrms i)) as [[x bx]|] eqn:X; [|discriminate].
    destruct (lookup_next _ (i_vrms j)) as [[y by_]|] eqn:Y; [|discriminate].
    destruct (lookup_next_mono _ _ _ _ _ _ _ N V1 X Y) as (XY & FL).
    destruct (lookup_next_In _ _ _ _ X) as (r & IR & ER).
    rewrite Forall_forall in P. specialize (P r IR). rewrite <- ER in P.
    destruct bx.
    + destruct (FL eq_refl) as (-> & ->). injection E as <-. injection F as <-. apply Qle_refl.
    + injection E as <-. destruct by_; injection F as <-; lra.
  - apply below_lookup_le; [apply (reg_F1 _ R) | exact V1].
Qed.

Lemma withstand_below : forall s,
  below (required_by D Withstand i q s) (required_by D Withstand j q s).
Proof.
  pose proof impulse_below as IB. raise. intros []; cbn [required_by].
  - unfold withstand_60335. destruct (q_type q) eqn:TY; [apply below_refl| | | |].
    all: apply below_bind;
      [ unfold withstand_7;
        match goal with |- context [W7 (d60335 D) ?ty] =>
          destruct (W7 (d60335 D) ty) as [t|] eqn:W; [|apply below_refl];
          apply below_lookup_le; [exact (reg_W7 _ R _ _ W) | apply cmax_mono; [apply Qle_refl | exact V2]] end
      | intros a b _ _ AB; apply below_ok; apply cmax_mono; [exact AB | cbn [withstand_formula_7]; lra] ].
  - unfold withstand_60664. apply below_bind; [exact IB|]. intros a b _ _ AB. apply below_ok.
    assert (S2 : 0 < sqrt2) by reflexivity.
    apply cmax_mono; [exact AB|]. destruct (strong (q_type q)).
    + apply cmax_mono; [lra|]. apply cmax_mono; [|exact V3].
      assert (sqrt2 * i_vrms i <= sqrt2 * i_vrms j) by nra. lra.
    + apply cmax_mono; [lra|]. apply cmax_mono; [|exact V3].
      assert (sqrt2 * i_vrms i <= sqrt2 * i_vrms j) by nra. lra.
  - unfold withstand_61558. apply below_bind_same. intros _ _.
    apply below_bind; [apply below_interp; [apply (reg_V14 _ R) | exact V1]|].
    intros a b _ _ AB. rewrite HF. apply below_ok.
    destruct (Qlt_bool maximum_standard_frequency (i_freq i)); [|exact AB].
    apply cmax_mono; [exact AB | lra].
  - unfold withstand_62368. apply below_bind; [apply below_interp; [apply (reg_U25 _ R) | exact V3]|].
    intros a b _ _ AB. apply below_bind; [apply below_interp; [apply (reg_U26 _ R) | exact V3]|].
    intros c d _ _ CD. apply below_bind_same. intros x _. apply below_ok.
    apply cmax_mono; [exact AB|]. apply cmax_mono; [exact CD | apply Qle_refl].
Qed.

(** ** Distance through insulation *)

Lemma over_below : below (dti_over_30kHz (i_vrms i)) (dti_over_30kHz (i_vrms j)).
Proof. raise. intros a b A B. exact (C14_monotone _ _ a b V1 A B). Qed.

Lemma dti_below : forall s, below (required_by D Dti i q s) (required_by D Dti j q s).
Proof.
  pose proof over_below as OB. raise. intros []; cbn [required_by].
  - unfold dti_60335. apply below_bind_same. intros _ _.
    destruct (q_type q); try apply below_refl.
    apply below_bind.
    + apply below_lookup_le; [apply (reg_W19 _ R) | apply cmax_mono; [apply Qle_refl | exact V2]].
    + intros a b _ _ AB. apply below_ok. apply cmax_mono; [apply Qle_refl | exact AB].
  - unfold dti_60664. rewrite HF. apply below_bind.
    + destruct (Qlt_bool maximum_standard_frequency (i_freq i)); [|apply below_refl].
      apply below_bind; [exact OB|]. intros a b _ _ AB. apply below_ok.
      apply cmax_mono; [apply Qle_refl | exact AB].
    + intros a b _ _ AB. apply below_ok. apply ceilFloat_mono. exact AB.
  - unfold dti_61558. apply below_bind_same. intros _ _.
    destruct (class_eqb (q_type q) FUNCTIONAL) eqn:CF; [apply below_refl|].
    rewrite HF. apply below_bind.
    + unfold dti_22. rewrite CF. destruct (class_eqb (q_type q) BASIC) eqn:CB.
      * rewrite !orb_true_r. apply below_refl.
      * rewrite !orb_false_r.
        assert (CV : curve (V22thin (d61558 D) (q_type q))).
        { apply (reg_V22 _ R); intro E; rewrite E in *; discriminate. }
        dlt (i_vrms i) minimum_working_voltage; dlt (i_vrms j) minimum_working_voltage.
        -- apply below_refl.
        -- intros a b EA F. injection EA as <-. exact (interp_nonneg _ _ _ CV F).
        -- lra.
        -- apply below_interp; assumption.
    + intros a b _ _ AB. apply below_bind.
      * destruct (Qlt_bool maximum_standard_frequency (i_freq i)); [|apply below_ok; exact AB].
        apply below_bind; [exact OB|]. intros x y _ _ XY. apply below_ok. apply cmax_mono; assumption.
      * intros x y _ _ XY. apply below_ok. apply ceilFloat_mono. exact XY.
  - unfold dti_62368. rewrite HF.
    dle (i_vrms i) (es2_voltage_limit (i_freq i)); dle (i_vrms j) (es2_voltage_limit (i_freq i)).
    + apply below_refl.
    + destruct (q_type q); apply below_ok; lra.
    + lra.
    + destruct (q_type q); apply below_ok; lra.
Qed.

(** ** Clearance and creepage *)

Lemma clearance_62368_below :
  below (required_by D Clearance i q IEC_623681) (required_by D Clearance j q IEC_623681).
Proof.
  raise. cbn [required_by]. unfold clearance_62368. rewrite HW, HF.
  destruct (is_printed (i_wiring i)).
  - unfold distance_G13. apply below_bind; [apply below_interp; [apply (reg_G13 _ R) | exact V3]|].
    intros a b _ _ AB. apply below_ok. apply ceilFloat_mono. exact AB.
  - apply below_bind.
    + apply below_if.
      * unfold clearance_10. apply below_bind.
        -- apply below_interp; [apply (reg_U10 _ R)|]. apply cmax_mono; [exact V3|].
           apply cmax_mono; [exact V3 | apply Qle_refl].
        -- intros a b _ _ AB. apply below_ok. apply round_clearance_mono. exact AB.
      * unfold clearance_11. apply below_bind; [apply below_interp; [apply (reg_U11 _ R) | exact V3]|].
        intros a b _ _ AB. apply below_ok. apply round_clearance_mono. destruct (q_pollution q); lra.
    + intros a b _ _ AB. apply below_bind_same. intros m _. apply below_bind.
      * unfold clearance_14. apply below_bind.
        -- apply below_interp; [apply (reg_U14 _ R)|]. apply cmax_mono; [exact V3 | apply Qle_refl].
        -- intros x y _ _ XY. apply below_ok. apply round_clearance_mono. exact XY.
      * intros x y _ _ XY. apply below_bind_same. intros f HFac. apply below_ok. apply ceilFloat_mono.
        assert (F0 : 0 <= f).
        { unfold altitude_factor in HFac. destruct (interp _ _) as [z| | |]; try discriminate.
          cbn [bind] in HFac. injection HFac as <-.
          pose proof (ceilFloat_ge (cmax 1 z) 5). pose proof (cmax_ge_l 1 z). lra. }
        pose proof (cmax_mono _ _ _ _ AB XY). set (u := cmax a x) in *. set (v := cmax b y) in *. nra.
Qed.

Lemma creepage_62368_below : forall c,
  below (required_by D (Creepage c) i q IEC_623681) (required_by D (Creepage c) j q IEC_623681).
Proof.
  intro c. pose proof clearance_62368_below as CB. raise. cbn [required_by] in *.
  unfold creepage_62368. rewrite HW, HF. destruct (is_printed (i_wiring i)) eqn:W.
  - unfold clearance_62368 in CB. rewrite HW, W in CB. exact CB.
  - assert (C17 : below (creepage_17 (d62368 D) (i_vrms i) (q_type q) (q_pollution q) (q_cti q))
                        (creepage_17 (d62368 D) (i_vrms j) (q_type q) (q_pollution q) (q_cti q))).
    { unfold creepage_17. apply below_bind; [apply below_interp; [apply (reg_U17 _ R) | exact V1]|].
      intros a b _ _ AB. apply below_ok. destruct (strong (q_type q)); apply ceilFloat_mono; lra. }
    apply below_bind.
    + apply below_if; [exact C17|]. apply below_bind; [exact C17|]. intros a b _ _ AB.
      apply below_bind; [|intros x y _ _ XY; apply below_ok; apply cmax_mono; assumption].
      unfold creepage_18.
      assert (FT : forall m prev t, Forall (fun ft => curve (snd ft)) m ->
        find_table_18 m prev (i_freq i) = Some t -> curve t).
      { induction m as [|(f, t) m IH]; intros prev t' P E; [discriminate|]. cbn [find_table_18] in E.
        inversion P; subst. destruct ((Qle_bool prev (i_freq i) && Qle_bool (i_freq i) f) || Qeq_bool f 400000).
        - injection E as <-. assumption.
        - exact (IH _ _ H2 E). }
      destruct (find_table_18 (U18 (d62368 D)) maximum_standard_frequency (i_freq i)) as [t|] eqn:E; [|apply below_refl].
      pose proof (FT _ _ _ (reg_U18 _ R) E) as CV.
      apply below_bind; [apply below_interp; [exact CV | exact V1]|].
      intros x y _ _ XY. destruct (Qeq_bool x DBL_MAX); [intros ? ? H; discriminate|].
      destruct (Qeq_bool y DBL_MAX); [intros ? ? _ H; discriminate|].
      apply below_ok. destruct (strong (q_type q)), (q_pollution q); apply ceilFloat_mono; cbn [pollution_factor]; lra.
    + intros a b _ _ AB. apply below_if; [|apply below_ok; exact AB].
      apply below_bind; [exact CB|]. intros x y _ _ XY. apply below_ok. apply cmax_mono; assumption.
Qed.

Lemma by_frequency_below : forall f v w m prev prevt,
  v <= w -> Forall (fun ft => curve (snd ft)) m -> frequencies_rise prev m -> (prevt = [] \/ curve prevt) ->
  below (by_frequency m prev prevt v f) (by_frequency m prev prevt w f).
Proof.
  intros f v w. induction m as [|(sf, t) m IH]; intros prev prevt VW P FR OR; [apply below_refl|].
  cbn [by_frequency]. inversion P as [|? ? CT PM]; subst. cbn [snd] in CT. destruct FR as (LT & FR).
  destruct (Qle_bool prev f && Qle_bool f sf) eqn:IN.
  - apply andb_prop in IN. destruct IN as (I1 & I2). apply Qle_true in I1. apply Qle_true in I2.
    apply below_bind; [apply below_interp; assumption|]. intros a b _ _ AB.
    destruct prevt as [|r prevt]; [apply below_ok; exact AB|].
    destruct OR as [|CP]; [discriminate|].
    apply below_bind; [apply below_interp; assumption|]. intros x y _ _ XY. apply below_ok.
    unfold lerp. destruct (proportion_bounds _ _ _ LT I1 I2) as (Q1 & Q2).
    set (p := (f - prev) / (sf - prev)) in *. clearbody p. nra.
  - apply IH; try assumption. right. exact CT.
Qed.

Lemma by_frequency_nonneg : forall f v m prev prevt y,
  Forall (fun ft => curve (snd ft)) m -> frequencies_rise prev m -> (prevt = [] \/ curve prevt) ->
  by_frequency m prev prevt v f = Ok y -> 0 <= y.
Proof.
  intros f v. induction m as [|(sf, t) m IH]; intros prev prevt y P FR OR E; [discriminate|].
  cbn [by_frequency] in E. inversion P as [|? ? CT PM]; subst. cbn [snd] in CT. destruct FR as (LT & FR).
  destruct (Qle_bool prev f && Qle_bool f sf) eqn:IN; [|apply (IH sf t y); auto].
  apply andb_prop in IN. destruct IN as (I1 & I2). apply Qle_true in I1. apply Qle_true in I2.
  destruct (interp t v) as [a| | |] eqn:A; try discriminate. cbn [bind] in E.
  pose proof (interp_nonneg _ _ _ CT A).
  destruct prevt as [|r prevt]; [injection E as <-; assumption|].
  destruct OR as [|CP]; [discriminate|].
  destruct (interp (r :: prevt) v) as [x| | |] eqn:X; try discriminate. cbn [bind] in E.
  pose proof (interp_nonneg _ _ _ CP X).
  injection E as <-. unfold lerp. destruct (proportion_bounds _ _ _ LT I1 I2) as (Q1 & Q2).
  set (p := (f - prev) / (sf - prev)) in *. clearbody p. nra.
Qed.

Lemma creepage_61558_below :
  below (required_by D (Creepage false) i q IEC_615581) (required_by D (Creepage false) j q IEC_615581).
Proof.
  raise. cbn [required_by]. unfold creepage_61558. rewrite HW, HF. apply below_bind_same. intros _ _.
  destruct (class_eqb (q_type q) FUNCTIONAL) eqn:CF; [apply below_refl|].
  set (p := if is_printed (i_wiring i) then PD1 else q_pollution q). apply below_bind.
  - unfold creepage_21. rewrite CF, !orb_false_r.
    assert (CV : curve (V21 (d61558 D) (q_cti q) (q_type q) p)).
    { apply (reg_V21 _ R). intro E. rewrite E in CF. discriminate. }
    dlt (i_vrms i) minimum_working_voltage; dlt (i_vrms j) minimum_working_voltage.
    + apply below_refl.
    + intros a b EA F. injection EA as <-. exact (interp_nonneg _ _ _ CV F).
    + lra.
    + apply below_interp; assumption.
  - intros a b _ _ AB. apply below_bind.
    + apply below_if; [|apply below_ok; exact AB]. apply below_bind.
      * unfold creepage_over_30kHz_61558. rewrite CF, !orb_false_r.
        destruct (reg_V105 _ R (degree_of (q_type q)) p) as (P & FR).
        dlt (i_vpeak i) minimum_working_voltage; dlt (i_vpeak j) minimum_working_voltage.
        -- apply below_refl.
        -- intros x y EA F. injection EA as <-.
           eapply by_frequency_nonneg; [exact P | exact FR | left; reflexivity | exact F].
        -- lra.
        -- apply by_frequency_below; auto.
      * intros x y _ _ XY. apply below_ok. apply cmax_mono; assumption.
    + intros x y _ _ XY. apply below_bind; [apply below_ok; exact XY|].
      intros u v _ _ UV. apply below_ok. apply ceilFloat_mono. exact UV.
Qed.

(** IEC 60664, wound, up to 30 kHz. *)
Lemma clearance_60664_below : is_printed (i_wiring i) = false -> i_freq i <= 30000 ->
  below (required_by D Clearance i q IEC_606641) (required_by D Clearance j q IEC_606641).
Proof.
  intros W F. pose proof impulse_below as IB. raise. cbn [required_by].
  unfold clearance_60664. rewrite HW, HF, W.
  change maximum_standard_frequency with 30000. rewrite (Qlt_no _ _ F).
  apply below_bind; [exact IB|]. intros a b _ _ AB. cbn [bind].
  apply below_bind; [apply below_lookup_le; [apply (reg_F2 _ R) | exact AB]|].
  intros c d _ _ CD. apply below_bind.
  - apply below_bind; [|intros x y _ _ XY; apply below_ok; exact XY].
    apply below_lookup_le; [apply (reg_F8 _ R)|]. destruct (strong (q_type q)); lra.
  - intros x y _ _ XY. pose proof (cmax_mono _ _ _ _ CD XY) as M.
    apply below_if; [|apply below_ok; exact M].
    apply below_bind_same. intros f HFac. apply below_ok.
    pose proof (interp_nonneg _ _ _ (reg_A2 _ R) HFac).
    set (u := cmax c x) in *. set (v := cmax d y) in *. nra.
Qed.
End Regular.

(** ** C55 *)

Lemma fold_below : forall D k i j, raised i j ->
  (forall q s, i_insulation i = Some q -> below (required_by D k i q s) (required_by D k j q s)) ->
  below (required D k i) (required D k j).
Proof.
  intros D k i j RJ H a b A B. destruct (i_insulation i) as [q|] eqn:HI.
  - assert (HJ : i_insulation j = Some q) by (destruct RJ as (E & _); congruence).
    destruct (C12_covers_every_standard _ _ _ _ _ HI A) as (_ & _ & C).
    destruct (C12_covers_every_standard _ _ _ _ _ HJ B) as (P & L & _).
    destruct C as [C|(s & x & I & E & C)]; [lra|].
    destruct (L s I) as (y & F & LY). pose proof (H q s eq_refl x y E F). lra.
  - rewrite (C12_nothing_asked_nothing_required D k i HI) in A.
    rewrite (C12_nothing_asked_nothing_required D k j) in B by (destruct RJ as (E & _); congruence).
    injection A as <-. injection B as <-. apply Qle_refl.
Qed.

Theorem C55_withstand_voltage_never_falls : forall D i j w w', regular D -> raised i j ->
  required D Withstand i = Ok w -> required D Withstand j = Ok w' -> w <= w'.
Proof.
  intros D i j w w' R RJ A B.
  refine (fold_below D Withstand i j RJ _ w w' A B). intros q s _. apply withstand_below; assumption.
Qed.

Theorem C55_distance_through_insulation_never_falls : forall D i j w w', regular D -> raised i j ->
  required D Dti i = Ok w -> required D Dti j = Ok w' -> w <= w'.
Proof.
  intros D i j w w' R RJ A B.
  refine (fold_below D Dti i j RJ _ w w' A B). intros q s _. apply dti_below; assumption.
Qed.

(** Clearance and creepage distance, for the standards and conditions where they
    do not fall. *)
Theorem C55_distances_never_fall_partial : forall D i j q x y, regular D -> raised i j ->
  (required_by D Clearance i q IEC_623681 = Ok x -> required_by D Clearance j q IEC_623681 = Ok y -> x <= y) /\
  (forall b, required_by D (Creepage b) i q IEC_623681 = Ok x ->
             required_by D (Creepage b) j q IEC_623681 = Ok y -> x <= y) /\
  (required_by D (Creepage false) i q IEC_615581 = Ok x ->
   required_by D (Creepage false) j q IEC_615581 = Ok y -> x <= y) /\
  (i_wiring i <> Some PRINTED -> i_freq i <= 30000 ->
   required_by D Clearance i q IEC_606641 = Ok x -> required_by D Clearance j q IEC_606641 = Ok y -> x <= y).
Proof.
  intros D i j q x y R RJ. split; [|split; [|split]].
  - apply clearance_62368_below; assumption.
  - intro b. apply creepage_62368_below; assumption.
  - apply creepage_61558_below; assumption.
  - intros W F. apply clearance_60664_below; try assumption.
    destruct (i_wiring i) as [[]|]; try reflexivity. congruence.
Qed.

(** IEC 61558 above 30 kHz: table 104 ends at 2000 V and is then left out, so one
    volt more lowers the clearance from 11 mm to 3 mm. *)
Theorem C55_clearance_61558_refuted : forall skin, exists i j q x y,
  i_insulation i = Some q /\ raised i j /\
  required (bundled skin) Clearance i = Ok x /\ required (bundled skin) Clearance j = Ok y /\
  x == 11 # 1000 /\ y == 3 # 1000.
Proof.
  intro skin. set (q := mk_requirements BASIC [IEC_615581] 0 GROUP_I 230 OVC_II PD2).
  exists (design q (Some WOUND) 500 2000 100000), (design q (Some WOUND) 500 2001 100000), q.
  eexists. eexists. split; [reflexivity|]. split.
  { unfold raised, design. cbn. repeat split; lra. }
  split; [vm_compute; reflexivity|]. split; [vm_compute; reflexivity|]. split; reflexivity.
Qed.

Example C55_witness : forall skin,
  raised (design mains (Some WOUND) 230 325 50) (design mains (Some WOUND) 400 900 50) /\
  required (bundled skin) Withstand (design mains (Some WOUND) 230 325 50) = Ok 2500 /\
  required (bundled skin) Withstand (design mains (Some WOUND) 400 900 50) = Ok 4000.
Proof.
  intro skin. split.
  { unfold raised, design. cbn. repeat split; lra. }
  split; vm_compute; reflexivity.
Qed.

Print Assumptions C55_bundled_tables_are_regular.
Print Assumptions C55_withstand_voltage_never_falls.
Print Assumptions C55_distance_through_insulation_never_falls.
Print Assumptions C55_distances_never_fall_partial.
Print Assumptions C55_clearance_61558_refuted.
