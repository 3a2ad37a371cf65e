(** * Core losses: the models of the manufacturers (C136) *)
From Coq Require Import Reals List Lra Lia ZArith String.
From Verif Require Import Base SizingModel CoreLossModel CoreLossProofs CoreLossChoiceModel CoreLossInverseModel
  CoreLossInverseProperties.
Import ListNotations.
Local Open Scope R_scope.

(** ** C136 *)

(** The material has the model of that manufacturer, with these coefficients.
    Magnetics and POCO have no fourth one. *)
Definition four (k : kind) : bool := match k with KMicrometals | KTdg => true | _ => false end.
Definition maker (m : material) (k : kind) (a b c d : R) : Prop :=
  proprietary_kind m = Some k /\
  exists x, method_data_of m k = Ok x /\ a_ x = Some a /\ b_ x = Some b /\ c_ x = Some c /\
            (four k = true -> d_ x = Some d).

(** The equations the manufacturers publish, as the library reports them
    (CoreLosses.cpp:2472-2506): losses per volume for a frequency and a peak. *)
Definition published (k : kind) (a b c d f B : R) : R :=
  match k with
  | KMicrometals => f / (a / B ^ 3 + b / Rpower B (23 / 10) + c / Rpower B (165 / 100)) + d * B ^ 2 * f ^ 2
  | KMagnetics => a * Rpower B b * Rpower f c
  | KPoco => 1000 * (a * f / 1000 * Rpower (B * 10) b + c * (B * 10 * f / 1000) ^ 2)
  | KTdg => 1000 * Rpower (B * 10) a * (b * f / 1000 + c * Rpower (f / 1000) d)
  | _ => 0
  end.

Lemma Rpower_square : forall x, 0 < x -> Rpower x 2 = x ^ 2.
Proof. intros x X. replace 2 with (INR 2) at 1 by (simpl; ring). apply Rpower_pow. exact X. Qed.
Lemma Rpower_cube : forall x, 0 < x -> Rpower x 3 = x ^ 3.
Proof. intros x X. replace 3 with (INR 3) at 1 by (simpl; ring). apply Rpower_pow. exact X. Qed.

Lemma denominator_pos : forall a b c B, 0 < a -> 0 < b -> 0 < c -> 0 < B ->
  0 < a / B ^ 3 + b / Rpower B (23 / 10) + c / Rpower B (165 / 100).
Proof.
  intros a b c B A BB C P. pose proof (Rpower_pos B (23 / 10)). pose proof (Rpower_pos B (165 / 100)).
  pose proof (pow_lt B 3 P). repeat apply Rplus_lt_0_compat; apply Rdiv_lt_0_compat; assumption.
Qed.

Lemma fdiv_pos : forall x y, 0 < y -> fdiv (Some x) (Some y) = Some (x / y).
Proof. intros x y Y. unfold fdiv. destruct (Req_EM_T y 0); [lra|reflexivity]. Qed.

Lemma hyperbola_pos : forall f a b c B, 0 < a -> 0 < b -> 0 < c -> 0 < B ->
  hyperbola f a b c B = Some (f / (a / B ^ 3 + b / Rpower B (23 / 10) + c / Rpower B (165 / 100))).
Proof.
  intros f a b c B A BB C P. unfold hyperbola. destruct (Req_EM_T B 0); [lra|].
  rewrite !cpow_pos by exact P. rewrite Rpower_cube by exact P.
  pose proof (Rpower_pos B (23 / 10)). pose proof (Rpower_pos B (165 / 100)). pose proof (pow_lt B 3 P).
  rewrite !fdiv_pos by assumption. simpl fadd. rewrite fdiv_pos; [reflexivity|].
  apply (denominator_pos a b c B A BB C P).
Qed.

(** The losses are what the equation says. *)
Theorem C136_equation : forall m k a b c d e f B,
  maker m k a b c d -> 0 < a -> 0 < b -> 0 < c -> 0 < f -> 0 < B -> pure e f B ->
  proprietary_losses m e = Ok (Some (published k a b c d f B)).
Proof.
  intros m k a b c d e f B (K & x & X & XA & XB & XC & XD) A BB C F P (S & PE & PA & O).
  unfold proprietary_losses. rewrite S. cbn [bind]. rewrite K, PE, PA, O, Rminus_0_r, Rabs_pos_eq by lra.
  unfold proprietary_kind in K. apply find_some in K. destruct K as [_ K].
  destruct k; try discriminate; rewrite X; cbn [bind]; rewrite XA, XB, XC; cbn [bind value_of];
    try (rewrite (XD eq_refl); cbn [bind value_of]); do 2 f_equal; try reflexivity.
  - unfold micrometals. rewrite hyperbola_pos by assumption. rewrite !cpow_pos by assumption. simpl fmul. cbn [fadd].
    rewrite !Rpower_square by assumption. reflexivity.
  - unfold magnetics. destruct (Rlt_dec 2 b); rewrite !cpow_pos by assumption; simpl fmul; [|reflexivity].
    f_equal. unfold published. replace (Rpower B b) with (Rpower B (b - 2) * Rpower B 2)
      by (rewrite <- Rpower_plus; f_equal; ring). ring.
  - unfold poco. assert (0 < B * 10) by lra.
    assert (0 < B * 10 * f / 1000) by (unfold Rdiv; repeat apply Rmult_lt_0_compat; lra).
    rewrite !cpow_pos by assumption. rewrite Rpower_square by assumption. simpl fmul. simpl fadd. simpl fmul. f_equal.
    unfold published. field.
  - unfold tdg. assert (0 < B * 10) by lra. assert (0 < f / 1000) by lra. rewrite !cpow_pos by assumption. reflexivity.
Qed.

(** Without alternating flux density there are none. *)
Theorem C136_no_flux : forall m k a b c d e f,
  maker m k a b c d -> 0 < a -> 0 < b -> 0 < c -> 0 < f -> pure e f 0 ->
  proprietary_losses m e = Ok (Some 0).
Proof.
  intros m k a b c d e f (K & x & X & XA & XB & XC & XD) A BB C F (S & PE & PA & O).
  unfold proprietary_losses. rewrite S. cbn [bind]. rewrite K, PE, PA, O, Rminus_0_r, Rabs_R0.
  unfold proprietary_kind in K. apply find_some in K. destruct K as [_ K].
  destruct k; try discriminate; rewrite X; cbn [bind]; rewrite XA, XB, XC; cbn [bind value_of];
    try (rewrite (XD eq_refl); cbn [bind value_of]); f_equal.
  - unfold micrometals, hyperbola. destruct (Req_EM_T 0 0); [|contradiction].
    destruct (Rlt_dec 0 a); [|contradiction]. destruct (Rlt_dec 0 b); [|contradiction]. destruct (Rlt_dec 0 c); [|contradiction].
    rewrite cpow_0 by lra. rewrite cpow_pos by exact F. simpl. f_equal. ring.
  - unfold magnetics. destruct (Rlt_dec 2 b); rewrite !cpow_0 by lra; rewrite cpow_pos by exact F; simpl; f_equal; ring.
  - unfold poco. replace (0 * 10) with 0 by ring. replace (0 * f / 1000) with 0 by (field).
    rewrite !cpow_0 by lra. simpl. f_equal. ring.
  - unfold tdg. rewrite Rmult_0_l. rewrite cpow_0 by exact A. assert (0 < f / 1000) by lra. rewrite cpow_pos by assumption.
    simpl. f_equal. ring.
Qed.

Definition is_maker (k : kind) : Prop := k = KMicrometals \/ k = KMagnetics \/ k = KPoco \/ k = KTdg.

(** They are positive, *)
Theorem C136_positive : forall k a b c d f B,
  is_maker k -> 0 < a -> 0 < b -> 0 < c -> 0 < d -> 0 < f -> 0 < B -> 0 < published k a b c d f B.
Proof.
  intros k a b c d f B M A BB C D F P.
  destruct M as [-> | [-> | [-> | ->]]]; unfold published.
  - pose proof (denominator_pos a b c B A BB C P). apply Rplus_lt_0_compat; [apply Rdiv_lt_0_compat; assumption|].
    pose proof (pow_lt B 2 P). pose proof (pow_lt f 2 F). repeat apply Rmult_lt_0_compat; lra.
  - repeat apply Rmult_lt_0_compat; try apply Rpower_pos; assumption.
  - apply Rmult_lt_0_compat; [lra|]. apply Rplus_lt_0_compat.
    + apply Rmult_lt_0_compat; [|apply Rpower_pos]. unfold Rdiv. repeat apply Rmult_lt_0_compat; lra.
    + apply Rmult_lt_0_compat; [exact C|]. apply pow_lt. unfold Rdiv. repeat apply Rmult_lt_0_compat; lra.
  - apply Rmult_lt_0_compat; [apply Rmult_lt_0_compat; [lra|apply Rpower_pos]|]. apply Rplus_lt_0_compat.
    + unfold Rdiv. repeat apply Rmult_lt_0_compat; lra.
    + apply Rmult_lt_0_compat; [exact C|apply Rpower_pos].
Qed.

Lemma square_lt : forall x y, 0 < x < y -> x ^ 2 < y ^ 2.
Proof. intros x y H. simpl. rewrite !Rmult_1_r. apply Rmult_gt_0_lt_compat; lra. Qed.

(** grow with the frequency, *)
Theorem C136_frequency_strict : forall k a b c d f f' B,
  is_maker k -> 0 < a -> 0 < b -> 0 < c -> 0 < d -> 0 < f < f' -> 0 < B ->
  published k a b c d f B < published k a b c d f' B.
Proof.
  intros k a b c d f f' B M A BB C D F P. pose proof (square_lt f f' F) as F2.
  destruct M as [-> | [-> | [-> | ->]]]; unfold published.
  - pose proof (denominator_pos a b c B A BB C P) as N. apply Rplus_lt_compat.
    + apply Rmult_lt_compat_r; [apply Rinv_0_lt_compat; exact N|lra].
    + apply Rmult_lt_compat_l; [|exact F2]. apply Rmult_lt_0_compat; [exact D|apply pow_lt; exact P].
  - apply Rmult_lt_compat_l; [apply Rmult_lt_0_compat; [exact A|apply Rpower_pos]|]. apply Rlt_Rpower_l; [exact C|lra].
  - apply Rmult_lt_compat_l; [lra|]. apply Rplus_lt_compat.
    + apply Rmult_lt_compat_r; [apply Rpower_pos|]. unfold Rdiv. apply Rmult_lt_compat_r; [lra|].
      apply Rmult_lt_compat_l; lra.
    + apply Rmult_lt_compat_l; [exact C|]. apply square_lt. split.
      * unfold Rdiv. repeat apply Rmult_lt_0_compat; lra.
      * unfold Rdiv. apply Rmult_lt_compat_r; [lra|]. apply Rmult_lt_compat_l; lra.
  - apply Rmult_lt_compat_l; [apply Rmult_lt_0_compat; [lra|apply Rpower_pos]|]. apply Rplus_lt_compat.
    + unfold Rdiv. apply Rmult_lt_compat_r; [lra|]. apply Rmult_lt_compat_l; lra.
    + apply Rmult_lt_compat_l; [exact C|]. apply Rlt_Rpower_l; [exact D|]. lra.
Qed.

Lemma quotient_lt : forall a x y, 0 < a -> 0 < x < y -> a / y < a / x.
Proof.
  intros a x y A H. unfold Rdiv. apply Rmult_lt_compat_l; [exact A|]. apply Rinv_lt_contravar; [|lra].
  apply Rmult_lt_0_compat; lra.
Qed.

(** and with the flux density. *)
Theorem C136_flux_strict : forall k a b c d f B B',
  is_maker k -> 0 < a -> 0 < b -> 0 < c -> 0 < d -> 0 < f -> 0 < B < B' ->
  published k a b c d f B < published k a b c d f B'.
Proof.
  intros k a b c d f B B' M A BB C D F P. pose proof (square_lt B B' P) as B2.
  assert (P10 : 0 < B * 10 < B' * 10) by lra.
  destruct M as [-> | [-> | [-> | ->]]]; unfold published.
  - pose proof (denominator_pos a b c B' A BB C ltac:(lra)) as N'. apply Rplus_lt_compat.
    + apply quotient_lt; [exact F|]. split; [exact N'|]. repeat apply Rplus_lt_compat; apply quotient_lt; try assumption.
      * split; [apply pow_lt; lra|]. change (B * B ^ 2 < B' * B' ^ 2). pose proof (pow_lt B 2 (proj1 P)).
        apply Rmult_gt_0_lt_compat; lra.
      * split; [apply Rpower_pos|apply Rlt_Rpower_l; lra].
      * split; [apply Rpower_pos|apply Rlt_Rpower_l; lra].
    + apply Rmult_lt_compat_r; [apply pow_lt; exact F|]. apply Rmult_lt_compat_l; assumption.
  - apply Rmult_lt_compat_r; [apply Rpower_pos|]. apply Rmult_lt_compat_l; [exact A|]. apply Rlt_Rpower_l; assumption.
  - apply Rmult_lt_compat_l; [lra|]. apply Rplus_lt_compat.
    + apply Rmult_lt_compat_l; [unfold Rdiv; repeat apply Rmult_lt_0_compat; lra|]. apply Rlt_Rpower_l; assumption.
    + apply Rmult_lt_compat_l; [exact C|]. apply square_lt. split.
      * unfold Rdiv. repeat apply Rmult_lt_0_compat; lra.
      * unfold Rdiv. apply Rmult_lt_compat_r; [lra|]. apply Rmult_lt_compat_r; lra.
  - apply Rmult_lt_compat_r.
    + apply Rplus_lt_0_compat; [unfold Rdiv; repeat apply Rmult_lt_0_compat; lra|]. apply Rmult_lt_0_compat; [exact C|apply Rpower_pos].
    + apply Rmult_lt_compat_l; [lra|]. apply Rlt_Rpower_l; assumption.
Qed.

(** ** The frequency of some losses *)

Lemma root_solves : forall p q r, 0 < p -> 0 < q -> 0 < r ->
  exists x, root p q (- r) = Some x /\ 0 < x /\ p * x ^ 2 + q * x = r.
Proof.
  intros p q r P Q R. unfold root.
  assert (D : q ^ 2 - 4 * p * - r = q ^ 2 + 4 * p * r) by ring. rewrite D.
  assert (E : 0 < 4 * p * r) by (repeat apply Rmult_lt_0_compat; lra).
  assert (Q2 : 0 < q ^ 2) by (apply pow_lt; exact Q).
  destruct (Rlt_dec (q ^ 2 + 4 * p * r) 0); [lra|].
  set (s := sqrt (q ^ 2 + 4 * p * r)).
  assert (S2 : s * s = q ^ 2 + 4 * p * r) by (apply sqrt_sqrt; lra).
  assert (SG : q < s).
  { unfold s. rewrite <- (sqrt_pow2 q) at 1 by lra. apply sqrt_lt_1; lra. }
  unfold fdiv. destruct (Req_EM_T (2 * p) 0); [lra|]. eexists. split; [reflexivity|]. split.
  - apply Rdiv_lt_0_compat; lra.
  - apply (Rmult_eq_reg_l (4 * p)); [|lra].
    transitivity (s * s - q ^ 2); [field; lra|]. rewrite S2. ring.
Qed.

Lemma nonnegative : forall x, 0 < x -> negative (Some x) = false.
Proof. intros x X. simpl. destruct (Rlt_dec x 0); [lra|reflexivity]. Qed.

(** The frequency found for some losses loses them. *)
Theorem C136_frequency : forall m k a b c d peak_ volume mass losses,
  maker m k a b c d -> k <> KTdg -> 0 < a -> 0 < b -> 0 < c -> 0 < d -> 0 < peak_ -> 0 < volume -> 0 < losses ->
  exists f, proprietary_frequency m peak_ volume mass losses = Ok (Some f) /\ 0 < f /\
    published k a b c d f peak_ * volume = losses /\
    (forall e, pure e f peak_ -> exists v, proprietary_losses m e = Ok (Some v) /\ v * volume = losses).
Proof.
  intros m k a b c d B volume mass losses MK T A BB C D P V L.
  assert (G : exists f, proprietary_frequency m B volume mass losses = Ok (Some f) /\ 0 < f /\
                published k a b c d f B = losses / volume).
  { pose proof MK as (K & x & X & XA & XB & XC & XD). unfold proprietary_frequency. rewrite K.
    unfold proprietary_kind in K. apply find_some in K. destruct K as [_ K].
    assert (LV : 0 < losses / volume) by (apply Rdiv_lt_0_compat; assumption).
    destruct k; try discriminate; try contradiction; rewrite X; cbn [bind]; rewrite XA, XB, XC; cbn [bind value_of];
      try (rewrite (XD eq_refl); cbn [bind value_of]).
    - rewrite hyperbola_pos by assumption. rewrite cpow_pos, Rpower_square by exact P.
      pose proof (denominator_pos a b c B A BB C P) as N.
      set (n := a / B ^ 3 + b / Rpower B (23 / 10) + c / Rpower B (165 / 100)) in *.
      destruct (root_solves (d * B ^ 2) (1 / n) (losses / volume)) as (f & RF & F & E).
      { apply Rmult_lt_0_compat; [exact D|apply pow_lt; exact P]. } { apply Rdiv_lt_0_compat; lra. } { exact LV. }
      rewrite RF, nonnegative by exact F. exists f. split; [reflexivity|]. split; [exact F|].
      unfold published. fold n. rewrite <- E. field. lra.
    - rewrite cpow_pos by exact P. simpl fmul. unfold fdiv. pose proof (Rpower_pos B b) as PB.
      assert (AB : 0 < a * Rpower B b) by (apply Rmult_lt_0_compat; assumption).
      destruct (Req_EM_T (a * Rpower B b) 0); [lra|]. destruct (Req_EM_T c 0); [lra|].
      assert (Q : 0 < losses / volume / (a * Rpower B b)) by (apply Rdiv_lt_0_compat; assumption).
      rewrite cpow_pos by exact Q. rewrite nonnegative by apply Rpower_pos. eexists. split; [reflexivity|].
      split; [apply Rpower_pos|]. unfold published. rewrite Rpower_inverse by lra. field. lra.
    - assert (P10 : 0 < B * 10) by lra. rewrite !cpow_pos by exact P10. rewrite Rpower_square by exact P10.
      replace (- (losses / volume) / 1000) with (- (losses / volume / 1000)) by (field; lra).
      destruct (root_solves (c * (B * 10) ^ 2) (a * Rpower (B * 10) b) (losses / volume / 1000)) as (f & RF & F & E).
      { apply Rmult_lt_0_compat; [exact C|apply pow_lt; exact P10]. }
      { apply Rmult_lt_0_compat; [exact A|apply Rpower_pos]. } { lra. }
      rewrite RF. simpl fmul. rewrite nonnegative by lra. eexists. split; [reflexivity|]. split; [lra|].
      unfold published.
      replace (losses / volume) with (1000 * (losses / volume / 1000)) by (field; lra).
      rewrite <- E. field. }
  destruct G as (f & E & F & S). exists f. split; [exact E|]. split; [exact F|].
  assert (W : published k a b c d f B * volume = losses) by (rewrite S; field; lra).
  split; [exact W|]. intros e PE. eexists. split; [exact (C136_equation m k a b c d e f B MK A BB C F P PE)|exact W].
Qed.

(** and the losses of a frequency give it back. *)
Theorem C136_frequency_back : forall m k a b c d e f B volume mass v,
  maker m k a b c d -> k <> KTdg -> 0 < a -> 0 < b -> 0 < c -> 0 < d -> 0 < f -> 0 < B -> 0 < volume ->
  pure e f B -> proprietary_losses m e = Ok (Some v) ->
  proprietary_frequency m B volume mass (v * volume) = Ok (Some f).
Proof.
  intros m k a b c d e f B volume mass v MK T A BB C D F P V PE E.
  rewrite (C136_equation m k a b c d e f B MK A BB C F P PE) in E. injection E as E.
  assert (M : is_maker k).
  { destruct MK as (K & _). unfold proprietary_kind in K. apply find_some in K. destruct K as [_ K].
    unfold is_maker. destruct k; try discriminate; auto. }
  assert (VP : 0 < v) by (rewrite <- E; apply C136_positive; assumption).
  destruct (C136_frequency m k a b c d B volume mass (v * volume) MK T A BB C D P V) as (g & G & GP & S & _);
    [apply Rmult_lt_0_compat; assumption|].
  rewrite G. do 2 f_equal.
  assert (S' : published k a b c d g B = published k a b c d f B).
  { rewrite E. apply (Rmult_eq_reg_r volume); [exact S|lra]. }
  destruct (Rtotal_order g f) as [O|[O|O]]; [|exact O|];
    [pose proof (C136_frequency_strict k a b c d g f B M A BB C D (conj GP O) P)
    |pose proof (C136_frequency_strict k a b c d f g B M A BB C D (conj F O) P)]; lra.
Qed.

(** Losses per mass, of the nanocrystalline cores of Magnetec. *)
Theorem C136_mass : forall m e f B weight_ v volume,
  proprietary_kind m = None -> has_magnetec m = true -> pure e f B -> 0 < f -> 0 < B -> 0 < weight_ ->
  proprietary_mass_losses m e = Ok (Some v) ->
  0 < v /\ v = 80 * Rpower (f / 100000) (18 / 10) * (2 * B / (3 / 10)) ^ 2 /\
  proprietary_frequency m B volume weight_ (v * weight_) = Ok (Some f).
Proof.
  intros m e f B w v volume K H (S & PE & PA & O) F P W E. unfold proprietary_mass_losses in E.
  rewrite S, H, PE, O, Rminus_0_r in E. cbn [bind] in E. unfold magnetec in E.
  assert (F5 : 0 < f / 100000) by lra. assert (B2 : 0 < B * 2 / (3 / 10)) by lra.
  rewrite !cpow_pos in E by assumption. simpl fmul in E. injection E as <-.
  pose proof (Rpower_pos (f / 100000) (18 / 10)) as FP. pose proof (Rpower_pos (B * 2 / (3 / 10)) 2) as BP.
  split; [repeat apply Rmult_lt_0_compat; lra|]. split.
  - rewrite Rpower_square by exact B2. field.
  - unfold proprietary_frequency. rewrite K, H. cbn [bind]. rewrite !cpow_pos by exact B2. unfold fdiv.
    destruct (Req_EM_T (Rpower (B * 2 / (3 / 10)) 2) 0); [lra|].
    replace (_ / w / 80 / Rpower (B * 2 / (3 / 10)) 2) with (Rpower (f / 100000) (18 / 10)) by (field; lra).
    rewrite cpow_pos by exact FP. simpl fmul. replace (10 / 18) with (1 / (18 / 10)) by lra.
    rewrite Rpower_inverse' by lra. replace (f / 100000 * 100000) with f by field.
    rewrite nonnegative by exact F. reflexivity.
Qed.

(** ** Where it fails *)

Definition maker_material (k : kind) (a b c d : R) : material :=
  {| material_name := "powder";
     volumetric := [("default"%string, [Data {| method := k; ranges_ := None; a_ := Some a; b_ := Some b; c_ := Some c; d_ := Some d;
                                                factors := None |}])];
     massic := None |}.

Lemma maker_of : forall k a b c d, is_proprietary k = true -> maker (maker_material k a b c d) k a b c d.
Proof.
  intros k a b c d K. destruct k; try discriminate; (split; [reflexivity|]); eexists;
    (split; [reflexivity|]); repeat split; reflexivity.
Qed.

(** The inverse reads the peak with its offset: the frequency of a biased flux
    density loses more than asked. *)
Theorem C136_bias_refuted :
  exists m e f, maker m KMagnetics 1 2 1 1 /\ switching_frequency e = Ok 4 /\
    proprietary_losses m e = Ok (Some 4) /\
    proprietary_frequency m (peak e) 1 1 4 = Ok (Some f) /\ f <> 4.
Proof.
  pose (e := {| frequency := 4; current_points := 0; current_harmonics := None;
                peak := 2; offset := 1; peak_to_peak := 2; harmonics := None; samples := [] |}).
  assert (S : switching_frequency e = Ok 4) by (unfold switching_frequency; destruct (Rlt_dec _ _); reflexivity).
  assert (ONE : Rpower 1 2 = 1) by (rewrite Rpower_square by lra; ring).
  exists (maker_material KMagnetics 1 2 1 1), e, 1.
  split; [apply maker_of; reflexivity|]. split; [exact S|]. split; [|split; [|lra]].
  - unfold proprietary_losses. rewrite S. cbn [bind].
    change (proprietary_kind (maker_material KMagnetics 1 2 1 1)) with (Some KMagnetics).
    cbn [method_data_of]. simpl bind.
    replace (peak_at e 4) with 2 by reflexivity. change (offset e) with 1. change (peak e) with 2.
    replace (2 - 1) with 1 by ring. rewrite Rabs_R1. unfold magnetics. destruct (Rlt_dec 2 2); [lra|].
    rewrite !cpow_pos by lra. rewrite ONE, Rpower_1 by lra. simpl. do 2 f_equal. ring.
  - unfold proprietary_frequency. change (proprietary_kind (maker_material KMagnetics 1 2 1 1)) with (Some KMagnetics).
    change (peak e) with 2. cbn [method_data_of]. simpl bind. rewrite (cpow_pos 2 2) by lra.
    rewrite (Rpower_square 2) by lra. simpl fmul. unfold fdiv. destruct (Req_EM_T (1 * (2 ^ 2)) 0); [lra|].
    destruct (Req_EM_T 1 0); [lra|]. replace (4 / 1 / (1 * 2 ^ 2)) with 1 by field. rewrite cpow_pos by lra.
    replace (1 / 1) with 1 by field. rewrite Rpower_1 by lra. rewrite nonnegative by lra. reflexivity.
Qed.

(** Micrometals with no eddy coefficient: the frequency is not a number, and is
    returned. *)
Theorem C136_no_eddies_refuted : forall a b c B volume mass losses,
  0 < a -> 0 < b -> 0 < c -> 0 < B -> 0 < volume -> 0 < losses ->
  maker (maker_material KMicrometals a b c 0) KMicrometals a b c 0 /\
  (exists f, 0 < f /\ published KMicrometals a b c 0 f B * volume = losses) /\
  proprietary_frequency (maker_material KMicrometals a b c 0) B volume mass losses = Ok None.
Proof.
  intros a b c B volume mass losses A BB C P V L. split; [apply maker_of; reflexivity|].
  pose proof (denominator_pos a b c B A BB C P) as N. split.
  - exists (losses / volume * (a / B ^ 3 + b / Rpower B (23 / 10) + c / Rpower B (165 / 100))).
    split; [apply Rmult_lt_0_compat; [apply Rdiv_lt_0_compat; assumption|exact N]|]. unfold published. field. pose proof (Rpower_pos B (23 / 10)). pose proof (Rpower_pos B (165 / 100)).
    repeat split; try lra. intros Z.
    apply (Rlt_irrefl 0). rewrite <- Z at 2.
    replace (_ + _) with ((a / B ^ 3 + b / Rpower B (23 / 10) + c / Rpower B (165 / 100)) *
      (B ^ 3 * (Rpower B (23 / 10) * Rpower B (165 / 100)))) by (field; lra).
    pose proof (pow_lt B 3 P). apply Rmult_lt_0_compat; [exact N|]. apply Rmult_lt_0_compat; [assumption|]. apply Rmult_lt_0_compat; assumption.
  - unfold proprietary_frequency.
    change (proprietary_kind (maker_material KMicrometals a b c 0)) with (Some KMicrometals).
    cbn [method_data_of]. simpl bind. rewrite hyperbola_pos by assumption. rewrite cpow_pos by exact P.
    unfold root. destruct (Rlt_dec _ 0); [reflexivity|]. unfold fdiv.
    destruct (Req_EM_T (2 * (0 * Rpower B 2)) 0) as [_|E]; [reflexivity|exfalso; apply E; ring].
Qed.

(** TDG has no inverse. *)
Theorem C136_tdg_refuted : forall m a b c d peak_ volume mass losses,
  maker m KTdg a b c d -> proprietary_frequency m peak_ volume mass losses = Throw "NotImplementedException".
Proof. intros m a b c d p v ms l (K & _). unfold proprietary_frequency. rewrite K. reflexivity. Qed.

Example C136_witness :
  maker (maker_material KPoco 1 2 3 4) KPoco 1 2 3 4 /\
  published KPoco 1 2 3 4 1000 (1 / 10) = 4000 /\
  pure {| frequency := 1000; current_points := 0; current_harmonics := None;
          peak := 1 / 10; offset := 0; peak_to_peak := 1 / 5; harmonics := None; samples := [] |} 1000 (1 / 10).
Proof.
  split; [apply maker_of; reflexivity|]. split.
  - unfold published. replace (1 / 10 * 10) with 1 by field. rewrite Rpower_square by lra. field.
  - split; [unfold switching_frequency; destruct (Rlt_dec _ _); reflexivity|]. repeat split; reflexivity.
Qed.

Print Assumptions C136_equation.
Print Assumptions C136_frequency.
Print Assumptions C136_frequency_back.
Print Assumptions C136_flux_strict.
Print Assumptions C136_mass.
Print Assumptions C136_bias_refuted.
Print Assumptions C136_no_eddies_refuted.
