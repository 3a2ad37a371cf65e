(** * What the gap models promise (C110, C111) *)
From Coq Require Import Reals List String Lra Psatz.
From Verif Require Import Base GapModel GapProofs.
Import ListNotations.
Local Open Scope outcome_scope.
Local Open Scope R_scope.

(** ** Vocabulary *)

(** a gap with all its data, of positive sizes *)
Definition sound (g : gap) (a : R) (s : column_shape) (w d h : R) : Prop :=
  0 < length g /\ area g = Some a /\ 0 < a /\ shape g = Some s /\ section g = Some (w, d) /\ 0 < w /\ 0 < d /\
  normal g = Some h /\ 0 <= h.

(** the reluctance of the gap without fringing *)
Definition plain (g : gap) (a : R) : R := length g / (mu0 * a).

(** the stored energy is that of the saturation flux through the reluctance *)
Definition flux_energy (bsat a : R) (r : gap_result) : R := (bsat * a) ^ 2 * reluctance r / 2.

(** fringing helps: the reluctance is positive and no more than without it, the
    fringing factor says by how much, the energy agrees *)
Definition physical (bsat : R) (g : gap) (a : R) (r : gap_result) : Prop :=
  0 < reluctance r /\ reluctance r <= plain g a /\ 1 <= fringing r /\
  reluctance r * fringing r = plain g a /\ energy r = flux_energy bsat a r.

(** short against the room around it, so that the logarithmic formulas apply *)
Definition short (l h : R) : Prop := 2 * l <= PI * exp 1 * h.

Lemma permeance_physical : forall bsat g a p r, 0 < length g -> 0 < a -> a / length g <= p ->
  of_permeance bsat g a p r -> physical bsat g a r.
Proof.
  intros bsat g a p r L A B (ER & EF & EE). pose proof mu0_pos as M.
  assert (Q : 0 < a / length g) by (apply Rdiv_pos; assumption).
  assert (P : 0 < p) by lra. unfold physical, plain, flux_energy. rewrite EE, ER, EF.
  split; [apply Rdiv_pos; [lra | apply Rmult_lt_0_compat; assumption]|].
  split; [|split; [|split; [field; repeat split; lra | reflexivity]]].
  - replace (length g / (mu0 * a)) with (1 / (mu0 * (a / length g))) by (field; repeat split; lra).
    apply inv_decreases_le; [lra | apply Rmult_lt_0_compat; assumption | apply Rmult_le_compat_l; lra].
  - apply Rmult_le_reg_r with a; [assumption|]. replace (length g * p / a * a) with (length g * p) by (field; lra).
    assert (a / length g * length g <= p * length g) by (apply Rmult_le_compat_r; lra).
    replace (a / length g * length g) with a in * by (field; lra). lra.
Qed.

Lemma permeance_consistent : forall bsat g a p r, 0 < length g -> 0 < a -> 0 < p -> of_permeance bsat g a p r ->
  0 < reluctance r /\ 0 < fringing r /\ reluctance r * fringing r = plain g a /\ energy r = flux_energy bsat a r.
Proof.
  intros bsat g a p r L A P (ER & EF & EE). pose proof mu0_pos as M. unfold plain, flux_energy. rewrite EE, ER, EF.
  split; [apply Rdiv_pos; [lra | apply Rmult_lt_0_compat; assumption]|].
  split; [apply Rdiv_pos; [apply Rmult_lt_0_compat; assumption | assumption]|].
  split; [field; repeat split; lra | reflexivity].
Qed.

(** ** C110: bounds *)

Theorem C110_zhang : forall bsat g a s w d h, sound g a s w d h ->
  exists r, gap_reluctance Zhang bsat g = Ok r /\ physical bsat g a r.
Proof.
  intros bsat g a s w d h (L & A & AP & S & X & W & D & N & H).
  destruct (zhang_value bsat g a s w d h) as (r & E & O & _); try assumption; try lra.
  exists r. split; [exact E|]. apply permeance_physical with (p := zhang_permeance s a w d h (length g)); try assumption.
  apply zhang_permeance_bound; assumption.
Qed.

(** Zhang: the straight path across the gap and the fringing path around its
    circumference conduct side by side. *)
Theorem C110_zhang_paths : forall bsat g a s w d h r, sound g a s w d h -> gap_reluctance Zhang bsat g = Ok r ->
  1 / reluctance r = mu0 * a / length g
    + mu0 * (match s with Round => PI * w | Other => 2 * (w + d) end) / PI * ln (1 + 2 * h / length g).
Proof.
  intros bsat g a s w d h r (L & A & AP & S & X & W & D & N & H) E.
  destruct (zhang_value bsat g a s w d h) as (r' & E' & (O & _) & _); try assumption; try lra.
  cbn [gap_reluctance] in E. rewrite E in E'. injection E' as <-. rewrite O. unfold zhang_permeance.
  replace ((2 * h + length g) / length g) with (1 + 2 * h / length g) by (field; lra).
  pose proof (zhang_permeance_bound s a w d h (length g)) as B. unfold zhang_permeance in B.
  replace ((2 * h + length g) / length g) with (1 + 2 * h / length g) in B by (field; lra).
  assert (0 < a / length g) by (apply Rdiv_pos; assumption). pose proof mu0_pos. pose proof PI_RGT_0.
  specialize (B W D H L). set (lg := ln (1 + 2 * h / length g)) in *.
  replace (1 / (1 / (mu0 * (a / length g + perimeter s w d / PI * lg)))) with (mu0 * (a / length g + perimeter s w d / PI * lg)).
  2:{ assert (0 < a / length g + perimeter s w d / PI * lg) by lra.
      set (q := a / length g + perimeter s w d / PI * lg) in *. field. split; lra. }
  destruct s; cbn [perimeter]; field; lra.
Qed.

(** A closed gap has no reluctance, a fringing factor of one and no energy. *)
Theorem C110_closed : forall bsat g a s w d h, length g = 0 -> area g = Some a -> 0 < a -> shape g = Some s ->
  section g = Some (w, d) -> normal g = Some h -> 0 <= h ->
  exists r, gap_reluctance Zhang bsat g = Ok r /\ reluctance r = 0 /\ fringing r = 1 /\ energy r = 0.
Proof.
  intros bsat g a s w d h L A AP S X N H. cbn [gap_reluctance]. unfold zhang. rewrite A, S, X, N, L. cbn [required bind].
  destruct (Rlt_dec h 0); [lra|]. destruct (Rlt_dec 0 0); [lra|]. unfold report, storable_energy. rewrite A, L. cbn [required bind].
  eexists. split; [reflexivity|]. cbn [reluctance fringing energy]. repeat split; field. pose proof mu0_pos; lra.
Qed.

Lemma area_permeance_bound : forall s a w d l, 0 < a -> 0 < w -> 0 < d -> 0 < l -> a / l <= area_permeance s a w d l.
Proof.
  intros s a w d l A W D L. unfold area_permeance. assert (0 < a / l) by (apply Rdiv_pos; assumption).
  assert (0 < l / w) by (apply Rdiv_pos; assumption). assert (0 < l / d) by (apply Rdiv_pos; assumption).
  rewrite <- (Rmult_1_r (a / l)) at 1. apply Rmult_le_compat_l; [lra|]. destruct s; nra.
Qed.

Theorem C110_effective_area : forall bsat g a s w d h, sound g a s w d h ->
  exists r, gap_reluctance EffectiveArea bsat g = Ok r /\ physical bsat g a r.
Proof.
  intros bsat g a s w d h (L & A & AP & S & X & W & D & _).
  destruct (area_value bsat g a s w d) as (r & E & O & _); try assumption.
  exists r. split; [exact E|]. eapply permeance_physical; try eassumption. apply area_permeance_bound; assumption.
Qed.

(** The two models of Kazimierczuk and of the effective length are one. *)
Theorem C110_effective_length : forall bsat g a s w d h, sound g a s w d h ->
  exists r r', gap_reluctance EffectiveLength bsat g = Ok r /\ gap_reluctance EffectiveArea bsat g = Ok r' /\
    reluctance r = reluctance r' /\ fringing r = fringing r' /\ energy r = energy r'.
Proof.
  intros bsat g a s w d h (L & A & AP & S & X & W & D & _).
  pose proof (length_is_area bsat g a s w d A S X W D) as Q. cbn [gap_reluctance].
  destruct (effective_length bsat g) as [x| | |]; try contradiction.
  destruct (effective_area bsat g) as [y| | |]; try contradiction. exists x, y. tauto.
Qed.

Theorem C110_classic : forall bsat g a, 0 < length g -> area g = Some a -> 0 < a ->
  exists r, gap_reluctance Classic bsat g = Ok r /\ physical bsat g a r /\ fringing r = 1.
Proof.
  intros bsat g a L A AP. destruct (classic_value bsat g a) as (r & E & O & _); try assumption.
  exists r. split; [exact E|]. split; [eapply permeance_physical; try eassumption; lra|].
  destruct O as (_ & -> & _). field. lra.
Qed.

(** Partridge: physical up to four times the room, and refused, never negative,
    when the factor would not be positive. *)
Lemma partridge_bound : forall a h l, 0 < a -> 0 < l -> l <= 4 * h -> a / l <= partridge_permeance a h l.
Proof.
  intros a h l A L B. unfold partridge_permeance. assert (0 < a / l) by (apply Rdiv_pos; assumption).
  assert (0 < l / sqrt a) by (apply Rdiv_pos; [assumption | apply sqrt_lt_R0; assumption]).
  assert (0 <= ln (2 * 2 * h / l)).
  { apply ln_nonneg. apply Rmult_le_reg_r with l; [assumption|]. replace (2 * 2 * h / l * l) with (4 * h) by (field; lra). lra. }
  rewrite <- (Rmult_1_r (a / l)) at 1. apply Rmult_le_compat_l; [lra|].
  assert (0 <= l / sqrt a * ln (2 * 2 * h / l)) by (apply Rmult_le_pos; lra). lra.
Qed.

Theorem C110_partridge : forall bsat g a s w d h, sound g a s w d h -> length g <= 4 * h ->
  exists r, gap_reluctance Partridge bsat g = Ok r /\ physical bsat g a r.
Proof.
  intros bsat g a s w d h (L & A & AP & S & X & W & D & N & H) B.
  pose proof (partridge_bound a h (length g) AP L B) as Q. assert (0 < a / length g) by (apply Rdiv_pos; assumption).
  destruct (partridge_value bsat g a w d h) as [(C & _)|(_ & r & E & O & _)]; try assumption; [lra|].
  exists r. split; [exact E|]. eapply permeance_physical; eassumption.
Qed.

Theorem C110_partridge_refuses : forall bsat g a s w d h, sound g a s w d h ->
  (exists e, gap_reluctance Partridge bsat g = Throw e) \/
  exists r, gap_reluctance Partridge bsat g = Ok r /\ 0 < reluctance r /\ 0 < fringing r /\
    reluctance r * fringing r = plain g a /\ energy r = flux_energy bsat a r.
Proof.
  intros bsat g a s w d h (L & A & AP & S & X & W & D & N & H).
  destruct (partridge_value bsat g a w d h) as [(_ & C)|(P & r & E & O & _)]; try assumption.
  - left. eexists. exact C.
  - right. exists r. split; [exact E|]. eapply permeance_consistent; eassumption.
Qed.

Lemma short_log : forall l h, 0 < l -> short l h -> 0 <= 1 + ln (PI * h / (2 * l)).
Proof.
  intros l h L S. unfold short in S. assert (E1 : 0 < exp 1) by apply exp_pos.
  assert (Q : exp (-(1)) <= PI * h / (2 * l)).
  { rewrite exp_Ropp. apply Rmult_le_reg_r with (exp 1 * (2 * l)); [apply Rmult_lt_0_compat; lra|].
    replace (/ exp 1 * (exp 1 * (2 * l))) with (2 * l) by (field; lra).
    replace (PI * h / (2 * l) * (exp 1 * (2 * l))) with (PI * exp 1 * h) by (field; lra). exact S. }
  assert (-(1) <= ln (PI * h / (2 * l))); [|lra].
  rewrite <- (ln_exp (-(1))). apply ln_mono; [apply exp_pos | exact Q].
Qed.

Theorem C110_balakrishnan : forall bsat g a s w d h, sound g a s w d h -> short (length g) h ->
  exists r, gap_reluctance Balakrishnan bsat g = Ok r /\ physical bsat g a r.
Proof.
  intros bsat g a s w d h (L & A & AP & S & X & W & D & N & H) B.
  pose proof (short_log (length g) h L B) as Q. assert (0 < a / length g) by (apply Rdiv_pos; assumption).
  assert (P : a / length g <= balakrishnan_permeance a d h (length g)).
  { unfold balakrishnan_permeance. pose proof PI_RGT_0.
    assert (0 <= 2 * d / PI) by (apply Rlt_le, Rdiv_pos; lra).
    assert (0 <= 2 * d / PI * (1 + ln (PI * h / (2 * length g)))) by (apply Rmult_le_pos; assumption). lra. }
  destruct (balakrishnan_value bsat g a w d h) as [(C & _)|(_ & r & E & O & _)]; try assumption; [lra|].
  exists r. split; [exact E|]. eapply permeance_physical; eassumption.
Qed.

Theorem C110_balakrishnan_refuses : forall bsat g a s w d h, sound g a s w d h ->
  (exists e, gap_reluctance Balakrishnan bsat g = Throw e) \/
  exists r, gap_reluctance Balakrishnan bsat g = Ok r /\ 0 < reluctance r /\ 0 < fringing r /\
    reluctance r * fringing r = plain g a /\ energy r = flux_energy bsat a r.
Proof.
  intros bsat g a s w d h (L & A & AP & S & X & W & D & N & H).
  destruct (balakrishnan_value bsat g a w d h) as [(_ & C)|(P & r & E & O & _)]; try assumption.
  - left. eexists. exact C.
  - right. exists r. split; [exact E|]. eapply permeance_consistent; eassumption.
Qed.

Lemma widening_bound : forall w h l, 0 < w -> 0 < l -> short l h -> 1 <= widening w h l.
Proof.
  intros w h l W L S. unfold widening. pose proof (short_log l h L S). pose proof PI_RGT_0.
  assert (0 < 2 * l / (PI * w)) by (apply Rdiv_pos; [lra | apply Rmult_lt_0_compat; lra]).
  assert (0 <= 2 * l / (PI * w) * (1 + ln (PI * h / (2 * l)))) by (apply Rmult_le_pos; lra). lra.
Qed.

Theorem C110_muehlethaler : forall bsat g a w d h, sound g a Other w d h -> a = w * d -> short (length g) h ->
  exists r, gap_reluctance Muehlethaler bsat g = Ok r /\ physical bsat g a r.
Proof.
  intros bsat g a w d h (L & A & AP & S & X & W & D & N & H) EA B.
  pose proof (widening_bound w h (length g) W L B) as QW. pose proof (widening_bound d h (length g) D L B) as QD.
  destruct (muehlethaler_other bsat g w d h a) as (r & E & _ & O); try assumption; try lra.
  exists r. split; [exact E|]. eapply permeance_physical; try eassumption.
  rewrite <- (Rmult_1_r (a / length g)) at 1. apply Rmult_le_compat_l; [apply Rlt_le, Rdiv_pos; lra | nra].
Qed.

(** On round columns the reluctance is reduced by the square of the factor that
    is reported. *)
Theorem C110_muehlethaler_round : forall bsat g a w d h, sound g a Round w d h -> a = PI * (w / 2) ^ 2 ->
  short (length g) h ->
  exists r, gap_reluctance Muehlethaler bsat g = Ok r /\ 0 < reluctance r /\ reluctance r <= plain g a /\
    1 <= fringing r /\ reluctance r * fringing r ^ 2 = plain g a.
Proof.
  intros bsat g a w d h (L & A & AP & S & X & W & D & N & H) EA B. assert (W2 : 0 < w / 2) by lra.
  pose proof (widening_bound (w / 2) h (length g) W2 L B) as Q. pose proof mu0_pos as M.
  destruct (muehlethaler_round bsat g w d h a) as (r & E & _ & ER & EF & _); try assumption; try lra.
  exists r. split; [exact E|]. rewrite EF, ER. set (k := widening (w / 2) h (length g)) in *.
  assert (K2 : 1 <= k ^ 2) by nra. unfold plain. assert (MA : 0 < mu0 * a) by (apply Rmult_lt_0_compat; assumption).
  split; [apply Rdiv_pos; [assumption | apply Rmult_lt_0_compat; lra]|].
  split; [apply inv_decreases_le; [lra | assumption |]; rewrite <- (Rmult_1_r (mu0 * a)) at 1; apply Rmult_le_compat_l; lra|].
  split; [exact Q|]. field. repeat split; lra.
Qed.

(** Stenglein: the factor and the energy agree with the reluctance, whatever its sign. *)
Theorem C110_stenglein : forall bsat g a s w d h p y, sound g a s w d h -> parallel g = Some p -> height g = Some y ->
  exists r, gap_reluctance Stenglein bsat g = Ok r /\
    (fringing r <> 0 -> reluctance r * fringing r = plain g a /\ energy r = flux_energy bsat a r).
Proof.
  intros bsat g a s w d h p y (L & A & AP & S & X & W & D & N & H) P Y. cbn [gap_reluctance]. unfold stenglein.
  rewrite A, S, X, N, P, Y. cbn [required bind fst snd]. destruct (Rlt_dec 0 (length g)) as [_|?]; [|lra].
  set (f := alpha _ _ _ * _ + _). clearbody f. unfold report, storable_energy. rewrite A. cbn [bind].
  eexists. split; [reflexivity|]. cbn. intro F. pose proof mu0_pos as M. unfold plain, flux_energy. cbn.
  split; field; repeat split; lra.
Qed.

(** ** What fails *)

Definition round_gap (l w h : R) : gap :=
  mkGap l (Some (PI * (w / 2) ^ 2)) (Some Round) (Some (w, w)) (Some h) (Some w) (Some 0).
Lemma round_sound : forall l w h, 0 < l -> 0 < w -> 0 <= h -> sound (round_gap l w h) (PI * (w / 2) ^ 2) Round w w h.
Proof.
  intros l w h L W H. unfold sound, round_gap. cbn [length area shape section normal].
  repeat split; try assumption. apply Rmult_lt_0_compat; [apply PI_RGT_0 | apply pow_lt; lra].
Qed.

(** reluctance and fringing factor do not belong together on round columns, and
    the energy is not that of the flux through the reluctance *)
Theorem C110_muehlethaler_round_factor_refuted : exists bsat g a w d h r,
  sound g a Round w d h /\ a = PI * (w / 2) ^ 2 /\ short (length g) h /\ 0 < bsat /\
  gap_reluctance Muehlethaler bsat g = Ok r /\ reluctance r * fringing r < plain g a /\ flux_energy bsat a r < energy r.
Proof.
  pose proof PI_RGT_0 as PP. pose proof PI_4 as P4. pose proof (exp_ineq1 1 ltac:(lra)) as E1.
  assert (P2 : 2 <= PI) by (pose proof PI2_1; lra).
  assert (SH : short 1 1) by (unfold short; nra).
  assert (PO := round_sound 1 2 1 ltac:(lra) ltac:(lra) ltac:(lra)).
  assert (WB : 1 < widening (2 / 2) 1 1).
  { unfold widening. pose proof (short_log 1 1 ltac:(lra) SH).
    assert (0 <= ln (PI * 1 / (2 * 1))) by (apply ln_nonneg; lra).
    assert (0 < 2 * 1 / (PI * (2 / 2))) by (apply Rdiv_pos; lra).
    assert (0 < 2 * 1 / (PI * (2 / 2)) * (1 + ln (PI * 1 / (2 * 1)))) by (apply Rmult_lt_0_compat; lra). lra. }
  destruct (muehlethaler_round 1 (round_gap 1 2 1) 2 2 1 (PI * (2 / 2) ^ 2)) as (r & E & _ & ER & EF & EE);
    try reflexivity; try (cbn; lra).
  exists 1, (round_gap 1 2 1), (PI * (2 / 2) ^ 2), 2, 2, 1, r.
  split; [exact PO|]. split; [reflexivity|]. split; [exact SH|]. split; [lra|]. split; [exact E|].
  change (length (round_gap 1 2 1)) with 1 in *. unfold plain, flux_energy. rewrite EE, EF.
  set (k := widening (2 / 2) 1 1) in *. set (a := PI * (2 / 2) ^ 2) in *.
  assert (AP : 0 < a) by (unfold a; apply Rmult_lt_0_compat; [lra | apply pow_lt; lra]). pose proof mu0_pos as M.
  change (length (round_gap 1 2 1)) with 1.
  assert (RP : 0 < reluctance r).
  { rewrite ER. apply Rdiv_pos; [lra|]. apply Rmult_lt_0_compat; [apply Rmult_lt_0_compat; lra | apply pow_lt; lra]. }
  assert (EK : reluctance r * k * k = 1 / (mu0 * a)) by (rewrite ER; field; repeat split; lra).
  split.
  - rewrite <- EK. assert (0 < reluctance r * k) by (apply Rmult_lt_0_compat; lra). nra.
  - assert (Q : 0 < (1 * a) ^ 2) by (apply pow_lt; lra). assert (reluctance r < reluctance r * k) by nra.
    assert ((1 * a) ^ 2 * reluctance r < (1 * a) ^ 2 * (reluctance r * k)) by (apply Rmult_lt_compat_l; assumption). lra.
Qed.

(** no check that the factor is positive: a gap that fills its column gets a
    negative factor and a negative energy *)
Theorem C110_muehlethaler_negative_refuted : exists bsat g a w d h r,
  sound g a Round w d h /\ a = PI * (w / 2) ^ 2 /\ 0 < bsat /\
  gap_reluctance Muehlethaler bsat g = Ok r /\ fringing r < 0 /\ energy r < 0.
Proof.
  pose proof PI_RGT_0 as PP. pose proof PI_4 as P4. pose proof exp_le_3 as E3. pose proof (exp_pos 1) as E0.
  assert (PO := round_sound 2 2 (1 / 50) ltac:(lra) ltac:(lra) ltac:(lra)).
  assert (LG : ln (PI * (1 / 50) / (2 * 2)) <= -(3)).
  { rewrite <- (ln_exp (-(3))). apply ln_mono; [lra|]. apply Rle_trans with (1 / 50); [lra|].
    rewrite exp_Ropp. replace 3 with (1 + 1 + 1) by ring. rewrite !exp_plus.
    assert (exp 1 * exp 1 * exp 1 <= 27) by (assert (exp 1 * exp 1 <= 9) by nra; nra).
    assert (0 < exp 1 * exp 1 * exp 1) by (repeat apply Rmult_lt_0_compat; assumption).
    apply Rle_trans with (/ 27); [lra|]. apply Rinv_le_contravar; assumption. }
  assert (WB : widening (2 / 2) (1 / 50) 2 < 0).
  { unfold widening. assert (1 <= 2 * 2 / (PI * (2 / 2))).
    { apply Rmult_le_reg_r with PI; [assumption|]. replace (2 * 2 / (PI * (2 / 2)) * PI) with 4 by (field; lra). lra. }
    nra. }
  destruct (muehlethaler_round 1 (round_gap 2 2 (1 / 50)) 2 2 (1 / 50) (PI * (2 / 2) ^ 2)) as (r & E & _ & ER & EF & EE);
    try reflexivity; try (cbn; lra).
  exists 1, (round_gap 2 2 (1 / 50)), (PI * (2 / 2) ^ 2), 2, 2, (1 / 50), r.
  split; [exact PO|]. split; [reflexivity|]. split; [lra|]. split; [exact E|].
  change (length (round_gap 2 2 (1 / 50))) with 2 in *. rewrite EE, EF.
  set (k := widening (2 / 2) (1 / 50) 2) in *. set (a := PI * (2 / 2) ^ 2) in *. pose proof mu0_pos as M.
  assert (AP : 0 < a) by (unfold a; apply Rmult_lt_0_compat; [lra | apply pow_lt; lra]).
  split; [exact WB|].
  assert (RP : 0 < reluctance r).
  { rewrite ER. apply Rdiv_pos; [lra|]. apply Rmult_lt_0_compat; [apply Rmult_lt_0_compat; lra | nra]. }
  assert (Q : 0 < (1 * a) ^ 2) by (apply pow_lt; lra). assert (reluctance r * k < 0) by nra. nra.
Qed.

(** without an area the code of Muehlethaler's model dereferences an empty
    optional; the others throw *)
Theorem C110_missing_area : forall m bsat g, area g = None ->
  (m <> Muehlethaler -> exists e, gap_reluctance m bsat g = Throw e).
Proof. intros m bsat g A NM. destruct m; try congruence; cbn; unfold zhang, partridge, effective_area, effective_length, stenglein, balakrishnan, classic; rewrite A; cbn; eexists; reflexivity. Qed.
Theorem C110_missing_area_refuted : exists bsat g e,
  area g = None /\ gap_reluctance Muehlethaler bsat g = UB e.
Proof.
  exists 1, (mkGap 1 None (Some Other) (Some (1, 1)) (Some 1) None None). eexists. split; reflexivity.
Qed.

(** Stenglein's polynomial is used outside its range: the reluctance of a gap
    three times as long as the column is wide is negative *)
Theorem C110_stenglein_negative_refuted : exists bsat g a s w d h r, sound g a s w d h /\
  gap_reluctance Stenglein bsat g = Ok r /\ reluctance r < 0.
Proof.
  pose proof PI_RGT_0 as PP. pose proof PI_4 as P4. pose proof exp_le_3 as E3. pose proof (exp_pos 1) as E0.
  pose proof mu0_pos as M. assert (P2 : 2 <= PI) by (pose proof PI2_1; lra).
  set (g := mkGap (63 / 1000) (Some 1) (Some Round) (Some (2 / 100, 2 / 100)) (Some (126 / 1000)) (Some 0) (Some 0)).
  exists 1, g, 1, Round, (2 / 100), (2 / 100), (126 / 1000). eexists.
  split; [unfold sound; cbn; repeat split; lra|]. split.
  { cbn [gap_reluctance]. unfold stenglein. cbn [area shape section normal height parallel g required bind fst snd length].
    unfold report, storable_energy. cbn [area g bind]. reflexivity. }
  cbn [reluctance length g]. destruct (Rlt_dec 0 (63 / 1000)) as [_|?]; [|lra].
  replace (0 / (126 / 1000 * 2)) with 0 by (field; lra).
  replace (alpha (2 / 100 / 2) (126 / 1000 * 2) (63 / 1000) * 0 ^ 2) with 0 by ring. rewrite Rplus_0_l.
  replace (21 / 10 * (2 / 100 / 2) / (63 / 1000)) with (/ 3) by field.
  replace (21 / 10 * (2 / 100 / 2) / (126 / 1000 * 2)) with (/ 12) by field.
  replace (63 / 1000 / (126 / 1000 * 2)) with (/ 4) by field.
  assert (L3 : ln (/ 3) <= - 1).
  { rewrite ln_Rinv by lra. assert (1 <= ln 3); [|lra]. rewrite <- (ln_exp 1) at 1. apply ln_mono; assumption. }
  assert (L12 : - 4 <= ln (/ 12)).
  { rewrite ln_Rinv by lra. assert (ln 12 <= 4); [|lra]. rewrite <- (ln_exp 4). apply ln_mono; [lra|].
    pose proof (exp_ineq1 1 ltac:(lra)) as E2. replace 4 with (1 + 1 + (1 + 1)) by ring. rewrite !exp_plus.
    assert (4 <= exp 1 * exp 1) by nra. nra. }
  assert (SQ : 1 <= sqrt PI <= 2).
  { split; [rewrite <- sqrt_1 at 1 | replace 2 with (sqrt (2 * 2)) by (rewrite sqrt_square; lra)]; apply sqrt_le_1_alt; lra. }
  assert (K : 1 <= 2 / sqrt PI <= 2).
  { split; apply Rmult_le_reg_r with (sqrt PI); try lra; replace (2 / sqrt PI * sqrt PI) with 2 by (field; lra); lra. }
  assert (PW : 0 < Rpower (/ 4) (2 * PI) <= / 256).
  { split; [unfold Rpower; apply exp_pos|]. replace (/ 256) with ((/ 4) ^ 4) by field.
    rewrite <- Rpower_pow by lra. unfold Rpower.
    assert (LN : ln (/ 4) < 0) by (rewrite <- ln_1; apply ln_increasing; lra).
    assert (Q : 2 * PI * ln (/ 4) <= INR 4 * ln (/ 4)) by (change (INR 4) with (1 + 1 + 1 + 1); nra).
    destruct Q as [Q|Q]; [left; apply exp_increasing; exact Q | right; rewrite Q; reflexivity]. }
  set (k := 2 / sqrt PI) in *. set (p := Rpower (/ 4) (2 * PI)) in *. set (x := ln (/ 3)) in *. set (y := ln (/ 12)) in *.
  set (f := _ + _ * p).
  assert (F : f < 0).
  { unfold f. clearbody k p x y.
    replace (2 * (2 / 100 / 2)) with (2 / 100) by field.
    replace (k * (63 / 1000) / (2 / 100)) with (k * (315 / 100)) by field.
    replace (k * (126 / 1000 * 2) / (2 / 100)) with (k * (126 / 10)) by field.
    assert (KX : k * (315 / 100) * x <= - (315 / 100)) by nra.
    assert (KY : - (101) <= k * (126 / 10) * y) by nra.
    match goal with |- _ + (?q - _) * _ < 0 => set (aux2 := q); assert (A2 : aux2 <= 2) by (unfold aux2; lra) end.
    clearbody aux2.
    assert ((aux2 - (1 + k * (126 / 10) * y)) * p <= 110 * / 256).
    { apply Rle_trans with (110 * p); [apply Rmult_le_compat_r; lra | lra]. }
    lra. }
  clearbody f. replace (63 / 1000 / (mu0 * 1 * f)) with (- (63 / 1000 / (mu0 * - f))) by (field; lra).
  assert (0 < 63 / 1000 / (mu0 * - f)) by (apply Rdiv_pos; [lra | apply Rmult_lt_0_compat; lra]). lra.
Qed.
