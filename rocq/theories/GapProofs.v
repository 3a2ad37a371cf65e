(** * Closed forms of the gap models *)
From Coq Require Import Reals List String Lra Psatz.
From Verif Require Import Base GapModel.
Import ListNotations.
Local Open Scope outcome_scope.
Local Open Scope R_scope.

Lemma mu0_pos : 0 < mu0.
Proof. unfold mu0. lra. Qed.

Lemma ln_nonneg : forall x, 1 <= x -> 0 <= ln x.
Proof.
  intros x H. destruct (Req_dec x 1) as [-> |N]; [rewrite ln_1; lra|].
  left. rewrite <- ln_1. apply ln_increasing; lra.
Qed.
Lemma ln_mono : forall x y, 0 < x -> x <= y -> ln x <= ln y.
Proof. intros x y P [H| ->]; [left; apply ln_increasing; assumption | lra]. Qed.

(** permeances over [mu0] *)
Definition zhang_permeance (s : column_shape) (a w d h l : R) : R :=
  a / l + perimeter s w d / PI * ln ((2 * h + l) / l).
Definition partridge_permeance (a h l : R) : R := a / l * (1 + l / sqrt a * ln (2 * 2 * h / l)).
Definition area_permeance (s : column_shape) (a w d l : R) : R :=
  a / l * match s with Round => (1 + l / w) ^ 2 | Other => (1 + l / d) * (1 + l / w) end.
Definition balakrishnan_permeance (a d h l : R) : R :=
  a / l + 2 * d / PI * (1 + ln (PI * h / (2 * l))).

Lemma perimeter_pos : forall s w d, 0 < w -> 0 < d -> 0 < perimeter s w d.
Proof. intros [] w d W D; simpl; [apply Rmult_lt_0_compat; [apply PI_RGT_0 | assumption] | lra]. Qed.

Lemma zhang_log_nonneg : forall h l, 0 <= h -> 0 < l -> 0 <= ln ((2 * h + l) / l).
Proof.
  intros h l H L. apply ln_nonneg. apply Rmult_le_reg_r with l; [assumption|].
  replace ((2 * h + l) / l * l) with (2 * h + l) by (field; lra). lra.
Qed.

Lemma zhang_permeance_bound : forall s a w d h l, 0 < w -> 0 < d -> 0 <= h -> 0 < l ->
  a / l <= zhang_permeance s a w d h l.
Proof.
  intros s a w d h l W D H L. unfold zhang_permeance.
  pose proof (zhang_log_nonneg h l H L). pose proof PI_RGT_0. pose proof (perimeter_pos s w d W D).
  assert (0 <= perimeter s w d / PI) by (apply Rlt_le; apply Rdiv_lt_0_compat; assumption).
  assert (0 <= perimeter s w d / PI * ln ((2 * h + l) / l)) by (apply Rmult_le_pos; assumption). lra.
Qed.

Lemma Rdiv_pos : forall x y, 0 < x -> 0 < y -> 0 < x / y.
Proof. intros. apply Rdiv_lt_0_compat; assumption. Qed.

(** ** Closed forms *)

(** [r] is what a gap of permeance [mu0 * p] and area [a] has *)
Definition of_permeance (bsat : R) (g : gap) (a p : R) (r : gap_result) : Prop :=
  reluctance r = 1 / (mu0 * p) /\ fringing r = length g * p / a /\
  energy r = (bsat * a) ^ 2 * reluctance r / 2.

Lemma report_permeance : forall bsat g a p r f name, area g = Some a -> 0 < a -> 0 < length g -> 0 < p ->
  r = 1 / (mu0 * p) -> f = length g * p / a ->
  exists o, report bsat g r f name = Ok o /\ of_permeance bsat g a p o /\ used o = name.
Proof.
  intros bsat g a p r f name A AP L P -> ->. unfold report, storable_energy. rewrite A. cbn [bind].
  eexists. split; [reflexivity|]. split; [|reflexivity]. unfold of_permeance. cbn.
  repeat split. pose proof mu0_pos. field. repeat split; lra.
Qed.

Lemma zhang_value : forall bsat g a s w d h, length g > 0 -> area g = Some a -> a > 0 -> shape g = Some s ->
  section g = Some (w, d) -> w > 0 -> d > 0 -> normal g = Some h -> h >= 0 ->
  exists r, zhang bsat g = Ok r /\ of_permeance bsat g a (zhang_permeance s a w d h (length g)) r /\ used r = "Zhang"%string.
Proof.
  intros bsat g a s w d h L A AP S X W D N H. unfold zhang. rewrite A, S, X, N. cbn [required bind fst snd].
  destruct (Rlt_dec h 0) as [?|_]; [lra|].
  destruct (Rlt_dec 0 (length g)) as [_|?]; [|lra].
  pose proof mu0_pos as M. pose proof PI_RGT_0 as PP. pose proof (perimeter_pos s w d W D) as PQ.
  assert (B : a / length g <= zhang_permeance s a w d h (length g)) by (apply zhang_permeance_bound; lra).
  assert (0 < a / length g) by (apply Rdiv_pos; lra).
  assert (IN : length g / (mu0 * a) <> 0). { apply Rgt_not_eq. apply Rdiv_pos; [lra|]. apply Rmult_lt_0_compat; lra. }
  destruct (Req_EM_T (length g / (mu0 * a)) 0) as [E|_]; [contradiction|].
  set (lg := ln ((2 * h + length g) / length g)).
  set (fp := if Req_EM_T lg 0 then 0 else 1 / (PI / (mu0 * perimeter s w d * lg))).
  assert (FP : fp = mu0 * (perimeter s w d / PI * lg)).
  { unfold fp. destruct (Req_EM_T lg 0) as [-> |NE]; [ring|]. field. repeat split; lra. }
  assert (T : 1 / (length g / (mu0 * a)) + fp = mu0 * zhang_permeance s a w d h (length g)).
  { rewrite FP. unfold zhang_permeance. fold lg. field. repeat split; lra. }
  rewrite T. apply report_permeance; try lra; try assumption.
  field. repeat split; lra.
Qed.

Lemma classic_value : forall bsat g a, length g > 0 -> area g = Some a -> a > 0 ->
  exists r, classic bsat g = Ok r /\ of_permeance bsat g a (a / length g) r /\ used r = "Classic"%string.
Proof.
  intros bsat g a L A AP. unfold classic. rewrite A. cbn [required bind]. pose proof mu0_pos.
  apply report_permeance; try assumption; try lra; [apply Rdiv_pos; lra | field; lra | field; lra].
Qed.

Lemma area_value : forall bsat g a s w d, length g > 0 -> area g = Some a -> a > 0 -> shape g = Some s ->
  section g = Some (w, d) -> w > 0 -> d > 0 ->
  exists r, effective_area bsat g = Ok r /\ of_permeance bsat g a (area_permeance s a w d (length g)) r /\ used r = "EffectiveArea"%string.
Proof.
  intros bsat g a s w d L A AP S X W D. unfold effective_area. rewrite A, S, X. cbn [required bind fst snd].
  destruct (Rlt_dec 0 (length g)) as [_|?]; [|lra]. pose proof mu0_pos.
  assert (0 < length g / w) by (apply Rdiv_pos; lra). assert (0 < length g / d) by (apply Rdiv_pos; lra).
  apply report_permeance; try assumption; try lra; unfold area_permeance; destruct s.
  - apply Rmult_lt_0_compat; [apply Rdiv_pos; lra | apply pow_lt; lra].
  - apply Rmult_lt_0_compat; [apply Rdiv_pos; lra | apply Rmult_lt_0_compat; lra].
  - assert ((1 + length g / w) ^ 2 <> 0) by (apply pow_nonzero; lra). field. repeat split; lra.
  - assert (1 + length g / d <> 0) by lra. assert (1 + length g / w <> 0) by lra. field. repeat split; lra.
  - field. repeat split; lra.
  - field. repeat split; lra.
Qed.

Lemma length_is_area : forall bsat g a s w d, area g = Some a -> shape g = Some s ->
  section g = Some (w, d) -> w > 0 -> d > 0 ->
  match effective_length bsat g, effective_area bsat g with
  | Ok x, Ok y => reluctance x = reluctance y /\ fringing x = fringing y /\ energy x = energy y
  | _, _ => False
  end.
Proof.
  intros bsat g a s w d A S X W D. unfold effective_length, effective_area. rewrite A, S, X. cbn [required bind fst snd].
  unfold report, storable_energy. rewrite A. cbn [bind reluctance fringing energy].
  assert (E : (1 + length g / d) * (1 + length g / w) = (d + length g) * (w + length g) / (d * w)) by (field; lra).
  destruct (Rlt_dec 0 (length g)); destruct s; try (rewrite E); repeat split.
Qed.

Lemma partridge_value : forall bsat g a w d h, length g > 0 -> area g = Some a -> a > 0 ->
  section g = Some (w, d) -> normal g = Some h ->
  (partridge_permeance a h (length g) <= 0 /\ partridge bsat g = Throw "Partridge fringing model out of valid range") \/
  (0 < partridge_permeance a h (length g) /\
   exists r, partridge bsat g = Ok r /\ of_permeance bsat g a (partridge_permeance a h (length g)) r /\ used r = "Partridge"%string).
Proof.
  intros bsat g a w d h L A AP X N. unfold partridge. rewrite A, X, N. cbn [required bind].
  destruct (Rlt_dec 0 (length g)) as [_|?]; [|lra].
  set (f := 1 + length g / sqrt a * ln (2 * 2 * h / length g)).
  assert (E : partridge_permeance a h (length g) = a / length g * f) by reflexivity.
  assert (0 < a / length g) by (apply Rdiv_pos; lra). pose proof mu0_pos.
  destruct (Rle_dec f 0) as [F|F].
  - left. split; [|reflexivity]. rewrite E. nra.
  - right. assert (0 < f) by lra. split; [rewrite E; apply Rmult_lt_0_compat; lra|].
    apply report_permeance; try assumption; try lra; rewrite E; [apply Rmult_lt_0_compat; lra | |]; field; lra.
Qed.

Lemma balakrishnan_value : forall bsat g a w d h, length g > 0 -> area g = Some a -> a > 0 ->
  section g = Some (w, d) -> normal g = Some h ->
  (balakrishnan_permeance a d h (length g) <= 0 /\ balakrishnan bsat g = Throw "Balakrishnan fringing model out of valid range") \/
  (0 < balakrishnan_permeance a d h (length g) /\
   exists r, balakrishnan bsat g = Ok r /\ of_permeance bsat g a (balakrishnan_permeance a d h (length g)) r /\ used r = "Balakrishnan"%string).
Proof.
  intros bsat g a w d h L A AP X N. unfold balakrishnan. rewrite A, X, N. cbn [required bind snd].
  fold (balakrishnan_permeance a d h (length g)). pose proof mu0_pos.
  destruct (Rle_dec (balakrishnan_permeance a d h (length g)) 0) as [F|F].
  - left. split; [assumption | reflexivity].
  - right. split; [lra|]. destruct (Rlt_dec 0 (length g)) as [_|?]; [|lra].
    apply report_permeance; try assumption; try lra. field. repeat split; lra.
Qed.

(** the factor by which fringing widens a gap of width [w] *)
Definition widening (w h l : R) : R := 1 + 2 * l / (PI * w) * (1 + ln (PI * h / (2 * l))).

Lemma type_1_value : forall l w h, l > 0 -> w > 0 -> widening w h l <> 0 ->
  type_1 (l / 2) w h / (l / mu0 / w) = 1 / widening w h l.
Proof.
  intros l w h L W N. unfold type_1, basic. pose proof mu0_pos as M. pose proof PI_RGT_0 as PP.
  replace (PI * h / 4 / (l / 2)) with (PI * h / (2 * l)) by (field; lra).
  set (lg := ln (PI * h / (2 * l))) in *.
  replace (w / 2 / (l / 2) + 2 / PI * (1 + lg)) with (w / l * widening w h l)
    by (unfold widening; fold lg; field; repeat split; lra).
  set (b := 1 / mu0 / (w / l * widening w h l)).
  assert (EB : b = l / mu0 / w * (1 / widening w h l)) by (unfold b; field; repeat split; lra || exact N).
  assert (NB : b <> 0).
  { rewrite EB. apply Rmult_integral_contrapositive_currified.
    - apply Rgt_not_eq. apply Rdiv_pos; [apply Rdiv_pos|]; lra.
    - unfold Rdiv. rewrite Rmult_1_l. apply Rinv_neq_0_compat, N. }
  replace (1 / (1 / (b + b) + 1 / (b + b))) with b by (field; lra).
  rewrite EB. field. repeat split; lra || exact N.
Qed.

Lemma muehlethaler_other : forall bsat g w d h a, length g > 0 -> shape g = Some Other -> section g = Some (w, d) ->
  normal g = Some h -> w > 0 -> d > 0 -> area g = Some a -> a = w * d ->
  widening w h (length g) <> 0 -> widening d h (length g) <> 0 ->
  exists r, muehlethaler bsat g = Ok r /\ used r = "Muehlethaler"%string /\
    of_permeance bsat g a (a / length g * (widening w h (length g) * widening d h (length g))) r.
Proof.
  intros bsat g w d h a L S X N W D A -> NW ND. unfold muehlethaler. rewrite S, X, N. cbn [required bind fst snd].
  rewrite (type_1_value _ _ _ L W NW), (type_1_value _ _ _ L D ND).
  unfold report, storable_energy. rewrite A. cbn [bind]. eexists. split; [reflexivity|]. split; [reflexivity|].
  pose proof mu0_pos as M. unfold of_permeance; cbn. repeat split; field; repeat split; try lra; assumption.
Qed.

Lemma muehlethaler_round : forall bsat g w d h a, length g > 0 -> shape g = Some Round -> section g = Some (w, d) ->
  normal g = Some h -> w > 0 -> area g = Some a -> a = PI * (w / 2) ^ 2 -> widening (w / 2) h (length g) <> 0 ->
  exists r, muehlethaler bsat g = Ok r /\ used r = "Muehlethaler"%string /\
    reluctance r = length g / (mu0 * a * widening (w / 2) h (length g) ^ 2) /\
    fringing r = widening (w / 2) h (length g) /\
    energy r = (bsat * a) ^ 2 * (reluctance r * widening (w / 2) h (length g)) / 2.
Proof.
  intros bsat g w d h a L S X N W A EA NW. unfold muehlethaler. rewrite S, X, N. cbn [required bind fst snd].
  assert (W2 : w / 2 > 0) by lra. rewrite (type_1_value _ _ _ L W2 NW).
  unfold report, storable_energy. rewrite A. cbn [bind]. eexists. split; [reflexivity|]. split; [reflexivity|].
  pose proof mu0_pos as M. pose proof PI_RGT_0 as PP.
  assert (AP : a > 0) by (rewrite EA; apply Rmult_lt_0_compat; [lra | apply pow_lt; lra]).
  cbn. replace (mu0 * PI * (w / 2) ^ 2) with (mu0 * a) by (rewrite EA; ring).
  assert (Q : mu0 * PI * (w / 2 * (w / 2 * 1)) = mu0 * a) by (rewrite EA; ring). rewrite ?Q.
  repeat split; field; repeat split; try lra; assumption.
Qed.

(** ** Monotony of the permeances *)

Lemma inv_decreases : forall a l l', 0 < a -> 0 < l -> l < l' -> a / l' < a / l.
Proof.
  intros. apply Rmult_lt_compat_l; [assumption|]. apply Rinv_lt_contravar; [apply Rmult_lt_0_compat; lra | assumption].
Qed.
Lemma inv_decreases_le : forall a l l', 0 <= a -> 0 < l -> l <= l' -> a / l' <= a / l.
Proof. intros. apply Rmult_le_compat_l; [assumption|]. apply Rinv_le_contravar; assumption. Qed.

Lemma zhang_decreases : forall s a w d h l l', 0 < a -> 0 < w -> 0 < d -> 0 <= h -> 0 < l -> l < l' ->
  zhang_permeance s a w d h l' < zhang_permeance s a w d h l.
Proof.
  intros s a w d h l l' A W D H L LL. unfold zhang_permeance.
  pose proof (inv_decreases a l l' A L LL). pose proof PI_RGT_0. pose proof (perimeter_pos s w d W D).
  assert (ln ((2 * h + l') / l') <= ln ((2 * h + l) / l)).
  { apply ln_mono; [apply Rdiv_pos; lra|].
    replace ((2 * h + l') / l') with (2 * h / l' + 1) by (field; lra). replace ((2 * h + l) / l) with (2 * h / l + 1) by (field; lra).
    apply Rplus_le_compat_r. apply inv_decreases_le; lra. }
  assert (perimeter s w d / PI * ln ((2 * h + l') / l') <= perimeter s w d / PI * ln ((2 * h + l) / l)).
  { apply Rmult_le_compat_l; [apply Rlt_le, Rdiv_pos; assumption | assumption]. }
  lra.
Qed.

Lemma zhang_grows_with_room : forall s a w d h h' l, 0 < w -> 0 < d -> 0 <= h -> h <= h' -> 0 < l ->
  zhang_permeance s a w d h l <= zhang_permeance s a w d h' l.
Proof.
  intros s a w d h h' l W D H HH L. unfold zhang_permeance. apply Rplus_le_compat_l.
  apply Rmult_le_compat_l; [apply Rlt_le, Rdiv_pos; [apply perimeter_pos; assumption | apply PI_RGT_0]|].
  apply ln_mono; [apply Rdiv_pos; lra|]. apply Rmult_le_compat_r; [apply Rlt_le, Rinv_0_lt_compat; assumption | lra].
Qed.

Lemma balakrishnan_decreases : forall a d h l l', 0 < a -> 0 < d -> 0 < h -> 0 < l -> l < l' ->
  balakrishnan_permeance a d h l' < balakrishnan_permeance a d h l.
Proof.
  intros a d h l l' A D H L LL. unfold balakrishnan_permeance. pose proof (inv_decreases a l l' A L LL). pose proof PI_RGT_0.
  assert (PH : 0 < PI * h) by (apply Rmult_lt_0_compat; lra).
  assert (ln (PI * h / (2 * l')) <= ln (PI * h / (2 * l))).
  { apply ln_mono; [apply Rdiv_pos; lra|]. apply inv_decreases_le; lra. }
  assert (2 * d / PI * (1 + ln (PI * h / (2 * l'))) <= 2 * d / PI * (1 + ln (PI * h / (2 * l)))).
  { apply Rmult_le_compat_l; [apply Rlt_le, Rdiv_pos; lra | lra]. }
  lra.
Qed.

Lemma partridge_decreases : forall a h l l', 0 < a -> 0 < h -> 0 < l -> l < l' ->
  partridge_permeance a h l' < partridge_permeance a h l.
Proof.
  intros a h l l' A H L LL. pose proof (sqrt_lt_R0 a A) as SP. pose proof (sqrt_sqrt a (Rlt_le _ _ A)) as SS.
  assert (E : forall x, 0 < x -> partridge_permeance a h x = a / x + sqrt a * ln (2 * 2 * h / x)).
  { intros x P. unfold partridge_permeance. replace (a / x * (1 + x / sqrt a * ln (2 * 2 * h / x))) with (a / x + a / sqrt a * ln (2 * 2 * h / x)) by (field; lra).
    replace (a / sqrt a) with (sqrt a) by (apply Rmult_eq_reg_r with (sqrt a); [|lra]; rewrite SS; field; lra). reflexivity. }
  rewrite !E by lra. pose proof (inv_decreases a l l' A L LL).
  assert (ln (2 * 2 * h / l') <= ln (2 * 2 * h / l)).
  { apply ln_mono; [apply Rdiv_pos; lra|]. apply inv_decreases_le; lra. }
  assert (sqrt a * ln (2 * 2 * h / l') <= sqrt a * ln (2 * 2 * h / l)) by (apply Rmult_le_compat_l; lra).
  lra.
Qed.

Lemma area_decreases : forall s a w d l l', 0 < a -> 0 < w -> 0 < d -> 0 < l -> l < l' ->
  (match s with Round => l' <= w | Other => l' * l' <= w * d end) ->
  area_permeance s a w d l' < area_permeance s a w d l.
Proof.
  intros s a w d l l' A W D L LL C.
  assert (G : forall v u x y, 0 < v -> 0 < u -> 0 < x -> x < y -> x * y < v * u ->
    a / y * ((1 + y / v) * (1 + y / u)) < a / x * ((1 + x / v) * (1 + x / u))).
  { intros v u x y V U X XY Q.
    assert (0 < a * (y - x) * (v * u - x * y)) by (repeat apply Rmult_lt_0_compat; lra).
    assert (0 < x * y * (v * u)) by (repeat apply Rmult_lt_0_compat; lra).
    assert (E : a / x * ((1 + x / v) * (1 + x / u)) - a / y * ((1 + y / v) * (1 + y / u))
      = a * (y - x) * (v * u - x * y) / (x * y * (v * u))) by (field; repeat split; lra).
    assert (0 < a * (y - x) * (v * u - x * y) / (x * y * (v * u))) by (apply Rdiv_pos; assumption). lra. }
  unfold area_permeance. destruct s.
  - replace ((1 + l' / w) ^ 2) with ((1 + l' / w) * (1 + l' / w)) by ring.
    replace ((1 + l / w) ^ 2) with ((1 + l / w) * (1 + l / w)) by ring.
    apply G; try assumption. nra.
  - apply G; try assumption; nra.
Qed.
