(** * How the reluctance of a gap depends on its sizes (C111) *)
From Coq Require Import Reals List String Lra Psatz.
From Verif Require Import Base GapModel GapProofs GapProperties.
Import ListNotations.
Local Open Scope outcome_scope.
Local Open Scope R_scope.

(** ** Vocabulary *)

(** the same gap, of another length *)
Definition with_length (l : R) (g : gap) : gap :=
  mkGap l (area g) (shape g) (section g) (normal g) (parallel g) (height g).
(** the same gap, with another distance to the closest normal surface *)
Definition with_room (h : R) (g : gap) : gap :=
  mkGap (length g) (area g) (shape g) (section g) (Some h) (parallel g) (height g).
(** the gap enlarged [k] times in every direction *)
Definition enlarge (k : R) (g : gap) : gap :=
  mkGap (k * length g) (option_map (fun a => k ^ 2 * a) (area g)) (shape g)
    (option_map (fun x => (k * fst x, k * snd x)) (section g)) (option_map (Rmult k) (normal g))
    (option_map (Rmult k) (parallel g)) (option_map (Rmult k) (height g)).

(** Where a model is increasing in the length of the gap: the longest length
    considered. *)
Definition increasing_up_to (m : reluctance_model) (s : column_shape) (w d h l : R) : Prop :=
  match m with
  | Zhang | Classic => True
  | Partridge | Balakrishnan => 0 < h
  | EffectiveArea | EffectiveLength => match s with Round => l <= w | Other => l * l <= w * d end
  | Muehlethaler | Stenglein => False
  end.

Lemma permeance_order : forall bsat g g' a p p' r r', 0 < p' -> p' < p ->
  of_permeance bsat g a p r -> of_permeance bsat g' a p' r' -> reluctance r < reluctance r'.
Proof.
  intros bsat g g' a p p' r r' P PP (-> & _) (-> & _). pose proof mu0_pos.
  apply inv_decreases; [lra | apply Rmult_lt_0_compat; lra | apply Rmult_lt_compat_l; lra].
Qed.
Lemma permeance_order_le : forall bsat g g' a p p' r r', 0 < p' -> p' <= p ->
  of_permeance bsat g a p r -> of_permeance bsat g' a p' r' -> reluctance r <= reluctance r'.
Proof.
  intros bsat g g' a p p' r r' P PP (-> & _) (-> & _). pose proof mu0_pos.
  apply inv_decreases_le; [lra | apply Rmult_lt_0_compat; lra | apply Rmult_le_compat_l; lra].
Qed.

(** ** C111 *)

(** The longer the gap the higher its reluctance, in every model but two, and for
    the models that widen the section only up to a length. *)
Theorem C111_longer_gap : forall m bsat g a s w d h l' r r', sound g a s w d h -> length g < l' ->
  increasing_up_to m s w d h l' ->
  gap_reluctance m bsat g = Ok r -> gap_reluctance m bsat (with_length l' g) = Ok r' -> reluctance r < reluctance r'.
Proof.
  intros m bsat g a s w d h l' r r' (L & A & AP & S & X & W & D & N & H) LL C E E'.
  assert (L' : 0 < l') by lra.
  destruct m; cbn [increasing_up_to] in C; try contradiction; cbn [gap_reluctance] in *.
  - destruct (zhang_value bsat g a s w d h) as (x & Ex & Ox & _); try assumption; try lra.
    destruct (zhang_value bsat (with_length l' g) a s w d h) as (y & Ey & Oy & _); cbn; try assumption; try lra.
    rewrite Ex in E; rewrite Ey in E'. injection E as <-. injection E' as <-.
    refine (permeance_order _ _ _ _ _ _ _ _ _ _ Ox Oy); cbn [length with_length]; [|apply zhang_decreases; assumption].
    pose proof (zhang_permeance_bound s a w d h l' W D H L'). assert (0 < a / l') by (apply Rdiv_pos; lra). lra.
  - destruct (partridge_value bsat g a w d h) as [(_ & Ex)|(_ & x & Ex & Ox & _)]; try assumption; rewrite Ex in E; try discriminate.
    destruct (partridge_value bsat (with_length l' g) a w d h) as [(_ & Ey)|(P & y & Ey & Oy & _)]; cbn; try assumption;
      rewrite Ey in E'; try discriminate.
    injection E as <-. injection E' as <-. refine (permeance_order _ _ _ _ _ _ _ _ P _ Ox Oy).
    apply partridge_decreases; assumption.
  - destruct (area_value bsat g a s w d) as (x & Ex & Ox & _); try assumption.
    destruct (area_value bsat (with_length l' g) a s w d) as (y & Ey & Oy & _); cbn; try assumption.
    rewrite Ex in E; rewrite Ey in E'. injection E as <-. injection E' as <-.
    refine (permeance_order _ _ _ _ _ _ _ _ _ _ Ox Oy); cbn [length with_length]; [|apply area_decreases; assumption].
    pose proof (area_permeance_bound s a w d l' AP W D L'). assert (0 < a / l') by (apply Rdiv_pos; lra). lra.
  - pose proof (length_is_area bsat g a s w d A S X W D) as Q. rewrite E in Q.
    pose proof (length_is_area bsat (with_length l' g) a s w d A S X W D) as Q'. rewrite E' in Q'.
    destruct (area_value bsat g a s w d) as (x & Ex & Ox & _); try assumption.
    destruct (area_value bsat (with_length l' g) a s w d) as (y & Ey & Oy & _); cbn; try assumption.
    rewrite Ex in Q; rewrite Ey in Q'. destruct Q as (-> & _). destruct Q' as (-> & _).
    refine (permeance_order _ _ _ _ _ _ _ _ _ _ Ox Oy); cbn [length with_length]; [|apply area_decreases; assumption].
    pose proof (area_permeance_bound s a w d l' AP W D L'). assert (0 < a / l') by (apply Rdiv_pos; lra). lra.
  - destruct (balakrishnan_value bsat g a w d h) as [(_ & Ex)|(_ & x & Ex & Ox & _)]; try assumption; rewrite Ex in E; try discriminate.
    destruct (balakrishnan_value bsat (with_length l' g) a w d h) as [(_ & Ey)|(P & y & Ey & Oy & _)]; cbn; try assumption;
      rewrite Ey in E'; try discriminate.
    injection E as <-. injection E' as <-. refine (permeance_order _ _ _ _ _ _ _ _ P _ Ox Oy).
    apply balakrishnan_decreases; assumption.
  - destruct (classic_value bsat g a) as (x & Ex & Ox & _); try assumption.
    destruct (classic_value bsat (with_length l' g) a) as (y & Ey & Oy & _); cbn; try assumption.
    rewrite Ex in E; rewrite Ey in E'. injection E as <-. injection E' as <-.
    refine (permeance_order _ _ _ _ _ _ _ _ _ _ Ox Oy); cbn [length with_length]; [apply Rdiv_pos; lra | apply inv_decreases; assumption].
Qed.

(** past that length the models of the widened section go down again: twice the
    length of a round gap as long as its column is wide has less reluctance *)
Theorem C111_longer_gap_refuted : exists bsat g a s w d h l' r r', sound g a s w d h /\ length g < l' /\
  gap_reluctance EffectiveArea bsat g = Ok r /\ gap_reluctance EffectiveArea bsat (with_length l' g) = Ok r' /\
  reluctance r' < reluctance r.
Proof.
  pose proof PI_RGT_0 as PP. set (a := PI * (1 / 2) ^ 2). assert (AP : 0 < a) by (unfold a; apply Rmult_lt_0_compat; [assumption | apply pow_lt; lra]).
  pose proof (round_sound 1 1 1 ltac:(lra) ltac:(lra) ltac:(lra)) as SO.
  destruct (area_value 1 (round_gap 1 1 1) a Round 1 1) as (x & Ex & Ox & _); try reflexivity; cbn; try lra.
  destruct (area_value 1 (with_length 2 (round_gap 1 1 1)) a Round 1 1) as (y & Ey & Oy & _); try reflexivity; cbn; try lra.
  exists 1, (round_gap 1 1 1), a, Round, 1, 1, 1, 2, x, y.
  split; [exact SO|]. split; [cbn; lra|]. split; [exact Ex|]. split; [exact Ey|].
  refine (permeance_order _ _ _ _ _ _ _ _ _ _ Oy Ox); cbn; unfold area_permeance; lra.
Qed.

(** More room around the gap, more fringing. *)
Theorem C111_more_room : forall bsat g a s w d h h' r r', sound g a s w d h -> h <= h' ->
  gap_reluctance Zhang bsat g = Ok r -> gap_reluctance Zhang bsat (with_room h' g) = Ok r' ->
  reluctance r' <= reluctance r /\ fringing r <= fringing r'.
Proof.
  intros bsat g a s w d h h' r r' (L & A & AP & S & X & W & D & N & H) HH E E'. cbn [gap_reluctance] in *.
  destruct (zhang_value bsat g a s w d h) as (x & Ex & Ox & _); try assumption; try lra.
  destruct (zhang_value bsat (with_room h' g) a s w d h') as (y & Ey & Oy & _); cbn; try assumption; try reflexivity; try lra.
  rewrite Ex in E; rewrite Ey in E'. injection E as <-. injection E' as <-.
  pose proof (zhang_grows_with_room s a w d h h' (length g) W D H HH L) as G.
  pose proof (zhang_permeance_bound s a w d h (length g) W D H L). assert (0 < a / length g) by (apply Rdiv_pos; lra).
  split; [refine (permeance_order_le _ _ _ _ _ _ _ _ _ _ Oy Ox); cbn; lra|].
  destruct Ox as (_ & -> & _). destruct Oy as (_ & -> & _). cbn [length with_room] in *.
  apply Rmult_le_compat_r; [apply Rlt_le, Rinv_0_lt_compat; assumption | apply Rmult_le_compat_l; lra].
Qed.

Lemma enlarge_basic : forall k l w h, 0 < k -> 0 < l -> 0 < w -> basic (k * l / 2) (k * w) (k * h) = basic (l / 2) w h.
Proof.
  intros k l w h K L W. unfold basic. replace (k * w / 2 / (k * l / 2)) with (w / 2 / (l / 2)) by (field; lra).
  replace (PI * (k * h) / 4 / (k * l / 2)) with (PI * h / 4 / (l / 2)) by (field; lra). reflexivity.
Qed.

(** Enlarging a gap [k] times divides its reluctance by [k], keeps its fringing
    factor, and multiplies the energy it stores by [k^3]; a gap that is refused
    is refused at any size. *)
Definition similar (k : R) (o o' : outcome gap_result) : Prop :=
  match o, o' with
  | Ok r, Ok r' => reluctance r' = reluctance r / k /\ fringing r' = fringing r /\ energy r' = k ^ 3 * energy r
  | Throw e, Throw e' => e = e'
  | _, _ => False
  end.

Lemma report_similar : forall k bsat g a r f name r' f', 0 < k -> area g = Some a -> r' = r / k -> f' = f ->
  similar k (report bsat g r f name) (report bsat (enlarge k g) r' f' name).
Proof.
  intros k bsat g a r f name r' f' K A -> ->. unfold report, storable_energy, enlarge. cbn [area length]. rewrite A.
  cbn [option_map bind similar reluctance fringing energy].
  split; [reflexivity|]. split; [reflexivity|]. unfold Rdiv. ring.
Qed.

Theorem C111_similarity : forall m bsat g a s w d h k, sound g a s w d h -> 0 < k -> m <> Stenglein ->
  similar k (gap_reluctance m bsat g) (gap_reluctance m bsat (enlarge k g)).
Proof.
  intros m bsat g a s w d h k (L & A & AP & S & X & W & D & N & H) K NS. pose proof mu0_pos as M. pose proof PI_RGT_0 as PP.
  assert (KL : 0 < k * length g) by (apply Rmult_lt_0_compat; assumption).
  assert (EA : area (enlarge k g) = Some (k ^ 2 * a)) by (cbn; rewrite A; reflexivity).
  assert (ES : shape (enlarge k g) = Some s) by (cbn; assumption).
  assert (EX : section (enlarge k g) = Some (k * w, k * d)) by (cbn; rewrite X; reflexivity).
  assert (EN : normal (enlarge k g) = Some (k * h)) by (cbn; rewrite N; reflexivity).
  assert (EL : length (enlarge k g) = k * length g) by reflexivity.
  destruct m; cbn [gap_reluctance]; try congruence.
  - unfold zhang. rewrite A, S, X, N, EA, ES, EX, EN, EL. cbn [required bind fst snd].
    assert (0 <= k * h) by (apply Rmult_le_pos; lra).
    destruct (Rlt_dec h 0) as [?|_]; [lra|]. destruct (Rlt_dec (k * h) 0) as [?|_]; [lra|].
    destruct (Rlt_dec 0 (length g)) as [_|?]; [|lra]. destruct (Rlt_dec 0 (k * length g)) as [_|?]; [|lra].
    replace ((2 * (k * h) + k * length g) / (k * length g)) with ((2 * h + length g) / length g) by (field; lra).
    set (lg := ln ((2 * h + length g) / length g)).
    assert (I0 : 0 < length g / (mu0 * a)) by (apply Rdiv_pos; [assumption | apply Rmult_lt_0_compat; assumption]).
    assert (I1 : k * length g / (mu0 * (k ^ 2 * a)) = length g / (mu0 * a) / k) by (field; repeat split; lra).
    rewrite I1. assert (0 < length g / (mu0 * a) / k) by (apply Rdiv_pos; assumption).
    destruct (Req_EM_T (length g / (mu0 * a)) 0) as [?|_]; [lra|].
    destruct (Req_EM_T (length g / (mu0 * a) / k) 0) as [?|_]; [lra|].
    assert (F : (if Req_EM_T lg 0 then 0 else 1 / (PI / (mu0 * perimeter s (k * w) (k * d) * lg)))
                = k * (if Req_EM_T lg 0 then 0 else 1 / (PI / (mu0 * perimeter s w d * lg)))).
    { destruct (Req_EM_T lg 0) as [_|NZ]; [ring|]. pose proof (perimeter_pos s w d W D) as PE.
      replace (perimeter s (k * w) (k * d)) with (k * perimeter s w d) by (destruct s; simpl; ring).
      set (p := perimeter s w d) in *. field. repeat split; try lra; try assumption. }
    rewrite F. set (q := if Req_EM_T lg 0 then 0 else _). set (i := length g / (mu0 * a)) in *.
    assert (Q : 0 <= q).
    { unfold q. destruct (Req_EM_T lg 0) as [_|NZ]; [lra|]. pose proof (zhang_log_nonneg h (length g) H L).
      fold lg in H2. pose proof (perimeter_pos s w d W D). apply Rlt_le, Rdiv_pos; [lra|]. apply Rdiv_pos; [lra|].
      apply Rmult_lt_0_compat; [apply Rmult_lt_0_compat; lra | lra]. }
    assert (IQ : 0 < 1 / i + q) by (assert (0 < 1 / i) by (apply Rdiv_pos; lra); lra).
    assert (R1 : 1 / (1 / (i / k) + k * q) = 1 / (1 / i + q) / k).
    { replace (1 / (i / k) + k * q) with (k * (1 / i + q)) by (field; lra). field. repeat split; try lra.
      replace (1 + q * i) with (i * (1 / i + q)) by (field; lra). apply Rgt_not_eq, Rmult_lt_0_compat; assumption. }
    apply report_similar with (a := a); try assumption. rewrite R1.
    set (b := 1 / i + q) in *. clearbody b. field. repeat split; lra.
  - unfold partridge. rewrite A, X, N, EA, EX, EN, EL. cbn [required bind fst snd].
    destruct (Rlt_dec 0 (length g)) as [_|?]; [|lra]. destruct (Rlt_dec 0 (k * length g)) as [_|?]; [|lra].
    pose proof (sqrt_lt_R0 a AP) as SP.
    assert (F : k * length g / sqrt (k ^ 2 * a) * ln (2 * 2 * (k * h) / (k * length g))
                = length g / sqrt a * ln (2 * 2 * h / length g)).
    { replace (2 * 2 * (k * h) / (k * length g)) with (2 * 2 * h / length g) by (field; lra).
      rewrite sqrt_mult by (try apply pow2_ge_0; lra). rewrite sqrt_pow2 by lra. field. repeat split; lra. }
    rewrite F. destruct (Rle_dec _ 0) as [Y|Y]; [reflexivity|]. set (f := 1 + _) in *.
    apply report_similar with (a := a); try assumption; [|reflexivity]. field. repeat split; lra.
  - unfold effective_area. rewrite A, S, X, EA, ES, EX, EL. cbn [required bind fst snd].
    destruct (Rlt_dec 0 (length g)) as [_|?]; [|lra]. destruct (Rlt_dec 0 (k * length g)) as [_|?]; [|lra].
    assert (PW : 0 < 1 + length g / w) by (assert (0 < length g / w) by (apply Rdiv_pos; assumption); lra).
    assert (LK : k * length g / (k * w) = length g / w) by (field; lra).
    destruct s.
    + rewrite LK. assert (0 < (1 + length g / w) ^ 2) by (apply pow_lt; assumption). set (f := (1 + length g / w) ^ 2) in *.
      apply report_similar with (a := a); try assumption; [|reflexivity]. field. repeat split; lra.
    + replace ((k * d + k * length g) * (k * w + k * length g) / (k * d * (k * w)))
        with ((d + length g) * (w + length g) / (d * w)) by (field; lra).
      assert (0 < (d + length g) * (w + length g) / (d * w)).
      { apply Rdiv_pos; apply Rmult_lt_0_compat; lra. }
      set (f := (d + length g) * (w + length g) / (d * w)) in *.
      apply report_similar with (a := a); try assumption; [|reflexivity]. field. repeat split; lra.
  - unfold effective_length. rewrite A, S, X, EA, ES, EX, EL. cbn [required bind fst snd].
    destruct (Rlt_dec 0 (length g)) as [_|?]; [|lra]. destruct (Rlt_dec 0 (k * length g)) as [_|?]; [|lra].
    assert (PW : 0 < 1 + length g / w) by (assert (0 < length g / w) by (apply Rdiv_pos; assumption); lra).
    assert (PD : 0 < 1 + length g / d) by (assert (0 < length g / d) by (apply Rdiv_pos; assumption); lra).
    assert (LK : k * length g / (k * w) = length g / w) by (field; lra).
    assert (DK : k * length g / (k * d) = length g / d) by (field; lra). rewrite LK, DK.
    destruct s.
    + assert (0 < (1 + length g / w) ^ 2) by (apply pow_lt; assumption). set (f := (1 + length g / w) ^ 2) in *.
      apply report_similar with (a := a); try assumption; [|reflexivity]. field. repeat split; lra.
    + assert (0 < (1 + length g / d) * (1 + length g / w)) by (apply Rmult_lt_0_compat; assumption).
      set (f := (1 + length g / d) * (1 + length g / w)) in *.
      apply report_similar with (a := a); try assumption; [|reflexivity]. field. repeat split; lra.
  - unfold muehlethaler. rewrite S, X, N, ES, EX, EN, EL. cbn [required bind fst snd].
    assert (T : forall v, 0 < v -> type_1 (k * length g / 2) (k * v) (k * h) / (k * length g / mu0 / (k * v))
                         = type_1 (length g / 2) v h / (length g / mu0 / v)).
    { intros v V. unfold type_1. rewrite enlarge_basic by assumption.
      replace (k * length g / mu0 / (k * v)) with (length g / mu0 / v) by (field; lra). reflexivity. }
    destruct s.
    + replace (k * w / 2) with (k * (w / 2)) by field. rewrite T by lra.
      set (f := type_1 _ _ _ / _). apply report_similar with (a := a); try assumption; [|reflexivity].
      field. repeat split; lra.
    + rewrite !T by assumption. set (f := type_1 _ _ _ / _ * _). apply report_similar with (a := a); try assumption; [|reflexivity].
      field. repeat split; lra.
  - unfold balakrishnan. rewrite A, N, X, EA, EN, EX, EL. cbn [required bind fst snd].
    destruct (Rlt_dec 0 (length g)) as [_|?]; [|lra]. destruct (Rlt_dec 0 (k * length g)) as [_|?]; [|lra].
    replace (PI * (k * h) / (2 * (k * length g))) with (PI * h / (2 * length g)) by (field; lra).
    set (lg := ln _).
    assert (P : k ^ 2 * a / (k * length g) + 2 * (k * d) / PI * (1 + lg) = k * (a / length g + 2 * d / PI * (1 + lg))).
    { field. repeat split; lra. }
    rewrite P. set (p := a / length g + 2 * d / PI * (1 + lg)).
    destruct (Rle_dec p 0) as [Y|Y]; destruct (Rle_dec (k * p) 0) as [Y'|Y'].
    + reflexivity.
    + exfalso. apply Y'. nra.
    + exfalso. apply Y. apply Rnot_lt_le in Y || idtac. assert (0 < k * p) by (apply Rmult_lt_0_compat; lra). lra.
    + apply report_similar with (a := a); try assumption; field; repeat split; lra.
  - unfold classic. rewrite A, EA, EL. cbn [required bind].
    apply report_similar with (a := a); try assumption; [|reflexivity]. field. repeat split; lra.
Qed.

(** Stenglein's model contains a clearance of one millimetre, whatever the size:
    a gap of twice the size has another factor *)
Theorem C111_stenglein_similarity_refuted : exists bsat g a s w d h p y k r r', sound g a s w d h /\
  parallel g = Some p /\ height g = Some y /\ 0 < k /\
  gap_reluctance Stenglein bsat g = Ok r /\ gap_reluctance Stenglein bsat (enlarge k g) = Ok r' /\ fringing r' < fringing r.
Proof.
  set (g := mkGap 1 (Some 1) (Some Round) (Some (2, 2)) (Some 1) (Some 0) (Some 0)).
  exists 1, g, 1, Round, 2, 2, 1, 0, 0, 2. do 2 eexists.
  split; [unfold sound; cbn; repeat split; lra|]. split; [reflexivity|]. split; [reflexivity|]. split; [lra|].
  split; [|split].
  - cbn [gap_reluctance]. unfold stenglein. cbn [area shape section normal height parallel g required bind fst snd length].
    unfold report, storable_energy. cbn [area g bind]. reflexivity.
  - cbn [gap_reluctance]. unfold stenglein. cbn [enlarge option_map area shape section normal height parallel g required bind fst snd length].
    unfold report, storable_energy. cbn [enlarge option_map area g bind]. reflexivity.
  - cbn [fringing]. destruct (Rlt_dec 0 (length g)) as [_|N]; [|exfalso; cbn in N; lra].
    destruct (Rlt_dec 0 (2 * 1)) as [_|N]; [|lra]. destruct (Rlt_dec 0 1) as [_|N]; [|lra]. change (length g) with 1.
    assert (AL : alpha (2 * 2 / 2) (2 * 1 * 2) (2 * 1) = alpha (2 / 2) (1 * 2) 1) by (unfold alpha; field).
    rewrite AL. set (al := alpha _ _ _).
    replace (2 * 0 / (2 * 1 * 2)) with 0 by field. replace (0 / (1 * 2)) with 0 by field.
    replace (2 * 1 / (2 * 1 * 2)) with (1 / (1 * 2)) by field.
    replace (21 / 10 * (2 * 2 / 2) / (2 * 1)) with (21 / 10 * (2 / 2) / 1) by field.
    replace (21 / 10 * (2 * 2 / 2) / (2 * 1 * 2)) with (21 / 10 * (2 / 2) / (1 * 2)) by field.
    set (p := Rpower _ _). assert (P : 0 < p) by (unfold p, Rpower; apply exp_pos).
    set (x := ln (21 / 10 * (2 / 2) / 1)). set (y := ln (21 / 10 * (2 / 2) / (1 * 2))).
    assert (SP : 0 < sqrt PI) by (apply sqrt_lt_R0, PI_RGT_0).
    replace (2 / sqrt PI * (2 * 1) / (2 * (2 * 2 / 2))) with (2 / sqrt PI * 1 / (2 * (2 / 2))) by (field; lra).
    replace (2 / sqrt PI * (2 * 1 * 2) / (2 * (2 * 2 / 2))) with (2 / sqrt PI * (1 * 2) / (2 * (2 / 2))) by (field; lra).
    set (q := 2 / sqrt PI * 1 / (2 * (2 / 2))). set (v := 2 / sqrt PI * (1 * 2) / (2 * (2 / 2))).
    apply Rplus_lt_compat_l. apply Rplus_lt_compat_l. apply Rmult_lt_compat_r; [exact P|]. apply Rplus_lt_compat_r. lra.
Qed.

(** ** A concrete case: the constants of a centre column of 1 by 2, gap 1, room 3 *)
Definition a_gap : gap := mkGap 1 (Some 2) (Some Other) (Some (1, 2)) (Some 3) (Some 1) (Some 0).
Example C110_witness : sound a_gap 2 Other 1 2 3 /\ short (length a_gap) 3 /\ length a_gap <= 4 * 3 /\ 2 = 1 * 2.
Proof.
  split; [unfold sound, a_gap; cbn; repeat split; lra|]. split; [|cbn; lra].
  unfold short, a_gap; cbn. assert (2 <= PI) by (pose proof PI2_1; lra). pose proof (exp_ineq1 1 ltac:(lra)). nra.
Qed.
Example C110_round_witness : sound (round_gap 1 2 3) (PI * (2 / 2) ^ 2) Round 2 2 3 /\ short (length (round_gap 1 2 3)) 3.
Proof.
  split; [apply round_sound; lra|]. unfold short; cbn. assert (2 <= PI) by (pose proof PI2_1; lra).
  pose proof (exp_ineq1 1 ltac:(lra)). nra.
Qed.
Example C111_witness : length a_gap < 5 / 4 /\ increasing_up_to EffectiveArea Other 1 2 3 (5 / 4) /\
  (exists r, gap_reluctance EffectiveArea 1 a_gap = Ok r) /\ (exists r, gap_reluctance Partridge 1 (with_length (5 / 4) a_gap) = Ok r).
Proof.
  split; [cbn; lra|]. split; [cbn; lra|]. split.
  - destruct (C110_effective_area 1 a_gap 2 Other 1 2 3 (proj1 C110_witness)) as (r & E & _). exists r. exact E.
  - destruct (C110_partridge 1 (with_length (5 / 4) a_gap) 2 Other 1 2 3) as (r & E & _).
    + unfold sound; cbn; repeat split; lra.
    + cbn; lra.
    + exists r. exact E.
Qed.

Print Assumptions C110_zhang.
Print Assumptions C110_stenglein_negative_refuted.
Print Assumptions C111_longer_gap.
Print Assumptions C111_similarity.
