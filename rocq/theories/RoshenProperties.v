(** * C138: the Roshen model

    A loop of hysteresis closed at the peak flux density, plus eddies. *)
From Coq Require Import Reals List Lra Lia ZArith String.
From Verif Require Import Base SizingModel CoreLossModel CoreLossProofs CoreLossShapeProofs CoreLossInverseModel
  CoreLossSearchProperties CoreLossScaleProperties RoshenModel RoshenProofs.
Import ListNotations.
Local Open Scope R_scope.

(** ** The curve of the material *)

(** The curve passes by the points the material publishes. *)
Theorem C138_characteristic_points : forall p, soft p ->
  upper_branch p (saturation_field p) = saturation_flux p /\
  upper_branch p (- saturation_field p) = - saturation_flux p /\
  lower_branch p (saturation_field p) = saturation_flux p /\
  lower_branch p (- saturation_field p) = - saturation_flux p /\
  upper_branch p 0 = remanence p /\ lower_branch p 0 = - remanence p /\
  upper_branch p (- coercive p) = 0 /\ lower_branch p (coercive p) = 0.
Proof.
  intros p S. rewrite !lower_upper, !Ropp_involutive, Ropp_0.
  rewrite (upper_saturation p S), (upper_minus_saturation p S), (upper_remanence p S), (upper_coercive p S).
  repeat split; lra.
Qed.

(** Both branches rise, one is the other seen from the origin, and the upper one
    is above the lower one within saturation. *)
Theorem C138_branches : forall p, soft p ->
  (forall h, lower_branch p h = - upper_branch p (- h)) /\
  (forall h h', h < h' -> upper_branch p h < upper_branch p h' /\ lower_branch p h < lower_branch p h') /\
  (forall h, Rabs h < saturation_field p -> lower_branch p h < upper_branch p h) /\
  (forall h h', Rabs h < Rabs h' ->
     upper_branch p h' - lower_branch p h' < upper_branch p h - lower_branch p h).
Proof.
  intros p S. split; [|split; [|split]].
  - apply lower_upper.
  - intros h h' L. split; [apply upper_lt|apply lower_lt]; assumption.
  - intros h L.
    assert (E : gap p h = gap p (Rabs h)).
    { unfold Rabs. destruct (Rcase_abs h); [rewrite gap_even|]; reflexivity. }
    pose proof (gap_lt p S (Rabs h) (saturation_field p) (Rabs_pos h) L) as G. rewrite gap_saturation in G by exact S.
    unfold gap in *. lra.
  - assert (E : forall h, gap p h = gap p (Rabs h)).
    { intros h. unfold Rabs. destruct (Rcase_abs h); [rewrite gap_even|]; reflexivity. }
    intros h h' L. change (gap p h' < gap p h). rewrite (E h), (E h'). apply gap_lt; [exact S|apply Rabs_pos|exact L].
Qed.

(** ** The loop of the excitation *)

(** The flux density from which on the model closes its loop: half of what the
    upper branch gives at the coercive force. *)
Definition closes_from (p : roshen) : R := upper_branch p (coercive p) / 2.

Lemma reach_0 : forall p, soft p -> reach p 0 = 2 * closes_from p.
Proof.
  intros p S. unfold closes_from, reach. rewrite branch_0. destruct S as ([H1 H2] & B & T).
  rewrite upper_right by lra. replace (2 * coercive p + 0) with (coercive p + coercive p) by ring. lra.
Qed.

(** [tip] is the field at which the two shifted branches meet. *)
Definition closed_at (p : roshen) (delta bp tip : R) : Prop :=
  upper_branch p tip - delta = bp /\ lower_branch p tip + delta = bp /\
  upper_branch p (- tip) - delta = - bp /\ lower_branch p (- tip) + delta = - bp.

Lemma tip_exists : forall p bp, soft p -> closes_from p < bp < saturation_flux p ->
  exists tip, coercive p < tip < saturation_field p /\ closed_at p (shift_of p bp) bp tip.
Proof.
  intros p bp S [L U]. destruct (shift_inside p S bp) as (u & [U1 U2] & R_ & D); [rewrite reach_0 by exact S; lra|exact U|].
  destruct (orders p S) as [[H1 H2] _].
  exists (coercive p + u). split; [lra|]. unfold closed_at. rewrite !lower_upper, Ropp_involutive, D.
  rewrite (upper_right p (coercive p + u)) by lra. rewrite (upper_left p S (- (coercive p + u))) by lra.
  replace (coercive p + u + coercive p) with (2 * coercive p + u) by ring.
  replace (- - (coercive p + u) - coercive p) with u by ring. unfold reach in R_. lra.
Qed.

Lemma closed_gap : forall p delta bp tip, closed_at p delta bp tip -> gap p tip = 2 * delta.
Proof. intros p delta bp tip (H1 & H2 & _). unfold gap. lra. Qed.

(** From that flux density up to saturation the loop is closed: there is one
    field, beyond the coercive force, where both branches give the peak, and both
    give its opposite at the opposite field; in between, the upper branch is above. *)
Theorem C138_loop_closed : forall p bp, soft p -> closes_from p < bp < saturation_flux p ->
  exists tip, coercive p < tip < saturation_field p /\ closed_at p (shift_of p bp) bp tip /\
    (forall tip', closed_at p (shift_of p bp) bp tip' -> tip' = tip) /\
    (forall h, Rabs h < tip -> lower_branch p h + shift_of p bp < upper_branch p h - shift_of p bp).
Proof.
  intros p bp S B. destruct (tip_exists p bp S B) as (tip & T & C). destruct (orders p S) as [[H1 H2] _].
  exists tip. split; [exact T|split; [exact C|split]].
  - intros tip' C'. destruct C as (C1 & _), C' as (C1' & _).
    destruct (Rtotal_order tip' tip) as [L|[E|L]]; [|exact E|]; apply (upper_lt p S) in L; lra.
  - intros h L. pose proof (closed_gap _ _ _ _ C) as G.
    destruct (C138_branches p S) as (_ & _ & _ & Q). specialize (Q h tip).
    rewrite (Rabs_pos_eq tip) in Q by lra. specialize (Q L). unfold gap in G. lra.
Qed.

(** Below it the branches are not shifted, and no loop is closed: the branches
    agree nowhere within saturation. *)
Theorem C138_low_flux_refuted : forall p bp, soft p -> 0 < bp <= closes_from p -> bp < saturation_flux p ->
  shift_of p bp = 0 /\ forall tip, ~ closed_at p (shift_of p bp) bp tip.
Proof.
  intros p bp S [P L] U. assert (Z : shift_of p bp = 0) by (apply shift_small; [exact S|rewrite reach_0 by exact S; lra|exact U]).
  split; [exact Z|]. intros tip C. pose proof (closed_gap _ _ _ _ C) as G. rewrite Z in *.
  destruct (orders p S) as [[H1 H2] [B1 B2]]. destruct C as (C1 & C2 & _).
  assert (E : gap p tip = gap p (Rabs tip)).
  { unfold Rabs. destruct (Rcase_abs tip); [rewrite gap_even|]; reflexivity. }
  pose proof (gap_saturation p S) as GS.
  destruct (Rtotal_order (Rabs tip) (saturation_field p)) as [Q|[Q|Q]].
  - pose proof (gap_lt p S _ _ (Rabs_pos tip) Q). lra.
  - unfold Rabs in Q. destruct (Rcase_abs tip).
    + replace tip with (- saturation_field p) in C1 by lra. rewrite (upper_minus_saturation p S) in C1. lra.
    + rewrite Q, (upper_saturation p S) in C1. lra.
  - assert (HS : 0 <= saturation_field p) by lra. pose proof (gap_lt p S _ _ HS Q). lra.
Qed.

(** ** The loss of hysteresis *)

(** The area of the closed loop, in strips of a tenth of an ampere per metre:
    one for each field of the sweep within the tips. *)
Definition strips (p : roshen) (delta tip : R) : R :=
  sumR (map (fun h => (upper_branch p h - delta - (lower_branch p h + delta)) * (1 / 10))
    (filter (between tip) (field_points p))).

Lemma cut_upper : forall p bp tip, soft p -> 0 < tip -> closed_at p (shift_of p bp) bp tip ->
  bh_loop p bp = (map (fun h => upper_branch p h - shift_of p bp) (filter (between tip) (field_points p)),
                  map (fun h => lower_branch p h + shift_of p bp) (filter (between tip) (field_points p))).
Proof.
  intros p bp tip S T (C1 & C2 & C3 & C4). unfold bh_loop. rewrite !filter_map.
  assert (U : forall h h', upper_branch p h <= upper_branch p h' <-> h <= h').
  { intros h h'. split; intros L.
    - destruct (Rle_lt_dec h h') as [Q|Q]; [exact Q|]. apply (upper_lt p S) in Q. lra.
    - destruct L as [L| ->]; [apply (upper_lt p S) in L; lra|lra]. }
  assert (W : forall h h', lower_branch p h <= lower_branch p h' <-> h <= h').
  { intros h h'. split; intros L.
    - destruct (Rle_lt_dec h h') as [Q|Q]; [exact Q|]. apply (lower_lt p S) in Q. lra.
    - destruct L as [L| ->]; [apply (lower_lt p S) in L; lra|lra]. }
  f_equal; f_equal; apply filter_same; intros h _; apply same_bool; rewrite inside_true, between_true.
  - rewrite <- (U (- tip) h), <- (U h tip). lra.
  - rewrite <- (W (- tip) h), <- (W h tip). lra.
Qed.

(** The loss is the area of the closed loop, once per period; every strip adds. *)
Theorem C138_hysteresis : forall p e, soft p -> closes_from p < peak e - offset e < saturation_flux p ->
  exists tip, coercive p < tip < saturation_field p /\
    closed_at p (shift_of p (peak e - offset e)) (peak e - offset e) tip /\
    hysteresis_density p e = frequency e * strips p (shift_of p (peak e - offset e)) tip /\
    (forall h, Rabs h <= tip ->
       0 <= upper_branch p h - shift_of p (peak e - offset e) - (lower_branch p h + shift_of p (peak e - offset e))).
Proof.
  intros p e S B. set (bp := peak e - offset e) in *. destruct (tip_exists p bp S B) as (tip & T & C).
  destruct (orders p S) as [[H1 H2] _].
  assert (N : forall h, Rabs h <= tip -> 0 <= upper_branch p h - shift_of p bp - (lower_branch p h + shift_of p bp)).
  { intros h L. pose proof (closed_gap _ _ _ _ C) as G.
    pose proof (gap_le p S h tip) as Q. rewrite (Rabs_pos_eq tip) in Q by lra. specialize (Q L). unfold gap in *. lra. }
  exists tip. split; [exact T|split; [exact C|split; [|exact N]]].
  unfold hysteresis_density. fold bp. rewrite (cut_upper p bp tip S ltac:(lra) C). rewrite fold_sum, combine_map, map_map.
  rewrite Rmult_comm. f_equal. unfold strips. f_equal. apply map_ext_in. intros h H. apply filter_In in H.
  destruct H as [_ H]. cbn [fst snd]. unfold field_step. rewrite Rabs_pos_eq; [reflexivity|].
  apply N. unfold between in H. destruct (Rle_dec (Rabs h) tip); [assumption|discriminate].
Qed.

Lemma field_points_In : forall p h, 0 < saturation_field p -> (In h (field_points p) <->
  exists i, h = - saturation_field p + 1 / 10 * INR i /\ h <= saturation_field p).
Proof.
  intros p h P. unfold field_points. destruct (Rlt_dec (saturation_field p) 0); [lra|]. rewrite grid_In. unfold field_step.
  set (x := 2 * saturation_field p / (1 / 10)).
  assert (X : x = 20 * saturation_field p) by (unfold x; field).
  destruct (base_Int_part x) as [L U].
  assert (Z0 : (0 <= Int_part x)%Z).
  { apply le_IZR. destruct (Rlt_le_dec (IZR (Int_part x)) (IZR 0)) as [Q|Q]; [|exact Q]. exfalso.
    apply lt_IZR in Q. assert (Int_part x <= -1)%Z by lia. apply IZR_le in H. lra. }
  split; intros (i & I & E).
  - exists i. split; [exact E|]. assert (Z.of_nat i <= Int_part x)%Z by lia. apply IZR_le in H.
    rewrite <- INR_IZR_INZ in H. lra.
  - exists i. split; [|exact I]. assert (INR i <= x) by lra. rewrite INR_IZR_INZ in H.
    assert (IZR (Z.of_nat i) < IZR (Int_part x + 1)) by (rewrite plus_IZR; lra). apply lt_IZR in H0. lia.
Qed.

(** The sweep: from minus the saturation to it in tenths of an ampere per metre. *)
Theorem C138_sweep : forall p h, 0 < saturation_field p -> (In h (field_points p) <->
  exists i, h = - saturation_field p + 1 / 10 * INR i /\ h <= saturation_field p).
Proof. exact field_points_In. Qed.

Lemma filter_sum_le : forall (q r : R -> bool) (f g : R -> R) l,
  (forall x, In x l -> q x = true -> r x = true /\ f x <= g x) -> (forall x, In x l -> r x = true -> 0 <= g x) ->
  sumR (map f (filter q l)) <= sumR (map g (filter r l)).
Proof.
  intros q r f g l. induction l as [|x l IH]; intros H N; simpl; [lra|].
  assert (IH' := IH (fun y Y => H y (or_intror Y)) (fun y Y => N y (or_intror Y))).
  pose proof (H x (or_introl eq_refl)) as Hx. pose proof (N x (or_introl eq_refl)) as Nx.
  destruct (q x) eqn:Q.
  - destruct (Hx eq_refl) as [-> L]. simpl. lra.
  - destruct (r x) eqn:R_; simpl; [|lra]. specialize (Nx eq_refl). lra.
Qed.

(** It is never negative, as many times as large as the frequency, and no smaller
    at a higher peak. *)
Theorem C138_hysteresis_grows : forall p e e', soft p -> 0 <= frequency e ->
  closes_from p < peak e - offset e -> peak e - offset e <= peak e' - offset e' ->
  peak e' - offset e' < saturation_flux p -> frequency e <= frequency e' ->
  0 <= hysteresis_density p e <= hysteresis_density p e'.
Proof.
  intros p e e' S F L B U FF.
  destruct (C138_hysteresis p e S ltac:(lra)) as (t & T & C & E & N).
  destruct (C138_hysteresis p e' S ltac:(lra)) as (t' & T' & C' & E' & N').
  set (bp := peak e - offset e) in *. set (bp' := peak e' - offset e') in *.
  pose proof (closed_gap _ _ _ _ C) as G. pose proof (closed_gap _ _ _ _ C') as G'.
  assert (TT : t <= t').
  { destruct (Rle_lt_dec t t') as [Q|Q]; [exact Q|]. exfalso.
    pose proof (upper_lt p S _ _ Q). pose proof (lower_lt p S _ _ Q).
    destruct C as (C1 & C2 & _), C' as (C1' & C2' & _). lra. }
  assert (GG : shift_of p bp' <= shift_of p bp).
  { pose proof (gap_le p S t t') as Q. destruct (orders p S) as [[H1 H2] _].
    rewrite !Rabs_pos_eq in Q by lra. specialize (Q TT). lra. }
  assert (P : forall t bp, (forall h, Rabs h <= t -> 0 <= upper_branch p h - shift_of p bp - (lower_branch p h + shift_of p bp)) ->
     0 <= strips p (shift_of p bp) t).
  { intros t0 b0 N0. apply sumR_nonneg. intros x X. apply in_map_iff in X. destruct X as (h & <- & H).
    apply filter_In in H. destruct H as [_ H]. unfold between in H. destruct (Rle_dec (Rabs h) t0) as [Q|Q]; [|discriminate].
    specialize (N0 h Q). lra. }
  rewrite E, E'. split; [apply Rmult_le_pos; [exact F|apply P; exact N]|].
  apply Rmult_le_compat; [exact F|apply P; exact N|exact FF|]. unfold strips. apply filter_sum_le.
  - intros h _ H. unfold between in *. destruct (Rle_dec (Rabs h) t) as [Q|Q]; [|discriminate].
    destruct (Rle_dec (Rabs h) t') as [Q'|Q']; [|lra]. split; [reflexivity|]. lra.
  - intros h _ H. unfold between in H. destruct (Rle_dec (Rabs h) t') as [Q|Q]; [|discriminate].
    specialize (N' h Q). lra.
Qed.

(** ** Eddies *)

(** One period of samples, time going forward. *)
Definition forward (e : excitation) : Prop :=
  samples e <> [] /\ 0 < frequency e /\ span (samples e) <= 3 / 2 * (1 / frequency e) /\
  (forall i, In i (moves (samples e)) -> 0 < fst i).

(** What is integrated: durations and slopes. *)
Definition slopes_to (power : R -> R) (e : excitation) : R :=
  sumR (map (fun i => power (snd i / fst i) * fst i) (moves (samples e))).

Lemma forward_steps : forall e, forward e -> forall i, In i (steps (samples e)) -> 0 < fst i.
Proof.
  intros e (_ & _ & _ & P) i I. apply (P (fst i, Rabs (snd i))). rewrite moves_steps. apply in_map_iff.
  exists i. split; [reflexivity|exact I].
Qed.

(** Each is the integral over the period, times the frequency: of the square of
    the slope by the area of the column over the resistivity, and of its power
    3/2 by a root of the coefficient over the resistivity. *)
Theorem C138_eddies : forall p e area, forward e -> 0 < resistivity p ->
  eddy_density area (resistivity p) e =
    Ok (Some (area / (8 * PI * resistivity p) * frequency e * slopes_to (fun x => x ^ 2) e)) /\
  (forall c, 0 <= c -> excess_density (resistivity p) c e =
    Ok (Some (sqrt (c / resistivity p) * frequency e * slopes_to (fun x => pw x (3 / 2)) e))).
Proof.
  intros p e area F Q. pose proof (forward_steps e F) as FS. destruct F as (N & P & W & M). split.
  - unfold eddy_density. rewrite one_period_whole, integrated_whole by assumption. cbn [bind].
    rewrite (fsum_some _ mse_term (fun i => (Rabs (snd i) / fst i) ^ 2 * fst i)).
    + unfold fdiv. destruct (Req_EM_T (resistivity p) 0); [lra|]. unfold fmul, fmap2. do 2 f_equal.
      unfold slopes_to. rewrite moves_steps, map_map. cbn [fst snd]. f_equal. f_equal.
      pose proof PI_RGT_0. field. lra.
    + intros i I. specialize (FS i I). unfold mse_term. destruct (Req_EM_T (fst i) 0); [lra|]. do 2 f_equal.
      unfold Rdiv. rewrite !Rpow_mult_distr, square_abs. reflexivity.
  - intros c C. unfold excess_density. rewrite one_period_whole, integrated_whole by assumption. cbn [bind].
    rewrite (fsum_some _ excess_term (fun i => pw (Rabs (snd i) / fst i) (3 / 2) * fst i)).
    + unfold fdiv. destruct (Req_EM_T (resistivity p) 0); [lra|].
      assert (0 <= c / resistivity p) by (unfold Rdiv; apply Rmult_le_pos; [exact C|left; apply Rinv_0_lt_compat; exact Q]).
      unfold fsqrt. destruct (Rlt_dec (c / resistivity p) 0); [lra|]. unfold fmul, fmap2. do 2 f_equal.
      unfold slopes_to. rewrite moves_steps, map_map. reflexivity.
    + intros i I. specialize (FS i I). unfold excess_term. destruct (Req_EM_T (fst i) 0); [lra|].
      rewrite cpow_pw; [reflexivity| |lra].
      unfold Rdiv. apply Rmult_le_pos; [apply Rabs_pos|left; apply Rinv_0_lt_compat; exact FS].
Qed.

(** ** All together *)

(** What is lost in hysteresis and in eddies. *)
Definition eddies_of (p : roshen) (area : R) (e : excitation) : R :=
  area / (8 * PI * resistivity p) * frequency e * slopes_to (fun x => x ^ 2) e
  + match excess_coefficient p with
    | Some c => sqrt (c / resistivity p) * frequency e * slopes_to (fun x => pw x (3 / 2)) e
    | None => 0
    end.
Definition usable_excess (p : roshen) : Prop :=
  match excess_coefficient p with Some c => 0 <= c | None => True end.

(** The losses of the core are those of hysteresis plus those of eddies, all of
    them the ones per volume times the volume. *)
Theorem C138_total : forall p area volume e, forward e -> 0 < resistivity p -> usable_excess p ->
  roshen_core p area volume e =
    Ok (Some ((hysteresis_density p e + eddies_of p area e) * volume), Some (eddies_of p area e * volume),
        Some (hysteresis_density p e * volume), Some (hysteresis_density p e + eddies_of p area e)).
Proof.
  intros p area volume e F Q X. destruct (C138_eddies p e area F Q) as [E1 E2]. unfold roshen_core, roshen_losses.
  rewrite E1. cbn [bind]. unfold usable_excess in X. unfold eddies_of. destruct (excess_coefficient p) as [c|].
  - rewrite (E2 c X). reflexivity.
  - reflexivity.
Qed.

Lemma slopes_nonneg : forall power e, (forall x, 0 <= power x) -> forward e -> 0 <= slopes_to power e.
Proof.
  intros power e P (_ & _ & _ & M). unfold slopes_to. apply sumR_nonneg. intros x X. apply in_map_iff in X.
  destruct X as (i & <- & I). specialize (M i I). apply Rmult_le_pos; [apply P|lra].
Qed.

Lemma eddies_nonneg : forall p area e, forward e -> 0 < resistivity p -> 0 <= area -> 0 <= eddies_of p area e.
Proof.
  intros p area e F Q A. unfold eddies_of. pose proof PI_RGT_0. assert (0 <= frequency e) by (destruct F as (_ & P & _); lra).
  assert (0 < 8 * PI * resistivity p) by (apply Rmult_lt_0_compat; [apply Rmult_lt_0_compat; [lra|exact PI_RGT_0]|exact Q]).
  apply Rplus_le_le_0_compat.
  - apply Rmult_le_pos; [apply Rmult_le_pos; [|assumption]|apply slopes_nonneg; [intros; apply pow2_ge_0|exact F]].
    unfold Rdiv. apply Rmult_le_pos; [exact A|left; apply Rinv_0_lt_compat; assumption].
  - destruct (excess_coefficient p); [|lra].
    apply Rmult_le_pos; [apply Rmult_le_pos; [apply sqrt_pos|assumption]|apply slopes_nonneg; [intros; apply pw_nonneg|exact F]].
Qed.

(** None of them is negative. *)
Theorem C138_nonnegative : forall p area volume e, soft p -> closes_from p < peak e - offset e < saturation_flux p ->
  forward e -> 0 < resistivity p -> usable_excess p -> 0 <= area -> 0 <= volume ->
  exists total eddies hysteresis density,
    roshen_core p area volume e = Ok (Some total, Some eddies, Some hysteresis, Some density) /\
    0 <= eddies /\ 0 <= hysteresis /\ total = hysteresis + eddies /\ total = density * volume.
Proof.
  intros p area volume e S B F Q X A V. rewrite C138_total by assumption. do 4 eexists. split; [reflexivity|].
  pose proof (eddies_nonneg p area e F Q A).
  destruct (C138_hysteresis_grows p e e S) as [N _]; try lra; [destruct F as (_ & P & _); lra|].
  repeat split; try (apply Rmult_le_pos; assumption); ring.
Qed.

(** Eddies see the slopes only: a waveform [c] times as strong loses [c^2] and
    [c^(3/2)] times as much in them; one that does not move, nothing; a constant
    added does not count. *)
Lemma moves_scaled : forall c s, 0 <= c ->
  moves (map (fun q => (fst q, c * snd q)) s) = map (fun i => (fst i, c * snd i)) (moves s).
Proof.
  intros c s C. rewrite !moves_steps, (steps_map _ (fun i => (fst i, c * snd i))), !map_map.
  - apply map_ext. intros [t d]. cbn [fst snd]. rewrite Rabs_mult, (Rabs_pos_eq c) by exact C. reflexivity.
  - intros a b. cbn [fst snd]. f_equal. ring.
Qed.

Theorem C138_eddies_scale : forall p area e c, forward e -> 0 <= c -> 0 < resistivity p ->
  slopes_to (fun x => x ^ 2) (stronger c e) = c ^ 2 * slopes_to (fun x => x ^ 2) e /\
  slopes_to (fun x => pw x (3 / 2)) (stronger c e) = pw c (3 / 2) * slopes_to (fun x => pw x (3 / 2)) e /\
  forward (stronger c e) /\
  (forall d, eddies_of p area {| frequency := frequency e; current_points := current_points e;
      current_harmonics := current_harmonics e; peak := peak e + d; offset := offset e + d;
      peak_to_peak := peak_to_peak e; harmonics := harmonics e;
      samples := map (fun q => (fst q, snd q + d)) (samples e) |} = eddies_of p area e) /\
  ((forall i, In i (moves (samples e)) -> snd i = 0) -> eddies_of p area e = 0).
Proof.
  intros p area e c F C Q. pose proof F as (N & P & W & M).
  assert (MN : forall i, In i (moves (samples e)) -> 0 <= snd i).
  { intros i I. rewrite moves_steps in I. apply in_map_iff in I. destruct I as (j & <- & _). apply Rabs_pos. }
  split; [|split; [|split; [|split]]].
  - unfold slopes_to. simpl samples. rewrite moves_scaled, map_map by exact C. apply sumR_scale.
    intros i I. specialize (M i I). cbn [fst snd]. field. lra.
  - unfold slopes_to. simpl samples. rewrite moves_scaled, map_map by exact C. apply sumR_scale.
    intros i I. specialize (M i I). cbn [fst snd].
    replace (c * snd i / fst i) with (c * (snd i / fst i)) by (field; lra). rewrite pw_mult; [ring|exact C|].
    unfold Rdiv. apply Rmult_le_pos; [apply MN; exact I|left; apply Rinv_0_lt_compat; exact M].
  - unfold forward, span in *. simpl samples. simpl frequency. rewrite moves_scaled, map_map by exact C. cbn [fst].
    repeat split; [destruct (samples e); [contradiction|discriminate]|exact P|exact W|].
    intros i I. apply in_map_iff in I. destruct I as (j & <- & J). exact (M j J).
  - intros d. unfold eddies_of, slopes_to. cbn [samples frequency].
    assert (E : moves (map (fun q => (fst q, snd q + d)) (samples e)) = moves (samples e)).
    { rewrite !moves_steps, (steps_map _ (fun i => i)), map_id; [reflexivity|].
      intros a b. cbn [fst snd]. f_equal. ring. }
    rewrite E. reflexivity.
  - intros Z.
    assert (ZP : forall power, power 0 = 0 -> slopes_to power e = 0).
    { intros power P0. unfold slopes_to. rewrite (sumR_scale _ 0 (fun i => 0)); [ring|].
      intros i I. rewrite (Z i I). unfold Rdiv. rewrite Rmult_0_l, P0. ring. }
    unfold eddies_of. rewrite (ZP (fun x => x ^ 2)) by ring.
    destruct (excess_coefficient p); [rewrite (ZP (fun x => pw x (3 / 2))) by apply pw_0|]; ring.
Qed.

(** A fit that gives no positive resistivity is refused, and the resistivity of
    every answer from a fit is positive and the one of the fit. *)
Theorem C138_resistivity : forall hc br bs hs c plain e t,
  let fitted := at_origin c + by_temperature c * (t - 25) + by_flux_density c * (peak e - offset e)
                + by_frequency c * frequency e in
  (fitted <= 0 -> roshen_parameters hc br bs hs (Some c) plain e t = Throw "CalculationException") /\
  (forall p, roshen_parameters hc br bs hs (Some c) plain e t = Ok p ->
     0 < resistivity p /\ resistivity p = fitted /\ excess_coefficient p = Some (excess_losses c) /\
     coercive p = hc /\ remanence p = br /\ saturation_flux p = bs /\ saturation_field p = hs) /\
  (exists p, roshen_parameters hc br bs hs None plain e t = Ok p /\ resistivity p = plain /\
     excess_coefficient p = None).
Proof.
  intros hc br bs hs c plain e t fitted. unfold roshen_parameters. cbv zeta. fold fitted. split; [|split].
  - intros L. destruct (Rle_dec fitted 0); [reflexivity|lra].
  - intros p H. destruct (Rle_dec fitted 0); [discriminate|].
    assert (E := f_equal (fun o => match o with Ok x => x | _ => p end) H). cbv beta iota in E. rewrite <- E. cbn.
    repeat split; lra.
  - eexists. repeat split.
Qed.

(** The losses per volume of the material are not those of the core: the eddies of
    the first are those of a small ring. *)
Theorem C138_volumetric_refuted : forall p area volume e, forward e -> 0 < resistivity p -> usable_excess p ->
  0 < area -> area <> 8 / 1000000 -> 0 < slopes_to (fun x => x ^ 2) e ->
  exists density of_material,
    (exists total eddies hysteresis, roshen_core p area volume e = Ok (total, eddies, hysteresis, Some density)) /\
    roshen_volumetric p e = Ok (Some of_material) /\ density <> of_material.
Proof.
  intros p area volume e F Q X A D P. rewrite C138_total by assumption.
  exists (hysteresis_density p e + eddies_of p area e), (hysteresis_density p e + eddies_of p (8 / 1000000) e).
  split; [do 3 eexists; reflexivity|]. split.
  - assert (E := C138_total p (8 / 1000000) 1 e F Q X). unfold roshen_core in E. unfold roshen_volumetric.
    destruct (roshen_losses p (8 / 1000000) e) as [[h d]| | |]; cbn [bind fst snd] in *; try discriminate.
    assert (E' := f_equal (fun o => match o with Ok (_, _, _, x) => x | _ => None end) E). cbv beta iota in E'.
    rewrite E'. reflexivity.
  - intros E. unfold eddies_of in E. apply D. pose proof PI_RGT_0. destruct F as (_ & PF & _).
    assert (K : 0 < 8 * PI * resistivity p) by (apply Rmult_lt_0_compat; [apply Rmult_lt_0_compat; [lra|exact PI_RGT_0]|exact Q]).
    assert (E' : area / (8 * PI * resistivity p) * (frequency e * slopes_to (fun x => x ^ 2) e) =
                 8 / 1000000 / (8 * PI * resistivity p) * (frequency e * slopes_to (fun x => x ^ 2) e)) by lra.
    assert (0 < frequency e * slopes_to (fun x => x ^ 2) e) by (apply Rmult_lt_0_compat; assumption).
    apply Rmult_eq_reg_r in E'; [|lra]. unfold Rdiv in E' at 1. unfold Rdiv in E' at 2.
    apply Rmult_eq_reg_r in E'; [exact E'|]. apply Rinv_neq_0_compat. lra.
Qed.

(** ** A ferrite *)

Definition n87 : roshen :=
  {| coercive := 10; remanence := 1 / 10; saturation_flux := 1 / 2; saturation_field := 1000;
     resistivity := 5; excess_coefficient := Some 2 |}.
Definition swing : excitation :=
  {| frequency := 1000; current_points := 3; current_harmonics := None;
     peak := 1 / 5; offset := 0; peak_to_peak := 2 / 5; harmonics := None;
     samples := [(0, -(1 / 5)); (1 / 2000, 1 / 5); (1 / 1000, -(1 / 5))] |}.

Lemma n87_soft : soft n87.
Proof. unfold soft. simpl. repeat split; lra. Qed.
Lemma n87_closes : closes_from n87 = 1 / 2 * (20 / (404 / 5 + 48 / 25 * 20)).
Proof.
  unfold closes_from. rewrite upper_right by (simpl; lra). unfold branch.
  rewrite (a_eq n87 n87_soft), (b1_eq n87 n87_soft), (a_eq n87 n87_soft). simpl. field.
Qed.

Example C138_witness :
  soft n87 /\ closes_from n87 < peak swing - offset swing < saturation_flux n87 /\ 8 / 100 < closes_from n87 /\
  forward swing /\ usable_excess n87 /\ slopes_to (fun x => x ^ 2) swing = 640 /\
  0 < strips n87 0 0.
Proof.
  split; [exact n87_soft|]. rewrite n87_closes. split; [simpl; lra|]. split; [lra|].
  assert (M : moves (samples swing) = [(1 / 2000 - 0, Rabs (1 / 5 - -(1 / 5))); (1 / 1000 - 1 / 2000, Rabs (-(1 / 5) - 1 / 5))])
    by reflexivity.
  rewrite (Rabs_pos_eq (1 / 5 - -(1 / 5))) in M by lra. rewrite (Rabs_left (-(1 / 5) - 1 / 5)) in M by lra.
  split; [|split; [unfold usable_excess; simpl; lra|split]].
  - unfold forward, span. rewrite M. simpl. repeat split; [discriminate|lra|lra|].
    intros i [<-|[<-|[]]]; simpl; lra.
  - unfold slopes_to. rewrite M. simpl. field.
  - unfold strips.
    assert (I : In 0 (filter (between 0) (field_points n87))).
    { apply filter_In. split.
      - apply C138_sweep; [simpl; lra|]. exists (Z.to_nat 10000). simpl saturation_field.
        rewrite INR_IZR_INZ, Z2Nat.id by lia. lra.
      - unfold between. rewrite Rabs_R0. destruct (Rle_dec 0 0); [reflexivity|lra]. }
    assert (P : forall h, In h (filter (between 0) (field_points n87)) ->
       (upper_branch n87 h - 0 - (lower_branch n87 h + 0)) * (1 / 10) = 1 / 50).
    { intros h H. apply filter_In in H. destruct H as [_ H]. apply between_true in H. replace h with 0 by lra.
      destruct (C138_characteristic_points n87 n87_soft) as (_ & _ & _ & _ & -> & -> & _). simpl. field. }
    revert I P. generalize (filter (between 0) (field_points n87)). intros l I P.
    assert (Q : 0 <= sumR (map (fun h => (upper_branch n87 h - 0 - (lower_branch n87 h + 0)) * (1 / 10)) l) - 0).
    { rewrite Rminus_0_r. apply sumR_nonneg. intros x X. apply in_map_iff in X. destruct X as (h & <- & H). rewrite P by exact H. lra. }
    rewrite Rminus_0_r in Q. destruct Q as [Q|Q]; [exact Q|]. exfalso.
    assert (Z : 1 / 50 = 0); [|lra]. rewrite <- (P 0 I).
    apply (sumR_zero (map (fun h => (upper_branch n87 h - 0 - (lower_branch n87 h + 0)) * (1 / 10)) l)).
    + intros x X. apply in_map_iff in X. destruct X as (h & <- & H). rewrite P by exact H. lra.
    + symmetry. exact Q.
    + apply in_map_iff. exists 0. split; [reflexivity|exact I].
Qed.

Print Assumptions C138_loop_closed.
Print Assumptions C138_hysteresis_grows.
Print Assumptions C138_total.
Print Assumptions C138_volumetric_refuted.
