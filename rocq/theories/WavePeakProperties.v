(** C64: the peaks and the duty cycle reported for a waveform. *)
From Coq Require Import ZArith QArith Qabs List String Bool Arith Lia Lqa.
From Verif Require Import Base QAux WaveModel WaveProofs WaveProperties WaveCompressProperties WaveShapeProperties.
Import ListNotations.
Open Scope Q_scope.
Open Scope outcome_scope.

(** * Vocabulary *)

(** Slopes the compression can tell from a flat stretch: time advances at every
    sample, and each step is flat or steeper than the threshold. *)
Fixpoint resolved (l : list point) : Prop :=
  match l with
  | p :: ((q :: _) as rest) =>
      fst p < fst q /\ (snd p == snd q \/ 1 # 1000000000 < Qabs (slope p q)) /\ resolved rest
  | _ => True
  end.

(** The peaks of a list of samples. *)
Definition peaks (data : list Q) (p : processed) : Prop := exists hi lo top,
  p_positive_peak p = Some hi /\ p_negative_peak p = Some lo /\ p_peak p = Some top /\
  extremes data hi lo /\
  (exists x, In x data /\ Qabs x == top) /\ (forall x, In x data -> Qabs x <= top).

(** * Lemmas *)

Lemma resolved_cons : forall p q l, resolved (p :: q :: l) ->
  fst p < fst q /\ (snd p == snd q \/ 1 # 1000000000 < Qabs (slope p q)) /\ resolved (q :: l).
Proof. intros p q l H. exact H. Qed.

(** [k] is 1 for the maximum and -1 for the minimum. *)
Lemma extreme_kept : forall k, k == 1 \/ k == -(1) -> forall l previous M,
  resolved l -> (forall x, In x l -> k * snd x <= M) ->
  (exists x, In x (removelast l) /\ k * snd x == M) ->
  (k * snd (hd (0, 0) l) == M -> previous = None \/ exists s, previous = Some s /\ 1 # 1000000000 < k * s) ->
  exists x, In x (compress_loop previous l) /\ k * snd x == M.
Proof.
  intros k K. induction l as [|p l IH]; intros previous M R B [x [X1 X2]] P; [contradiction|].
  destruct l as [|q l]; [contradiction|].
  destruct (resolved_cons _ _ _ R) as [T [S R']]. rewrite compress_loop_cons.
  change (removelast (p :: q :: l)) with (p :: removelast (q :: l)) in X1.
  assert (SB : slope_between p q = Some (slope p q)).
  { unfold slope_between. destruct (Qeq_bool (fst q) (fst p)) eqn:E; [|reflexivity].
    apply Qeq_bool_iff in E. lra. }
  assert (SL : (fst q - fst p) * slope p q == snd q - snd p) by (unfold slope; field; lra).
  destruct (Qeq_dec (k * snd p) M) as [E|NE].
  - exists p. split; [|exact E]. apply in_or_app. left.
    assert (EM : emits previous (slope_between p q) = true).
    { rewrite SB. destruct (P E) as [-> | [s [-> S1]]]; [reflexivity|].
      pose proof (B q (or_intror (or_introl eq_refl))) as BQ. cbn [hd] in *.
      assert (DN : k * slope p q <= 0).
      { destruct (Qlt_le_dec 0 (k * slope p q)) as [U|U]; [exfalso|exact U].
        assert (0 < k * slope p q * (fst q - fst p)) by (apply Qmult_lt_0_compat; lra).
        assert (k * slope p q * (fst q - fst p) == k * snd q - k * snd p).
        { setoid_replace (k * slope p q * (fst q - fst p)) with (k * ((fst q - fst p) * slope p q)) by ring.
          rewrite SL. ring. }
        lra. }
      unfold emits. set (b := slope p q) in *. clearbody b.
      assert (A : 1 # 1000000000 < Qabs s).
      { destruct K as [K|K]; rewrite K in S1.
        - apply Qlt_le_trans with s; [lra|apply Qle_Qabs].
        - rewrite <- Qabs_opp. apply Qlt_le_trans with (- s); [lra|apply Qle_Qabs]. }
      assert (Qlt_bool (1 # 1000000000) (Qabs s) = true) as -> by (apply Qlt_bool_iff; exact A).
      apply Qlt_bool_iff.
      assert (NZ : ~ s == 0) by (intros Z; rewrite Z in S1; ring_simplify in S1; lra).
      assert (PA : 0 < Qabs s) by lra.
      assert (D : Qabs ((b - s) / s) == Qabs (b - s) / Qabs s).
      { unfold Qdiv. rewrite Qabs_Qmult, Qabs_Qinv. reflexivity. }
      rewrite D, (Qlt_div_iff _ _ _ PA).
      assert (Qabs s <= Qabs (b - s)).
      { destruct K as [K|K]; rewrite K in S1, DN.
        - rewrite (Qabs_pos s) by lra. rewrite (Qabs_neg (b - s)) by lra. lra.
        - rewrite (Qabs_neg s) by lra. rewrite (Qabs_pos (b - s)) by lra. lra. }
      lra. }
    rewrite EM. left. reflexivity.
  - destruct X1 as [<-|X1]; [contradiction|].
    destruct (IH (slope_between p q) M R') as [y [Y1 Y2]].
    + intros z Z. apply B. right. exact Z.
    + exists x. split; assumption.
    + cbn [hd]. intros E. right. exists (slope p q). split; [exact SB|].
      pose proof (B p (or_introl eq_refl)) as BP.
      assert (UP : 0 < k * slope p q).
      { destruct (Qlt_le_dec 0 (k * slope p q)) as [U|U]; [exact U|exfalso].
        assert (k * slope p q * (fst q - fst p) == k * snd q - k * snd p).
        { setoid_replace (k * slope p q * (fst q - fst p)) with (k * ((fst q - fst p) * slope p q)) by ring.
          rewrite SL. ring. }
        assert (k * slope p q * (fst q - fst p) <= 0) by nra.
        apply NE. lra. }
      destruct S as [S|S].
      * exfalso. apply NE. rewrite S. exact E.
      * destruct K as [K|K]; rewrite K in UP |- *.
        -- rewrite Qabs_pos in S by lra. lra.
        -- rewrite Qabs_neg in S by lra. lra.
    + exists y. split; [|exact Y2]. apply in_or_app. right. exact Y1.
Qed.

Lemma closing_value : forall pts, pts <> [] -> exists p, In p pts /\ snd p = snd (closing pts).
Proof. intros [|p l] H; [congruence|]. exists p. split; [left; reflexivity|reflexivity]. Qed.

Lemma sub_in : forall (A : Type) (l m : list A) x, sub l m -> In x l -> In x m.
Proof.
  intros A l m x S. induction S; intros H; [exact H|right; auto|].
  destruct H as [<-|H]; [left; reflexivity|right; auto].
Qed.

Lemma compressed_extremes : forall pts label out hi lo, (2 <= List.length pts)%nat -> resolved (closed pts) ->
  compress_waveform (of_points pts label) = Ok out ->
  extremes (map snd pts) hi lo -> extremes (w_data out) hi lo.
Proof.
  intros pts label out hi lo L R H [[x [X1 X2]] [[y [Y1 Y2]] B]].
  rewrite (compress_points pts label L) in H. injection H as <-.
  assert (NE : pts <> []) by (intros ->; cbn in L; lia).
  assert (BC : forall p, In p (closed pts) -> lo <= snd p /\ snd p <= hi).
  { intros p I. unfold closed in I. apply in_app_or in I. destruct I as [I|[<-|[]]].
    - apply B. apply in_map. exact I.
    - destruct (closing_value pts NE) as [q [Q1 <-]]. apply B. apply in_map. exact Q1. }
  assert (RL : removelast (closed pts) = pts) by apply removelast_snoc.
  apply in_map_iff in X1. destruct X1 as [p [<- P1]].
  apply in_map_iff in Y1. destruct Y1 as [q [<- Q1]].
  unfold of_points. cbn [w_data].
  set (kept := compress_loop None (closed pts)).
  assert (I1 : exists z, In z kept /\ 1 * snd z == hi).
  { apply extreme_kept; [left; reflexivity|exact R| | |left; reflexivity].
    - intros z Z. destruct (BC z Z). lra.
    - exists p. rewrite RL. split; [exact P1|lra]. }
  assert (I2 : exists z, In z kept /\ -(1) * snd z == - lo).
  { apply extreme_kept; [right; reflexivity|exact R| | |left; reflexivity].
    - intros z Z. destruct (BC z Z). lra.
    - exists q. rewrite RL. split; [exact Q1|lra]. }
  destruct I1 as [z1 [A1 A2]]. destruct I2 as [z2 [B1 B2]].
  split; [exists (snd z1); split; [apply in_map, in_or_app; left; exact A1|lra]|].
  split; [exists (snd z2); split; [apply in_map, in_or_app; left; exact B1|lra]|].
  intros v V. apply in_map_iff in V. destruct V as [z [<- Z]].
  apply in_app_or in Z. destruct Z as [Z|[<-|[]]].
  - apply BC. unfold closed. apply in_or_app. left. rewrite <- RL.
    apply (sub_in _ _ _ _ (loop_sub (closed pts) None)). exact Z.
  - apply BC. unfold closed. apply in_or_app. right. left. reflexivity.
Qed.

Lemma extremes_of : forall data g s, greatest data = Ok g -> smallest data = Ok s -> extremes data g s.
Proof.
  intros data g s G S. destruct (greatest_spec _ _ G) as [G1 G2]. destruct (smallest_spec _ _ S) as [S1 S2].
  split; [exists g; split; [exact G1|reflexivity]|]. split; [exists s; split; [exact S1|reflexivity]|].
  intros x X. split; [apply S2|apply G2]; exact X.
Qed.

Lemma extremes_ext : forall data hi lo hi' lo', hi == hi' -> lo == lo' -> extremes data hi lo -> extremes data hi' lo'.
Proof.
  intros data hi lo hi' lo' E1 E2 [[x [X1 X2]] [[y [Y1 Y2]] B]].
  split; [exists x; split; [exact X1|lra]|]. split; [exists y; split; [exact Y1|lra]|].
  intros z Z. destruct (B z Z). split; lra.
Qed.

Lemma extremes_peak : forall data hi lo, extremes data hi lo ->
  (exists x, In x data /\ Qabs x == cmax hi (- lo)) /\ (forall x, In x data -> Qabs x <= cmax hi (- lo)).
Proof.
  intros data hi lo [[x [X1 X2]] [[y [Y1 Y2]] B]].
  destruct (B x X1) as [_ _]. destruct (B y Y1) as [BY1 BY2].
  assert (LH : lo <= hi) by lra. split.
  - unfold cmax. destruct (Qlt_bool hi (- lo)) eqn:E; qb.
    + exists y. split; [exact Y1|]. rewrite Qabs_neg by lra. lra.
    + exists x. split; [exact X1|]. rewrite Qabs_pos by lra. lra.
  - intros z Z. destruct (B z Z) as [Z1 Z2]. apply Qabs_Qle_condition.
    pose proof (cmax_ge_l hi (- lo)). pose proof (cmax_ge_r hi (- lo)). split; lra.
Qed.

Lemma processed_parts : forall sine w samples p, calculate_basic_processed_data sine w samples = Ok p ->
  exists c l g s d, (if is_waveform_sampled w samples then compress_waveform w else Ok w) = Ok c /\
    try_guess_waveform_label sine c samples = Ok l /\
    greatest (w_data c) = Ok g /\ smallest (w_data c) = Ok s /\
    (if is_custom l then try_guess_duty_cycle w l samples else try_guess_duty_cycle c l samples) = Ok d /\
    p_label p = l /\ p_positive_peak p = Some g /\ p_negative_peak p = Some s /\
    p_peak p = Some (cmax g (- s)) /\ p_duty_cycle p = Some d /\
    p_average p = (if is_waveform_sampled w samples
      then Some (accumulate (w_data w) / inject_Z (Z.of_nat (List.length (w_data w)))) else None).
Proof.
  intros sine w samples p HP. unfold calculate_basic_processed_data in HP.
  destruct (if is_waveform_sampled w samples then compress_waveform w else Ok w) as [c| | |] eqn:C; try discriminate.
  cbn [bind] in HP. destruct (try_guess_waveform_label sine c samples) as [l| | |] eqn:L; try discriminate.
  cbn [bind] in HP. destruct (calculate_offset c l) as [o| | |]; try discriminate.
  cbn [bind] in HP. destruct (greatest (w_data c)) as [g| | |] eqn:G; try discriminate.
  cbn [bind] in HP. destruct (smallest (w_data c)) as [s| | |] eqn:S; try discriminate.
  cbn [bind] in HP.
  destruct (if is_custom l then try_guess_duty_cycle w l samples else try_guess_duty_cycle c l samples) as [z| | |] eqn:Z;
    try discriminate.
  cbn [bind] in HP. injection HP as <-.
  exists c, l, g, s, z. repeat split; try assumption; reflexivity.
Qed.

(** * C64 The reported peaks are the extremes of the waveform *)

(** A waveform given by its corners. *)
Theorem C64_peaks : forall sine w samples p, is_waveform_sampled w samples = false ->
  calculate_basic_processed_data sine w samples = Ok p -> peaks (w_data w) p.
Proof.
  intros sine w samples p NS H.
  destruct (processed_parts _ _ _ _ H) as [c [l [g [s [d [C [_ [G [S [_ [_ [P1 [P2 [P3 _]]]]]]]]]]]]]].
  rewrite NS in C. injection C as <-.
  exists g, s, (cmax g (- s)). repeat split; try assumption.
  - apply (proj1 (extremes_of _ _ _ G S)).
  - apply (proj1 (proj2 (extremes_of _ _ _ G S))).
  - apply (proj2 (proj2 (extremes_of _ _ _ G S))). assumption.
  - apply (proj2 (proj2 (extremes_of _ _ _ G S))). assumption.
  - apply (proj1 (extremes_peak _ _ _ (extremes_of _ _ _ G S))).
  - apply (proj2 (extremes_peak _ _ _ (extremes_of _ _ _ G S))).
Qed.

(** A sampled waveform, whose peaks are read after compression: they are still
    those of all the samples.  Missing for the full claim: waveforms with slopes
    that are neither flat nor above the threshold. *)
Theorem C64_peaks_sampled_partial : forall sine pts label samples p, (2 <= List.length pts)%nat ->
  resolved (closed pts) ->
  calculate_basic_processed_data sine (of_points pts label) samples = Ok p -> peaks (map snd pts) p.
Proof.
  intros sine pts label samples p L R H.
  destruct (is_waveform_sampled (of_points pts label) samples) eqn:NS;
    [|exact (C64_peaks sine (of_points pts label) samples p NS H)].
  destruct (processed_parts _ _ _ _ H) as [c [l [g [s [d [C [_ [G [S [_ [_ [P1 [P2 [P3 _]]]]]]]]]]]]]].
  rewrite NS in C.
  destruct (greatest_total (map snd pts)) as [g0 G0]; [destruct pts; [cbn in L; lia|discriminate]|].
  destruct (smallest_total (map snd pts)) as [s0 S0]; [destruct pts; [cbn in L; lia|discriminate]|].
  pose proof (extremes_of _ _ _ G0 S0) as X0.
  pose proof (compressed_extremes _ _ _ _ _ L R C X0) as XC.
  destruct (extremes_values _ _ _ XC) as [g' [s' [G' [S' [EG ES]]]]].
  rewrite G' in G. injection G as <-. rewrite S' in S. injection S as <-.
  assert (X : extremes (map snd pts) g' s') by (apply (extremes_ext _ _ _ _ _ (Qeq_sym _ _ EG) (Qeq_sym _ _ ES) X0)).
  exists g', s', (cmax g' (- s')). split; [exact P1|]. split; [exact P2|]. split; [exact P3|].
  split; [exact X|]. exact (extremes_peak _ _ _ X).
Qed.

(** * The duty cycle is always a fraction of the period *)

Lemma ordered_nth : forall pts, ordered pts -> forall i j, (i <= j)%nat -> (j < List.length pts)%nat ->
  nth i (map fst pts) 0 <= nth j (map fst pts) 0.
Proof.
  induction pts as [|p l IH]; intros O i j IJ J; [cbn in J; lia|].
  destruct l as [|q l].
  - cbn in J. replace j with 0%nat by lia. replace i with 0%nat by lia. lra.
  - destruct O as [O1 O2]. destruct j as [|j].
    + replace i with 0%nat by lia. lra.
    + destruct i as [|i].
      * specialize (IH O2 0%nat j ltac:(lia) ltac:(cbn in J |- *; lia)). cbn [map nth] in IH |- *.
        apply Qle_trans with (fst q); [exact O1|exact IH].
      * apply (IH O2 i j); [lia|cbn in J |- *; lia].
Qed.

Lemma idx_ok : forall (l : list Q) k v, idx l k = Ok v -> (k < List.length l)%nat /\ v = nth k l 0.
Proof.
  intros l k v H. unfold idx in H. destruct (nth_error l k) as [x|] eqn:E; [|discriminate].
  injection H as <-. split; [apply nth_error_Some; congruence|]. symmetry. apply nth_error_nth. exact E.
Qed.

Section Duty.
Variable pts : list point.
Hypothesis timed : well_timed pts.

Lemma time_bounds : forall k v, idx (map fst pts) k = Ok v -> first_time pts <= v /\ v <= last_time pts.
Proof.
  intros k v H. destruct timed as [O T]. destruct (idx_ok _ _ _ H) as [K ->]. rewrite map_length in K.
  pose proof (timed_nonempty _ T) as NE. split.
  - pose proof (ordered_nth pts O 0 k ltac:(lia) K) as B. destruct pts; [congruence|exact B].
  - rewrite <- last_map_fst, <- nth_last by (destruct pts; [congruence|discriminate]).
    rewrite map_length. apply ordered_nth; [exact O|lia|destruct pts; [congruence|cbn; lia]].
Qed.

Lemma fraction : forall a b, first_time pts <= a -> a <= b -> b <= last_time pts ->
  0 <= (b - a) / (last_time pts - first_time pts) /\ (b - a) / (last_time pts - first_time pts) <= 1.
Proof.
  intros a b A AB B. destruct timed as [O T].
  assert (D : 0 < last_time pts - first_time pts) by lra.
  split; [rewrite (Qle_div_iff _ _ _ D)|rewrite (Qdiv_le_iff _ _ _ D)]; lra.
Qed.

Lemma corner_fraction : forall t d, corner (map fst pts) t = Ok d ->
  first_time pts <= t -> t <= last_time pts -> 0 <= d /\ d <= 1.
Proof.
  intros t d H A B. destruct timed as [O T]. pose proof (timed_nonempty _ T) as NE.
  unfold corner in H. rewrite front_points, back_points in H by exact NE. cbn [bind] in H.
  injection H as <-. apply fraction; lra.
Qed.

Lemma rounded_fraction : forall x, 0 <= x -> x <= 1 -> 0 <= roundFloat x 2 /\ roundFloat x 2 <= 1.
Proof.
  intros x X0 X1. unfold roundFloat. set (P := p10 2).
  assert (PP : P == 100) by reflexivity. clearbody P.
  assert (PS : 0 < P) by lra.
  assert (M0 : (0 <= qround (x * P))%Z) by (apply qround_nonneg; nra).
  assert (M1 : (qround (x * P) <= 100)%Z).
  { apply (qround_mono (x * P) 100). rewrite PP. lra. }
  split; [rewrite (Qle_div_iff _ _ _ PS)|rewrite (Qdiv_le_iff _ _ _ PS)].
  - apply (inj_le 0) in M0. change (inject_Z 0) with 0 in M0. lra.
  - assert (I : inject_Z (qround (x * P)) <= inject_Z 100) by (apply inj_le; exact M1).
    change (inject_Z 100) with 100 in I. lra.
Qed.

Lemma corners_fraction : forall w d n, w_time w = Some (map fst pts) ->
  duty_of_corners w n = Ok (Some d) -> 0 <= d /\ d <= 1.
Proof.
  intros w d n WT H. destruct timed as [O T]. pose proof (timed_nonempty _ T) as NE.
  unfold duty_of_corners in H. destruct (is_waveform_sampled w n); [discriminate|]. rewrite WT in H.
  destruct (Nat.ltb (List.length (map fst pts)) 3) eqn:L; [discriminate|]. apply Nat.ltb_ge in L.
  rewrite front_points, back_points in H by exact NE. cbn [bind] in H.
  destruct (idx (map fst pts) 0) as [t0| | |] eqn:I0; try discriminate.
  destruct (idx (map fst pts) 1) as [t1| | |] eqn:I1; try discriminate.
  destruct (idx (map fst pts) 2) as [t2| | |] eqn:I2; try discriminate.
  cbn [bind] in H.
  destruct (time_bounds _ _ I0) as [A0 B0]. destruct (time_bounds _ _ I1) as [A1 B1]. destruct (time_bounds _ _ I2) as [A2 B2].
  destruct (idx_ok _ _ _ I0) as [_ E0]. destruct (idx_ok _ _ _ I1) as [_ E1]. destruct (idx_ok _ _ _ I2) as [_ E2].
  rewrite map_length in L.
  assert (O1 : t0 <= t1) by (subst t0 t1; apply ordered_nth; [exact O|lia|lia]).
  assert (O2 : t1 <= t2) by (subst t1 t2; apply ordered_nth; [exact O|lia|lia]).
  destruct (Qlt_bool 0 (last_time pts - first_time pts)); [|discriminate].
  destruct (Nat.eqb (List.length (w_data w)) 3).
  { injection H as <-. destruct (fraction t0 t1); [lra|lra|lra|]. apply rounded_fraction; assumption. }
  destruct (Nat.eqb (List.length (w_data w)) 4).
  { injection H as <-. set (m := (t1 + t2) / 2).
    assert (2 * m == t1 + t2) by (unfold m; field). clearbody m.
    destruct (fraction t0 m); [lra|lra|lra|]. apply rounded_fraction; assumption. }
  destruct (Nat.eqb (List.length (w_data w)) 5); [|discriminate].
  injection H as <-. destruct (fraction t0 t2); [lra|lra|lra|]. apply rounded_fraction; assumption.
Qed.

Ltac step H := match type of H with
  | bind ?x _ = _ => let E := fresh "I" in destruct x eqn:E; try discriminate; cbn [bind] in H
  end.

(** Whatever the label and however the corners are laid out. *)
Theorem C64_duty_is_a_fraction : forall label l samples d,
  try_guess_duty_cycle (of_points pts label) l samples = Ok d -> 0 <= d /\ d <= 1.
Proof.
  intros label l samples d H.
  destruct timed as [O T]. pose proof (timed_nonempty _ T) as NE.
  assert (REST : (c <- duty_of_corners (of_points pts label) samples ;;
    match c with Some d => Ok d | None => measure_duty_cycle_from_samples (of_points pts label) end) = Ok d ->
    0 <= d /\ d <= 1).
  { intros R. destruct (duty_of_corners (of_points pts label) samples) as [[x|]| | |] eqn:C; try discriminate; cbn [bind] in R.
    - injection R as <-. exact (corners_fraction (of_points pts label) x samples eq_refl C).
    - exact (C38_between_0_and_1 pts label d timed R). }
  assert (ONE : forall k, (t <- idx (map fst pts) k ;; corner (map fst pts) t) = Ok d -> 0 <= d /\ d <= 1).
  { intros k R. destruct (idx (map fst pts) k) as [t| | |] eqn:I; try discriminate. cbn [bind] in R.
    destruct (time_bounds _ _ I). exact (corner_fraction t d R ltac:(assumption) ltac:(assumption)). }
  assert (TWO : forall i j, (i <= j)%nat -> (a <- idx (map fst pts) i ;; b <- idx (map fst pts) j ;;
      first <- front (map fst pts) ;; last <- back (map fst pts) ;; Ok ((b - a) / (last - first))) = Ok d -> 0 <= d /\ d <= 1).
  { intros i j IJ R. destruct (idx (map fst pts) i) as [a| | |] eqn:I; try discriminate.
    destruct (idx (map fst pts) j) as [b| | |] eqn:J; try discriminate.
    rewrite front_points, back_points in R by exact NE. cbn [bind] in R. injection R as <-.
    destruct (time_bounds _ _ I). destruct (time_bounds _ _ J).
    destruct (idx_ok _ _ _ I) as [_ E1]. destruct (idx_ok _ _ _ J) as [J2 E2]. rewrite map_length in J2.
    apply fraction; [assumption| |assumption]. subst a b. apply ordered_nth; assumption. }
  unfold try_guess_duty_cycle in H.
  assert (TM : time_of (of_points pts label) = Ok (map fst pts)) by reflexivity.
  rewrite TM in H.
  destruct l; cbn [bind] in H; try exact (REST H); try exact (ONE _ H).
  - destruct (Nat.eqb (List.length (map fst pts)) 3); [exact (ONE _ H)|].
    destruct (Nat.eqb (List.length (map fst pts)) 4); [|exact (REST H)].
    destruct (idx (map fst pts) 1) as [a| | |] eqn:I; try discriminate.
    destruct (idx (map fst pts) 2) as [b| | |] eqn:J; try discriminate. cbn [bind] in H.
    destruct (time_bounds _ _ I). destruct (time_bounds _ _ J).
    set (m := (a + b) / 2) in *. assert (2 * m == a + b) by (unfold m; field). clearbody m.
    apply (corner_fraction m d H); lra.
  - exact (TWO 2%nat 3%nat ltac:(lia) H).
  - exact (TWO 1%nat 2%nat ltac:(lia) H).
  - injection H as <-. split; lra.
  - destruct (Nat.eqb (List.length (map fst pts)) 4); [exact (ONE _ H)|].
    destruct (Nat.eqb (List.length (map fst pts)) 5); [exact (ONE _ H)|exact (REST H)].
  - destruct (Nat.eqb (List.length (map fst pts)) 4); [exact (ONE _ H)|].
    destruct (Nat.eqb (List.length (map fst pts)) 5); [exact (ONE _ H)|exact (REST H)].
Qed.
End Duty.

Lemma ordered_tail : forall p l, ordered (p :: l) -> ordered l.
Proof. intros p [|q l] H; [exact I|exact (proj2 H)]. Qed.

Lemma ordered_head : forall l p, ordered (p :: l) -> forall q, In q l -> fst p <= fst q.
Proof.
  induction l as [|a l IH]; intros p O q Q; [contradiction|]. destruct O as [O1 O2].
  destruct Q as [<-|Q]; [exact O1|]. apply Qle_trans with (fst a); [exact O1|exact (IH a O2 q Q)].
Qed.

Lemma ordered_sub : forall l m, sub l m -> ordered m -> ordered l.
Proof.
  intros l m S. induction S as [|x l m S IH|x l m S IH]; intros O; [exact I| |].
  - apply IH. exact (ordered_tail _ _ O).
  - specialize (IH (ordered_tail _ _ O)). destruct l as [|y l]; [exact I|].
    split; [|exact IH]. apply (ordered_head _ _ O). apply (sub_in _ _ _ _ S). left. reflexivity.
Qed.

Lemma sub_snoc : forall (A : Type) (l m : list A) x, sub l m -> sub (l ++ [x]) (m ++ [x]).
Proof. intros A l m x S. induction S; cbn [app]; repeat constructor; assumption. Qed.

Lemma compressed_timed : forall pts label c, (2 <= List.length pts)%nat -> ordered (closed pts) ->
  first_time pts < last_time pts ->
  compress_waveform (of_points pts label) = Ok c ->
  exists kept, c = of_points kept label /\ well_timed kept.
Proof.
  intros pts label c L O T C.
  destruct (C40_only_samples_in_order pts label L c C) as [kept [E S]].
  destruct (C40_first_and_closing pts label L) as [kept' [E' [HD NE]]].
  rewrite C in E'. rewrite E in E'. injection E' as M1 M2.
  assert (KK : kept ++ [closing pts] = kept' ++ [closing pts])
    by (rewrite <- (combine_map (kept ++ [closing pts])), <- (combine_map (kept' ++ [closing pts])), M1, M2; reflexivity).
  apply app_inv_tail in KK. subst kept'.
  exists (kept ++ [closing pts]). split; [exact E|]. split.
  - apply (ordered_sub _ (closed pts)); [apply sub_snoc; exact S|exact O].
  - rewrite first_time_app by exact NE. rewrite last_time_app by discriminate.
    unfold first_time at 1. rewrite HD. fold (first_time pts).
    apply Qlt_le_trans with (last_time pts); [exact T|].
    assert (PN : pts <> []) by (intros ->; cbn in L; lia).
    change (last_time [closing pts]) with (fst (closing pts)).
    unfold last_time. rewrite (app_removelast_last (0, 0) PN) in O. unfold closed in O.
    rewrite <- (app_removelast_last (0, 0) PN) in O.
    clear - O PN. rewrite (app_removelast_last (0, 0) PN), <- app_assoc in O. cbn [app] in O.
    rewrite <- (app_removelast_last (0, 0) PN) in O.
    induction (removelast pts) as [|a l IH]; [exact (proj1 O)|]. apply IH. exact (ordered_tail _ _ O).
Qed.

(** The same for the whole report, compressed or not. *)
Theorem C64_reported_duty : forall sine pts label samples p, (2 <= List.length pts)%nat ->
  ordered (closed pts) -> first_time pts < last_time pts ->
  calculate_basic_processed_data sine (of_points pts label) samples = Ok p ->
  exists d, p_duty_cycle p = Some d /\ 0 <= d /\ d <= 1.
Proof.
  intros sine pts label samples p L O T H.
  destruct (processed_parts _ _ _ _ H) as [c [l [g [s [d [C [_ [_ [_ [D [_ [_ [_ [_ [P _]]]]]]]]]]]]]]].
  exists d. split; [exact P|].
  assert (W : well_timed pts).
  { split; [|exact T]. unfold closed in O. generalize dependent (closing pts). clear. intros z O. induction pts as [|a m IH]; [exact I|].
    destruct m as [|b m]; [exact I|]. destruct O as [O1 O2]. split; [exact O1|]. apply IH. exact O2. }
  assert (WC : exists kept, c = of_points kept label /\ well_timed kept).
  { destruct (is_waveform_sampled (of_points pts label) samples).
    - exact (compressed_timed _ _ _ L O T C).
    - injection C as <-. exists pts. split; [reflexivity|exact W]. }
  destruct WC as [kept [-> WK]].
  destruct (is_custom l); [exact (C64_duty_is_a_fraction pts W _ _ _ _ D)|exact (C64_duty_is_a_fraction kept WK _ _ _ _ D)].
Qed.

(** The reported average of a sampled waveform is the mean of its samples, and
    lies between its extremes. *)
Theorem C64_sampled_average : forall sine w samples p, is_waveform_sampled w samples = true ->
  calculate_basic_processed_data sine w samples = Ok p ->
  exists a, p_average p = Some a /\
    a * inject_Z (Z.of_nat (List.length (w_data w))) == Qsum (w_data w) /\
    forall lo hi, (forall x, In x (w_data w) -> lo <= x /\ x <= hi) -> lo <= a /\ a <= hi.
Proof.
  intros sine w samples p S H.
  destruct (processed_parts _ _ _ _ H) as [c [l [g [s [d [C [_ [G [_ [_ [_ [_ [_ [_ [_ A]]]]]]]]]]]]]]].
  rewrite S in A, C. eexists. split; [exact A|].
  assert (NE : (0 < List.length (w_data w))%nat).
  { unfold compress_waveform in C. destruct (w_data w) as [|x m] eqn:E; [|cbn; lia].
    cbn in C. injection C as <-. rewrite E in G. discriminate. }
  assert (AC : forall m z, fold_left Qplus m z == z + Qsum m).
  { induction m as [|x m IH]; intros z; cbn [fold_left Qsum]; [ring|]. rewrite IH. ring. }
  assert (N : 0 < inject_Z (Z.of_nat (List.length (w_data w)))) by (apply (inj_lt 0); lia).
  assert (E : accumulate (w_data w) == Qsum (w_data w)) by (unfold accumulate; rewrite AC; ring).
  split; [rewrite E; field; lra|].
  intros lo hi B.
  assert (BD : lo * inject_Z (Z.of_nat (List.length (w_data w))) <= Qsum (w_data w) /\
               Qsum (w_data w) <= hi * inject_Z (Z.of_nat (List.length (w_data w)))).
  { clear - B. induction (w_data w) as [|x m IH];
      [cbn [Qsum List.length]; change (inject_Z (Z.of_nat 0)) with 0; split; lra|].
    destruct IH as [I1 I2]; [intros y Y; apply B; right; exact Y|].
    destruct (B x (or_introl eq_refl)). cbn [Qsum List.length]. rewrite Nat2Z.inj_succ. unfold Z.succ.
    rewrite inject_Z_plus. change (inject_Z 1) with 1. split; lra. }
  rewrite E. split; [rewrite (Qle_div_iff _ _ _ N)|rewrite (Qdiv_le_iff _ _ _ N)]; lra.
Qed.

(** Without the threshold on slopes the claim fails: a pulse of a tenth of a
    nanoampere over seconds disappears from the report. *)
Theorem C64_slow_peak_refuted : exists p hi,
  calculate_basic_processed_data (fun _ => 0)
    (of_points [(0, 0); (1, 1 # 10000000000); (2, 0); (3, 0)] None) 4 = Ok p /\
  p_positive_peak p = Some hi /\ hi == 0.
Proof.
  eexists. eexists. split; [vm_compute; reflexivity|]. split; reflexivity.
Qed.

Example C64_witness : exists p,
  resolved (closed [(0, 0); (1, 5); (2, -3); (3, 0)]) /\ ordered (closed [(0, 0); (1, 5); (2, -3); (3, 0)]) /\
  is_waveform_sampled (of_points [(0, 0); (1, 5); (2, -3); (3, 0)] None) 4 = true /\
  calculate_basic_processed_data (fun _ => 0) (of_points [(0, 0); (1, 5); (2, -3); (3, 0)] None) 4 = Ok p /\
  p_peak p = Some 5.
Proof.
  eexists. split.
  { cbn [closed closing app resolved fst snd map List.length nth hd Nat.sub].
    repeat split; try lra; try (right; reflexivity); try (left; reflexivity). }
  split; [cbn [closed closing app ordered fst snd map List.length nth hd Nat.sub]; repeat split; lra|].
  split; [reflexivity|]. split; [vm_compute; reflexivity|]. reflexivity.
Qed.

Print Assumptions C64_peaks_sampled_partial.
Print Assumptions C64_duty_is_a_fraction.
Print Assumptions C64_reported_duty.
Print Assumptions C64_sampled_average.
