(** C38 and C39: the measured duty cycle and the average of a waveform. *)
From Coq Require Import ZArith QArith Qabs Qminmax List String Bool Arith Lia Lqa.
From Verif Require Import Base QAux WaveModel WaveProofs.
Import ListNotations.
Open Scope Q_scope.
Open Scope outcome_scope.

(** * Vocabulary

    A waveform with as many times as samples is given by its points: pairs of a
    time and a value.  [affine k c] maps the values by [v -> k v + c] and
    [retime k c] the times by [t -> k t + c] (both in [WaveProofs]). *)

(** Times never go back, and some time passes. *)
Definition well_timed (pts : list point) : Prop :=
  ordered pts /\ first_time pts < last_time pts.

Definition period (pts : list point) : Q := last_time pts - first_time pts.

(** The height of the straight line from [a] to [b] after a fraction [u] of it. *)
Definition on_line (a b u : Q) : Q := a + u * (b - a).

(** The share of a straight segment from [a] to [b] spent at or above [level]. *)
Definition share_above (level a b : Q) : Q :=
  let lo := Qmin a b in
  let hi := Qmax a b in
  if Qle_bool level lo then 1
  else if Qle_bool hi level then 0
  else (hi - level) / (hi - lo).

(** The time the polyline through the points spends at or above [level]. *)
Fixpoint time_above (level : Q) (pts : list point) : Q :=
  match pts with
  | p :: ((q :: _) as rest) =>
      (fst q - fst p) * share_above level (snd p) (snd q) + time_above level rest
  | _ => 0
  end.

(** Does a segment cross [level] strictly? *)
Definition straddles (level a b : Q) : bool :=
  Qlt_bool (Qmin a b) level && Qlt_bool level (Qmax a b).

(** The time taken by the segments that cross [level]. *)
Fixpoint crossing_time (level : Q) (pts : list point) : Q :=
  match pts with
  | p :: ((q :: _) as rest) =>
      (if straddles level (snd p) (snd q) then fst q - fst p else 0) + crossing_time level rest
  | _ => 0
  end.

(** Middle level of a set of samples: half way between its extremes. *)
Definition is_mid_level (pts : list point) (mid : Q) : Prop :=
  exists hi lo, (exists p, In p pts /\ snd p == hi) /\ (exists p, In p pts /\ snd p == lo) /\
    (forall p, In p pts -> lo <= snd p /\ snd p <= hi) /\ mid == (hi + lo) / 2.

(** * The share of a segment is what it says *)

Lemma min_max_cases : forall a b, (a <= b /\ Qmin a b == a /\ Qmax a b == b) \/
  (b <= a /\ Qmin a b == b /\ Qmax a b == a).
Proof.
  intros a b. destruct (Qlt_le_dec b a) as [L|L].
  - right. split; [lra|]. split; [apply Q.min_r; lra|apply Q.max_l; lra].
  - left. split; [exact L|]. split; [apply Q.min_l; lra|apply Q.max_r; lra].
Qed.

(** On a rising segment, the points at or above the level are those from
    fraction [1 - share] on; on a falling one, those up to fraction [share]. *)
Theorem C38_share_meaning : forall level a b u, 0 <= u -> u <= 1 ->
  Qmin a b < level -> level < Qmax a b ->
  (a < b -> (level <= on_line a b u <-> 1 - share_above level a b <= u)) /\
  (b < a -> (level <= on_line a b u <-> u <= share_above level a b)).
Proof.
  intros level a b u U0 U1 Lo Hi. unfold share_above, on_line.
  destruct (Qle_bool level (Qmin a b)) eqn:E1; [apply Qle_bool_iff in E1; lra|].
  destruct (Qle_bool (Qmax a b) level) eqn:E2; [apply Qle_bool_iff in E2; lra|].
  split; intros AB.
  - destruct (min_max_cases a b) as [[_ [M1 M2]]|[W _]]; [|lra].
    rewrite M1, M2 in *. clear M1 M2.
    assert (D : 0 < b - a) by lra.
    assert (E : 1 - (b - level) / (b - a) == (level - a) / (b - a)) by (field; lra).
    rewrite E, (Qdiv_le_iff _ _ _ D). split; lra.
  - destruct (min_max_cases a b) as [[W _]|[_ [M1 M2]]]; [lra|].
    rewrite M1, M2 in *. clear M1 M2.
    assert (D : 0 < a - b) by lra.
    rewrite (Qle_div_iff _ _ _ D). split; lra.
Qed.

(** * C38 Duty cycle measured from samples is a fraction of the period *)

Lemma mid_of_extremes : forall pts mx mn, greatest (map snd pts) = Ok mx ->
  smallest (map snd pts) = Ok mn -> is_mid_level pts ((mx + mn) / 2).
Proof.
  intros pts mx mn G M. destruct (greatest_spec _ _ G) as [G1 G2].
  destruct (smallest_spec _ _ M) as [M1 M2].
  apply in_map_iff in G1. destruct G1 as [p [P1 P2]].
  apply in_map_iff in M1. destruct M1 as [q [Q1 Q2]].
  exists mx, mn. split; [exists p; split; [exact P2|rewrite P1; reflexivity]|].
  split; [exists q; split; [exact Q2|rewrite Q1; reflexivity]|].
  split; [|reflexivity]. intros r R. split.
  - apply M2. apply in_map. exact R.
  - apply G2. apply in_map. exact R.
Qed.

Lemma mid_level_unique : forall pts m n, is_mid_level pts m -> is_mid_level pts n -> m == n.
Proof.
  intros pts m n [h [l [[p [P1 P2]] [[q [Q1 Q2]] [B E]]]]] [h' [l' [[p' [P1' P2']] [[q' [Q1' Q2']] [B' E']]]]].
  assert (H : h == h').
  { destruct (B p' P1'), (B' p P1). lra. }
  assert (L : l == l').
  { destruct (B q' Q1'), (B' q Q1). lra. }
  rewrite E, E', H, L. reflexivity.
Qed.

Theorem C38_measured : forall pts label, (2 <= List.length pts)%nat ->
  exists d, measure_duty_cycle_from_samples (of_points pts label) = Ok d.
Proof. exact measure_total. Qed.

Theorem C38_between_0_and_1 : forall pts label d, well_timed pts ->
  measure_duty_cycle_from_samples (of_points pts label) = Ok d -> 0 <= d /\ d <= 1.
Proof.
  intros pts label d [O T] H. destruct (measure_points _ _ _ T H) as [mx [mn [_ [_ E]]]].
  assert (NE : pts <> []) by (intros ->; unfold first_time, last_time in T; cbn in T; lra).
  destruct (on_time_bounds ((mx + mn) / 2) pts NE O) as [L U].
  assert (D : 0 < last_time pts - first_time pts) by lra.
  rewrite E. split.
  - rewrite (Qle_div_iff _ _ _ D). lra.
  - rewrite (Qdiv_le_iff _ _ _ D). lra.
Qed.

(** Without times, or with times that do not match, samples are counted. *)
Theorem C38_between_0_and_1_untimed : forall data label d,
  measure_duty_cycle_from_samples (mkWave data None label) = Ok d -> 0 <= d /\ d <= 1.
Proof.
  intros data label d H. unfold measure_duty_cycle_from_samples in H. cbn [w_data w_time] in H.
  destruct (Nat.ltb (List.length data) 2) eqn:L; [discriminate|]. apply Nat.ltb_ge in L.
  destruct (greatest data) as [mx| | |]; try discriminate.
  destruct (smallest data) as [mn| | |]; try discriminate. cbn [bind] in H. injection H as <-.
  unfold share_of_samples.
  assert (D : 0 < inject_Z (Z.of_nat (List.length data))) by (apply (inj_lt 0); lia).
  assert (F : (List.length (filter (fun x => Qle_bool ((mx + mn) / 2) x) data) <= List.length data)%nat).
  { clear. induction data as [|x data IH]; cbn [filter]; [lia|].
    destruct (Qle_bool ((mx + mn) / 2) x); cbn [List.length]; lia. }
  split.
  - rewrite (Qle_div_iff _ _ _ D), Qmult_0_l. apply (inj_le 0). lia.
  - rewrite (Qdiv_le_iff _ _ _ D), Qmult_1_l. apply inj_le. lia.
Qed.

(** Scaling by a positive factor and shifting vertically. *)
Theorem C38_scale_and_shift : forall k c pts label label' d d', 0 < k ->
  first_time pts < last_time pts ->
  measure_duty_cycle_from_samples (of_points pts label) = Ok d ->
  measure_duty_cycle_from_samples (of_points (map (affine k c) pts) label') = Ok d' ->
  d' == d.
Proof.
  intros k c pts label label' d d' K T H H'.
  destruct (measure_points _ _ _ T H) as [mx [mn [G [M E]]]].
  assert (T' : first_time (map (affine k c) pts) < last_time (map (affine k c) pts))
    by (rewrite affine_first, affine_last; exact T).
  destruct (measure_points _ _ _ T' H') as [mx' [mn' [G' [M' E']]]].
  rewrite E, E', affine_first, affine_last.
  rewrite (on_time_affine k c ((mx + mn) / 2)); [reflexivity|exact K|].
  pose proof (mid_of_extremes _ _ _ G' M') as ML'.
  apply (mid_level_unique (map (affine k c) pts)); [exact ML'|].
  destruct (mid_of_extremes _ _ _ G M) as [hi [lo [[p [P1 P2]] [[q [Q1 Q2]] [B EE]]]]].
  exists (k * hi + c), (k * lo + c).
  split; [exists (affine k c p); split; [apply in_map; exact P1|cbn [affine snd]; rewrite P2; reflexivity]|].
  split; [exists (affine k c q); split; [apply in_map; exact Q1|cbn [affine snd]; rewrite Q2; reflexivity]|].
  split.
  - intros r R. apply in_map_iff in R. destruct R as [s [<- S]]. destruct (B s S) as [B1 B2].
    apply (Qmult_le_l _ _ _ K) in B1. apply (Qmult_le_l _ _ _ K) in B2.
    cbn [affine snd]. split; lra.
  - rewrite EE. field.
Qed.

(** Moving the waveform in time, or stretching its time axis. *)
Theorem C38_time_shift_and_stretch : forall k c pts label label' d d', 0 < k ->
  first_time pts < last_time pts ->
  measure_duty_cycle_from_samples (of_points pts label) = Ok d ->
  measure_duty_cycle_from_samples (of_points (map (retime k c) pts) label') = Ok d' ->
  d' == d.
Proof.
  intros k c pts label label' d d' K T H H'.
  assert (NE : pts <> []) by (intros ->; unfold first_time, last_time in T; cbn in T; lra).
  destruct (measure_points _ _ _ T H) as [mx [mn [G [M E]]]].
  assert (T' : first_time (map (retime k c) pts) < last_time (map (retime k c) pts))
    by (rewrite (retime_first _ _ _ NE), (retime_last _ _ _ NE); nra).
  destruct (measure_points _ _ _ T' H') as [mx' [mn' [G' [M' E']]]].
  assert (V : map snd (map (retime k c) pts) = map snd pts) by (rewrite map_map; reflexivity).
  rewrite V in G', M'. rewrite G in G'. rewrite M in M'. injection G' as <-. injection M' as <-.
  rewrite E, E', (retime_first _ _ _ NE), (retime_last _ _ _ NE), on_time_retime.
  field. split; nra.
Qed.

Lemma crossing_bound : forall level pts, ordered pts ->
  time_above level pts - crossing_time level pts / 2 <= on_time level pts /\
  on_time level pts <= time_above level pts + crossing_time level pts / 2.
Proof.
  intros level. induction pts as [|p l IH]; intros O.
  - split; apply Qle_bool_iff; reflexivity.
  - destruct l as [|q l]; [split; apply Qle_bool_iff; reflexivity|].
    destruct O as [O1 O2]. destruct (IH O2) as [L U].
    change (time_above level (p :: q :: l)) with
      ((fst q - fst p) * share_above level (snd p) (snd q) + time_above level (q :: l)).
    change (crossing_time level (p :: q :: l)) with
      ((if straddles level (snd p) (snd q) then fst q - fst p else 0) + crossing_time level (q :: l)).
    rewrite on_time_cons.
    set (A := time_above level (q :: l)) in *. set (C := crossing_time level (q :: l)) in *.
    set (B := on_time level (q :: l)) in *. clearbody A B C.
    set (w := fst q - fst p). assert (W : 0 <= w) by (unfold w; lra). clearbody w. clear O1 O2 IH.
    assert (S2 : forall x, (x + C) / 2 == (1 # 2) * x + C / 2) by (intros x; field).
    rewrite S2. set (c2 := C / 2) in *. clearbody c2. clear S2.
    set (half := (snd p + snd q) / 2).
    assert (HALF : 2 * half == snd p + snd q) by (unfold half; field). clearbody half.
    unfold share_above, straddles.
    set (a := snd p) in *. set (b := snd q) in *. clearbody a b.
    destruct (min_max_cases a b) as [[AB [M1 M2]]|[AB [M1 M2]]];
      set (mn := Qmin a b) in *; set (mx := Qmax a b) in *; clearbody mn mx;
      (destruct (Qlt_bool mn level) eqn:E1; destruct (Qle_bool level mn) eqn:E3; qb; try lra;
       destruct (Qlt_bool level mx) eqn:E2; destruct (Qle_bool mx level) eqn:E4; qb; try lra;
       destruct (Qle_bool level half) eqn:E5; qb; cbn [andb]; try (split; lra)).
    all: set (s := (mx - level) / (mx - mn)).
    all: assert (D : 0 < mx - mn) by lra.
    all: assert (HS : s * (mx - mn) == mx - level) by (unfold s; field; lra).
    all: clearbody s.
    + assert (1 # 2 <= s) by nra. assert (s <= 1) by nra. split; nra.
    + assert (s <= 1 # 2) by nra. assert (0 <= s) by nra. split; nra.
    + assert (1 # 2 <= s) by nra. assert (s <= 1) by nra. split; nra.
    + assert (s <= 1 # 2) by nra. assert (0 <= s) by nra. split; nra.
Qed.

(** The measured duty cycle differs from the fraction of the period the polyline
    spends at or above the mid level by at most half the time of the segments
    that cross that level.  Missing for the full claim: equality; a crossing
    segment is counted whole or not at all (next theorem). *)
Theorem C38_fraction_above_partial : forall pts label d mid, well_timed pts -> is_mid_level pts mid ->
  measure_duty_cycle_from_samples (of_points pts label) = Ok d ->
  Qabs (d - time_above mid pts / period pts) <= crossing_time mid pts / 2 / period pts.
Proof.
  intros pts label d mid [O T] ML H.
  destruct (measure_points _ _ _ T H) as [mx [mn [G [M E]]]].
  pose proof (mid_level_unique _ _ _ ML (mid_of_extremes _ _ _ G M)) as EM.
  assert (E2 : d == on_time mid pts / period pts).
  { rewrite E. unfold period. rewrite (on_time_ext _ _ pts EM). reflexivity. }
  assert (D : 0 < period pts) by (unfold period; lra).
  destruct (crossing_bound mid pts O) as [L U].
  assert (E3 : d - time_above mid pts / period pts == (on_time mid pts - time_above mid pts) / period pts)
    by (rewrite E2; field; lra).
  rewrite E3. apply Qabs_Qle_condition. split.
  - rewrite (Qle_div_iff _ _ _ D).
    assert (X : - (crossing_time mid pts / 2 / period pts) * period pts == - (crossing_time mid pts / 2))
      by (field; lra).
    rewrite X. lra.
  - rewrite (Qdiv_le_iff _ _ _ D).
    assert (X : crossing_time mid pts / 2 / period pts * period pts == crossing_time mid pts / 2)
      by (field; lra).
    rewrite X. lra.
Qed.

(** In particular it is exact when no segment takes time to cross the level, as
    in a rectangular waveform. *)
Theorem C38_exact_without_crossings : forall pts label d mid, well_timed pts -> is_mid_level pts mid ->
  crossing_time mid pts == 0 ->
  measure_duty_cycle_from_samples (of_points pts label) = Ok d ->
  d == time_above mid pts / period pts.
Proof.
  intros pts label d mid W ML C H.
  pose proof (C38_fraction_above_partial _ _ _ _ W ML H) as B.
  assert (D : 0 < period pts) by (destruct W; unfold period; lra).
  assert (Z : crossing_time mid pts / 2 / period pts == 0) by (rewrite C; field; lra).
  rewrite Z in B. apply Qabs_Qle_condition in B. lra.
Qed.

(** The claim read literally fails: a symmetric triangle is above its middle
    level half of the time and measures a duty cycle of one. *)
Theorem C38_fraction_above_refuted : exists pts d mid,
  well_timed pts /\ is_mid_level pts mid /\
  measure_duty_cycle_from_samples (of_points pts None) = Ok d /\
  d == 1 /\ time_above mid pts / period pts == 1 # 2.
Proof.
  exists [(0, 0); (1, 2); (2, 0)], (2 / 2), 1.
  split; [split; [cbn [ordered fst]; lra|reflexivity]|].
  split.
  - exists 2, 0. split; [exists (1, 2); split; [right; left; reflexivity|reflexivity]|].
    split; [exists (0, 0); split; [left; reflexivity|reflexivity]|].
    split; [|reflexivity].
    intros p [<-|[<-|[<-|[]]]]; cbn [snd]; split; lra.
  - split; [reflexivity|]. split; reflexivity.
Qed.

Example C38_witness : exists d, well_timed [(0, 1); (0, 5); (3, 5); (3, 1); (10, 1)] /\
  measure_duty_cycle_from_samples (of_points [(0, 1); (0, 5); (3, 5); (3, 1); (10, 1)] None) = Ok d /\
  d == 3 # 10 /\ crossing_time 3 [(0, 1); (0, 5); (3, 5); (3, 1); (10, 1)] == 0.
Proof.
  eexists. split; [split; [cbn [ordered fst]; lra|reflexivity]|].
  split; [reflexivity|]. split; reflexivity.
Qed.

(** * C39 The average of a waveform lies between its extremes *)

Theorem C39_average_exists : forall pts label, pts <> [] ->
  exists a, calculate_waveform_average (of_points pts label) = Ok a.
Proof.
  intros pts label NE. destruct (average_points pts label NE) as [a [H _]]. exists a. exact H.
Qed.

Lemma average_value : forall pts label a, pts <> [] ->
  calculate_waveform_average (of_points pts label) = Ok a ->
  a == area pts / (last_time pts - first_time pts).
Proof.
  intros pts label a NE H. destruct (average_points pts label NE) as [b [H' E]]. congruence.
Qed.

Lemma timed_nonempty : forall pts, first_time pts < last_time pts -> pts <> [].
Proof. intros pts T ->. unfold first_time, last_time in T. cbn in T. lra. Qed.

Theorem C39_between_extremes : forall pts label a lo hi, well_timed pts ->
  (forall p, In p pts -> lo <= snd p /\ snd p <= hi) ->
  calculate_waveform_average (of_points pts label) = Ok a -> lo <= a /\ a <= hi.
Proof.
  intros pts label a lo hi [O T] B H. pose proof (timed_nonempty _ T) as NE.
  rewrite (average_value _ _ _ NE H). destruct (area_bounds lo hi pts O B NE) as [L U].
  assert (D : 0 < last_time pts - first_time pts) by lra.
  split; [rewrite (Qle_div_iff _ _ _ D); exact L|rewrite (Qdiv_le_iff _ _ _ D); exact U].
Qed.

Theorem C39_scale_and_offset : forall k c pts label label' a a', first_time pts < last_time pts ->
  calculate_waveform_average (of_points pts label) = Ok a ->
  calculate_waveform_average (of_points (map (affine k c) pts) label') = Ok a' ->
  a' == k * a + c.
Proof.
  intros k c pts label label' a a' T H H'. pose proof (timed_nonempty _ T) as NE.
  assert (NE' : map (affine k c) pts <> []) by (destruct pts; [congruence|discriminate]).
  rewrite (average_value _ _ _ NE H), (average_value _ _ _ NE' H'), area_affine, affine_first, affine_last.
  field. lra.
Qed.

Theorem C39_constant : forall pts label a c, first_time pts < last_time pts ->
  (forall p, In p pts -> snd p == c) ->
  calculate_waveform_average (of_points pts label) = Ok a -> a == c.
Proof.
  intros pts label a c T C H. pose proof (timed_nonempty _ T) as NE.
  rewrite (average_value _ _ _ NE H).
  assert (A : area pts == c * (last_time pts - first_time pts)).
  { clear H T. induction pts as [|p l IH]; [congruence|]. destruct l as [|q l].
    - unfold first_time, last_time. cbn [area hd last]. ring.
    - rewrite area_cons, last_time_cons, (IH (fun r R => C r (or_intror R)) ltac:(discriminate)).
      unfold first_time. cbn [hd].
      rewrite (C p (or_introl eq_refl)), (C q (or_intror (or_introl eq_refl))). field. }
  rewrite A. field. lra.
Qed.

(** Superposition: the average of the sum of two waveforms on the same times. *)
Theorem C39_superposition : forall pts others label label' label'' a b s,
  first_time pts < last_time pts -> map fst others = map fst pts ->
  calculate_waveform_average (of_points pts label) = Ok a ->
  calculate_waveform_average (of_points others label') = Ok b ->
  calculate_waveform_average
    (of_points (map (fun pq => (fst (fst pq), snd (fst pq) + snd (snd pq))) (combine pts others)) label'') = Ok s ->
  s == a + b.
Proof.
  intros pts others label label' label'' a b s T E Ha Hb Hs. pose proof (timed_nonempty _ T) as NE.
  set (add := fun pq : point * point => (fst (fst pq), snd (fst pq) + snd (snd pq))) in *.
  assert (LE : List.length others = List.length pts)
    by (rewrite <- (map_length fst others), E, map_length; reflexivity).
  assert (NE2 : others <> []) by (intros ->; destruct pts; [congruence|discriminate]).
  assert (NE3 : map add (combine pts others) <> [])
    by (destruct pts, others; try congruence; discriminate).
  rewrite (average_value _ _ _ NE Ha), (average_value _ _ _ NE2 Hb), (average_value _ _ _ NE3 Hs).
  assert (F : forall X Y : list point, map fst Y = map fst X ->
            first_time Y = first_time X /\ last_time Y = last_time X).
  { intros X Y XY. split.
    - destruct X, Y; try discriminate; [reflexivity|]. injection XY as XY _. exact XY.
    - rewrite <- !last_map_fst, XY. reflexivity. }
  assert (TM : map fst (map add (combine pts others)) = map fst pts).
  { clear -LE. revert others LE. induction pts as [|p l IH]; intros [|q m] LE; try discriminate; [reflexivity|].
    cbn [combine map]. cbn [List.length] in LE. rewrite IH by lia. reflexivity. }
  destruct (F _ _ E) as [-> ->]. destruct (F _ _ TM) as [-> ->].
  assert (A : area (map add (combine pts others)) == area pts + area others).
  { clear -E. revert others E. induction pts as [|p l IH]; intros [|q m] E; try discriminate.
    - cbn [combine map area]. ring.
    - destruct l as [|p' l], m as [|q' m]; try discriminate.
      + cbn [combine map area]. ring.
      + assert (E' : map fst (q' :: m) = map fst (p' :: l)) by (injection E as _ E1 E2; cbn [map]; congruence).
        specialize (IH (q' :: m) E').
        assert (E1 : fst q = fst p /\ fst q' = fst p') by (injection E as E1 E2 _; auto).
        destruct E1 as [E1 E2].
        change (map add (combine (p :: p' :: l) (q :: q' :: m))) with
          (add (p, q) :: add (p', q') :: map add (combine l m)).
        rewrite !area_cons.
        change (add (p', q') :: map add (combine l m)) with (map add (combine (p' :: l) (q' :: m))).
        rewrite IH. unfold add. cbn [fst snd]. rewrite E1, E2. field. }
  rewrite A. field. lra.
Qed.

(** Time shift and stretch. *)
Theorem C39_time_shift_and_stretch : forall k c pts label label' a a', 0 < k ->
  first_time pts < last_time pts ->
  calculate_waveform_average (of_points pts label) = Ok a ->
  calculate_waveform_average (of_points (map (retime k c) pts) label') = Ok a' -> a' == a.
Proof.
  intros k c pts label label' a a' K T H H'. pose proof (timed_nonempty _ T) as NE.
  assert (NE' : map (retime k c) pts <> []) by (destruct pts; [congruence|discriminate]).
  rewrite (average_value _ _ _ NE H), (average_value _ _ _ NE' H'), area_retime,
    (retime_first _ _ _ NE), (retime_last _ _ _ NE).
  field. split; nra.
Qed.

(** A sample added on the straight line between two others changes nothing: the
    average is that of the polyline, whatever the sampling. *)
Theorem C39_added_sample : forall before p q after u label label' a a',
  first_time (before ++ p :: q :: after) < last_time (before ++ p :: q :: after) ->
  calculate_waveform_average (of_points (before ++ p :: q :: after) label) = Ok a ->
  calculate_waveform_average (of_points
    (before ++ p :: (on_line (fst p) (fst q) u, on_line (snd p) (snd q) u) :: q :: after) label') = Ok a' ->
  a' == a.
Proof.
  intros before p q after u label label' a a' T H H'.
  set (m := (on_line (fst p) (fst q) u, on_line (snd p) (snd q) u)) in *.
  assert (NE : before ++ p :: q :: after <> []) by (destruct before; discriminate).
  assert (NE' : before ++ p :: m :: q :: after <> []) by (destruct before; discriminate).
  rewrite (average_value _ _ _ NE H), (average_value _ _ _ NE' H').
  assert (F : first_time (before ++ p :: m :: q :: after) = first_time (before ++ p :: q :: after))
    by (destruct before; reflexivity).
  assert (L : last_time (before ++ p :: m :: q :: after) = last_time (before ++ p :: q :: after))
    by (rewrite !last_time_app by discriminate; reflexivity).
  assert (A : area (before ++ p :: m :: q :: after) == area (before ++ p :: q :: after)).
  { rewrite (area_app before p (m :: q :: after)), (area_app before p (q :: after)), !area_cons.
    unfold m, on_line. cbn [fst snd]. field. }
  rewrite F, L, A. reflexivity.
Qed.

Example C39_witness : exists a,
  well_timed [(0, 0); (1, 4); (3, 4); (4, -2)] /\
  calculate_waveform_average (of_points [(0, 0); (1, 4); (3, 4); (4, -2)] None) = Ok a /\ a == 11 # 4.
Proof.
  eexists. split; [split; [cbn [ordered fst]; lra|reflexivity]|]. split; [reflexivity|]. reflexivity.
Qed.

Print Assumptions C38_between_0_and_1.
Print Assumptions C38_fraction_above_partial.
Print Assumptions C39_between_extremes.
Print Assumptions C39_superposition.
Print Assumptions C39_added_sample.
