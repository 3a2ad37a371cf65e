(** C60, C62, C63: the waveforms created for a named shape, and reading their
    parameters and their name back. *)
From Coq Require Import ZArith QArith Qabs List String Bool Arith Lia Lqa.
From Verif Require Import Base QAux WaveModel WaveProofs WaveProperties.
Import ListNotations.
Open Scope Q_scope.
Open Scope outcome_scope.

(** * Vocabulary *)

(** Requests a user can make: positive frequency, duty cycle a fraction, dead time
    within what the duty cycle leaves of the period. *)
Record sensible (frequency dutyCycle deadTime : Q) : Prop := {
  s_frequency : 0 < frequency;
  s_duty0 : 0 <= dutyCycle;
  s_duty1 : dutyCycle <= 1;
  s_dead0 : 0 <= deadTime;
  s_dead1 : deadTime <= (1 - dutyCycle) / frequency
}.

(** Values reached by a waveform: [hi] and [lo] are its extremes. *)
Definition extremes (data : list Q) (hi lo : Q) : Prop :=
  (exists x, In x data /\ x == hi) /\ (exists x, In x data /\ x == lo) /\
  (forall x, In x data -> lo <= x /\ x <= hi).

(** The mean over a period of each shape, from its description: ramps count half. *)
Definition mean_of_shape (label : wave_label) (peakToPeak duty offset : Q) : option Q :=
  match label with
  | TRIANGULAR | RECTANGULAR | SECONDARY_RECTANGULAR => Some offset
  | UNIPOLAR_TRIANGULAR => Some (offset + peakToPeak * duty / 2)
  | UNIPOLAR_RECTANGULAR => Some (offset + peakToPeak * cmin (1 # 2) duty)
  | BIPOLAR_RECTANGULAR | BIPOLAR_TRIANGULAR => Some 0
  | FLYBACK_PRIMARY => Some (duty * (offset + peakToPeak / 2))
  | FLYBACK_SECONDARY => Some ((1 - duty) * (offset + peakToPeak / 2))
  | _ => None
  end.

(** Shapes whose samples span exactly the requested peak to peak. *)
Definition spans_peak_to_peak (label : wave_label) : bool :=
  match label with
  | TRIANGULAR | UNIPOLAR_TRIANGULAR | RECTANGULAR | SECONDARY_RECTANGULAR
  | UNIPOLAR_RECTANGULAR | BIPOLAR_RECTANGULAR | BIPOLAR_TRIANGULAR => true
  | _ => false
  end.

(** * Lemmas *)

Lemma create_plain : forall sine label pp f d off dead samples w,
  create_waveform sine label pp f d off dead 0 samples = Ok w ->
  w = mkWave (snd (shape sine label pp (1 / f) d off dead samples))
             (Some (fst (shape sine label pp (1 / f) d off dead samples))) (Some label).
Proof.
  intros sine label pp f d off dead samples w H. unfold create_waveform in H.
  destruct (shape sine label pp (1 / f) d off dead samples) as [t v] eqn:E.
  change (Qlt_bool 0 0) with false in H. cbv iota in H. injection H as <-. reflexivity.
Qed.

Lemma create_total : forall sine label pp f d off dead samples,
  exists w, create_waveform sine label pp f d off dead 0 samples = Ok w.
Proof.
  intros. unfold create_waveform.
  destruct (shape sine label pp (1 / f) d off dead samples) as [t v].
  change (Qlt_bool 0 0) with false. eexists. reflexivity.
Qed.

Lemma shape_points : forall sine label pp T d off dead samples,
  let '(t, v) := shape sine label pp T d off dead samples in
  t = map fst (combine t v) /\ v = map snd (combine t v).
Proof.
  intros sine label pp T d off dead samples. destruct label; cbn [shape]; try (split; reflexivity).
  assert (G : forall (A B : Type) (x : list A) (y : list B), List.length x = List.length y ->
    x = map fst (combine x y) /\ y = map snd (combine x y)).
  { clear. induction x as [|a x IH]; intros [|b y] L; try discriminate; [split; reflexivity|].
    cbn [List.length] in L. destruct (IH y ltac:(lia)) as [E1 E2]. cbn [combine map fst snd].
    rewrite <- E1, <- E2. split; reflexivity. }
  apply G. rewrite !map_length. reflexivity.
Qed.

(** The points of a created waveform. *)
Definition points_of_shape sine label pp T d off dead samples : list point :=
  combine (fst (shape sine label pp T d off dead samples)) (snd (shape sine label pp T d off dead samples)).

Lemma create_points : forall sine label pp f d off dead samples w,
  create_waveform sine label pp f d off dead 0 samples = Ok w ->
  w = of_points (points_of_shape sine label pp (1 / f) d off dead samples) (Some label).
Proof.
  intros sine label pp f d off dead samples w H. rewrite (create_plain _ _ _ _ _ _ _ _ _ H).
  pose proof (shape_points sine label pp (1 / f) d off dead samples) as S.
  unfold of_points, points_of_shape. destruct (shape sine label pp (1 / f) d off dead samples) as [t v].
  destruct S as [S1 S2]. cbn [fst snd]. rewrite <- S1, <- S2. reflexivity.
Qed.

Lemma sensible_period : forall f d dead, sensible f d dead ->
  0 < 1 / f /\ 0 <= d * (1 / f) /\ d * (1 / f) <= 1 / f /\
  d * (1 / f) <= 1 / f - dead /\ 1 / f - dead <= 1 / f.
Proof.
  intros f d dead [F D0 D1 E0 E1].
  assert (P : 0 < 1 / f) by (rewrite (Qlt_div_iff _ _ _ F); lra).
  assert (X : (1 - d) / f == 1 / f - d * (1 / f)) by (field; lra).
  rewrite X in E1. repeat split; try lra; nra.
Qed.

Lemma cmin_half : forall d, 0 <= d -> 0 <= cmin (1 # 2) d /\ cmin (1 # 2) d <= 1 # 2.
Proof.
  intros d D. split; [apply cmin_glb; lra|apply cmin_le_l].
Qed.

Lemma sine_ordered : forall T n k m (g : nat -> Q), 0 <= T -> (0 < n)%nat ->
  ordered (combine (map (fun i => inject_Z (Z.of_nat i) * T / inject_Z (Z.of_nat n)) (seq k m)) (map g (seq k m))).
Proof.
  intros T n k m g P N. revert k. induction m as [|m IH]; intros k; [exact I|].
  destruct m as [|m]; [exact I|].
  change (seq k (Datatypes.S (Datatypes.S m))) with (k :: seq (Datatypes.S k) (Datatypes.S m)).
  specialize (IH (Datatypes.S k)).
  change (seq (Datatypes.S k) (Datatypes.S m)) with (Datatypes.S k :: seq (Datatypes.S (Datatypes.S k)) m) in *.
  cbn [map combine] in *. split; [|exact IH]. cbn [fst].
  assert (D : 0 < inject_Z (Z.of_nat n)) by (apply (inj_lt 0); lia).
  unfold Qdiv. apply Qmult_le_compat_r.
  - apply Qmult_le_compat_r; [apply inj_le; lia|exact P].
  - apply Qlt_le_weak, Qinv_lt_0_compat. exact D.
Qed.

Lemma last_combine_seq : forall (f g : nat -> Q) m k,
  last (combine (map f (seq k (Datatypes.S m))) (map g (seq k (Datatypes.S m)))) (0, 0) = (f (k + m)%nat, g (k + m)%nat).
Proof.
  intros f g. induction m as [|m IH]; intros k.
  - cbn. rewrite Nat.add_0_r. reflexivity.
  - change (seq k (Datatypes.S (Datatypes.S m))) with (k :: seq (Datatypes.S k) (Datatypes.S m)).
    specialize (IH (Datatypes.S k)).
    replace (k + Datatypes.S m)%nat with (Datatypes.S k + m)%nat by lia. rewrite <- IH.
    reflexivity.
Qed.

(** * C60 A created waveform covers exactly one period *)

(** The times start at zero, never go back and end at the period; there is one
    value per time and the label is recorded.  Missing for the full claim: the
    bipolar rectangle with a duty cycle above one half (refuted below).  CUSTOM
    has no shape and gives no samples. *)
Theorem C60_covers_one_period_partial : forall sine label pp f d off dead samples w,
  sensible f d dead -> label <> CUSTOM ->
  (label = BIPOLAR_RECTANGULAR -> d <= 1 # 2) -> (label = SINUSOIDAL -> (2 <= samples)%nat) ->
  create_waveform sine label pp f d off dead 0 samples = Ok w ->
  exists pts, w = of_points pts (Some label) /\ ordered pts /\
    first_time pts == 0 /\ last_time pts == 1 / f.
Proof.
  intros sine label pp f d off dead samples w SE NC BR SI H.
  exists (points_of_shape sine label pp (1 / f) d off dead samples).
  split; [exact (create_points _ _ _ _ _ _ _ _ _ H)|].
  destruct (sensible_period f d dead SE) as [P [C0 [C1 [C2 C3]]]].
  destruct SE as [F D0 D1 E0 E1]. destruct (cmin_half d D0) as [M0 M1].
  set (T := 1 / f) in *. clearbody T. clear H F E1.
  set (dc := d * T) in *.
  assert (M2 : 0 <= cmin (1 # 2) d * T) by nra.
  assert (M3 : cmin (1 # 2) d * T <= (1 # 2) * T) by (apply Qmult_le_compat_r; lra).
  set (mc := cmin (1 # 2) d * T) in *.
  unfold points_of_shape, first_time, last_time.
  destruct label; try congruence; cbn [shape combine fst snd ordered hd last]; fold dc mc;
    try (repeat split; lra).
  - (* bipolar rectangle *)
    assert (DH : dc <= (1 # 2) * T) by (unfold dc; apply Qmult_le_compat_r; [exact (BR eq_refl)|lra]).
    set (h := dc / 2). assert (H2 : 2 * h == dc) by (unfold h; field). clearbody h.
    repeat split; lra.
  - (* bipolar triangle *)
    set (h := mc / 2). assert (H2 : 2 * h == mc) by (unfold h; field). clearbody h.
    repeat split; lra.
  - (* sinusoid *)
    specialize (SI eq_refl).
    split; [apply sine_ordered; [lra|lia]|].
    destruct samples as [|[|m]]; [lia|lia|]. split.
    + change (inject_Z (Z.of_nat 0) * T / inject_Z (Z.of_nat (Datatypes.S (Datatypes.S m) - 1)) == 0).
      change (inject_Z (Z.of_nat 0)) with 0. unfold Qdiv. ring.
    + rewrite last_combine_seq. cbn [fst]. replace (0 + Datatypes.S m)%nat with (Datatypes.S m) by lia.
      replace (Datatypes.S (Datatypes.S m) - 1)%nat with (Datatypes.S m) by lia.
      assert (0 < inject_Z (Z.of_nat (Datatypes.S m))) by (apply (inj_lt 0); lia). field. lra.
Qed.

(** Above one half the positive and the negative pulse of a bipolar rectangle
    overlap, and time goes back. *)
Theorem C60_bipolar_refuted : forall sine pp f off samples d, 0 < f -> 1 # 2 < d -> d <= 1 ->
  exists pts, create_waveform sine BIPOLAR_RECTANGULAR pp f d off 0 0 samples =
    Ok (of_points pts (Some BIPOLAR_RECTANGULAR)) /\ ~ ordered pts.
Proof.
  intros sine pp f off samples d F D D1.
  destruct (create_total sine BIPOLAR_RECTANGULAR pp f d off 0 samples) as [w H].
  exists (points_of_shape sine BIPOLAR_RECTANGULAR pp (1 / f) d off 0 samples).
  split; [rewrite H; f_equal; exact (create_points _ _ _ _ _ _ _ _ _ H)|].
  unfold points_of_shape. cbn [shape combine fst snd ordered]. intros [O _].
  assert (P : 0 < 1 / f) by (rewrite (Qlt_div_iff _ _ _ F); lra).
  set (T := 1 / f) in *. clearbody T.
  set (h := d * T / 2) in *. assert (2 * h == d * T) by (unfold h; field). clearbody h.
  assert ((1 # 2) * T < d * T) by (apply Qmult_lt_compat_r; assumption). lra.
Qed.

(** The samples span exactly the peak to peak that was asked for. *)
Theorem C60_peak_to_peak : forall sine label pp f d off dead samples w,
  sensible f d dead -> 0 <= pp -> spans_peak_to_peak label = true ->
  create_waveform sine label pp f d off dead 0 samples = Ok w ->
  exists hi lo, extremes (w_data w) hi lo /\ hi - lo == pp.
Proof.
  intros sine label pp f d off dead samples w SE PP SP H.
  rewrite (create_plain _ _ _ _ _ _ _ _ _ H). cbn [w_data]. destruct SE as [F D0 D1 E0 E1].
  assert (PD : 0 <= pp * d) by nra. assert (PD1 : pp * d <= pp) by nra.
  set (h := pp / 2). assert (H2 : 2 * h == pp) by (unfold h; field).
  assert (NH : - pp / 2 == - h) by (unfold h; field).
  destruct label; try discriminate; cbn [shape snd]; unfold extremes.
  - exists (h + off), (- pp / 2 + off). fold h. rewrite NH.
    split; [|lra]. split; [exists (h + off); cbn; split; [auto|lra]|].
    split; [exists (- pp / 2 + off); cbn; split; [auto|rewrite NH; lra]|].
    intros x [<-|[<-|[<-|[]]]]; try rewrite NH; clearbody h; split; lra.
  - exists (pp + off), off. split; [|lra]. split; [exists (pp + off); cbn; split; [auto|lra]|].
    split; [exists off; cbn; split; [auto|lra]|].
    intros x [<-|[<-|[<-|[<-|[]]]]]; split; lra.
  - exists (pp * (1 - d) + off), (- pp * d + off). split; [|ring].
    split; [exists (pp * (1 - d) + off); cbn; split; [auto|lra]|].
    split; [exists (- pp * d + off); cbn; split; [auto|lra]|].
    intros x [<-|[<-|[<-|[<-|[<-|[]]]]]]; split; lra.
  - exists (pp + off), off. split; [|lra]. split; [exists (pp + off); cbn; split; [auto|lra]|].
    split; [exists off; cbn; split; [auto|lra]|].
    intros x [<-|[<-|[<-|[<-|[<-|[]]]]]]; split; lra.
  - exists h, (- h). split; [|lra].
    split; [exists h; cbn; split; [auto 6|lra]|].
    split; [exists (- pp / 2); cbn; split; [auto 10|exact NH]|].
    fold h. intros x X. cbn in X.
    repeat match goal with H : _ \/ _ |- _ => destruct H as [<-|X] end; try contradiction;
      try rewrite NH; clearbody h; split; lra.
  - exists h, (- h). split; [|lra].
    split; [exists h; cbn; split; [auto 6|lra]|].
    split; [exists (- pp / 2); cbn; split; [auto 10|exact NH]|].
    fold h. intros x X. cbn in X.
    repeat match goal with H : _ \/ _ |- _ => destruct H as [<-|X] end; try contradiction;
      try rewrite NH; clearbody h; split; lra.
  - exists (pp * d + off), (- pp * (1 - d) + off). split; [|ring].
    split; [exists (pp * d + off); cbn; split; [auto|lra]|].
    split; [exists (- pp * (1 - d) + off); cbn; split; [auto|lra]|].
    intros x [<-|[<-|[<-|[<-|[<-|[]]]]]]; split; lra.
Qed.

(** The average over the period is the one of the shape: the offset itself for
    triangles and rectangles, nothing for the bipolar shapes. *)
Theorem C60_average : forall sine label pp f d off dead samples w m a, 0 < f ->
  mean_of_shape label pp d off = Some m ->
  create_waveform sine label pp f d off dead 0 samples = Ok w ->
  calculate_waveform_average w = Ok a -> a == m.
Proof.
  intros sine label pp f d off dead samples w m a F M H A.
  rewrite (create_points _ _ _ _ _ _ _ _ _ H) in A.
  assert (NE : points_of_shape sine label pp (1 / f) d off dead samples <> [])
    by (destruct label; discriminate).
  rewrite (average_value _ _ _ NE A). clear A H w.
  assert (P : 0 < 1 / f) by (rewrite (Qlt_div_iff _ _ _ F); lra).
  set (T := 1 / f) in *. clearbody T. clear NE.
  unfold points_of_shape, first_time, last_time.
  destruct label; try discriminate; injection M as <-;
    cbn [shape combine fst snd area hd last]; field; lra.
Qed.

(** With a dead time the rectangle is no longer balanced: asked for no offset, its
    average is the duty cycle times the peak to peak times the dead fraction. *)
Theorem C60_dead_time_unbalanced_refuted : forall sine pp f d dead samples w a,
  sensible f d dead -> 0 < pp -> 0 < d -> 0 < dead ->
  create_waveform sine RECTANGULAR_WITH_DEADTIME pp f d 0 dead 0 samples = Ok w ->
  calculate_waveform_average w = Ok a -> a == pp * d * (dead * f) /\ ~ a == 0.
Proof.
  intros sine pp f d dead samples w a SE PP D DE H A.
  rewrite (create_points _ _ _ _ _ _ _ _ _ H) in A. destruct SE as [F _ _ _ _].
  assert (NE : points_of_shape sine RECTANGULAR_WITH_DEADTIME pp (1 / f) d 0 dead samples <> []) by discriminate.
  pose proof (average_value _ _ _ NE A) as E.
  assert (G : a == pp * d * (dead * f)).
  { rewrite E. unfold points_of_shape, first_time, last_time.
    cbn [shape combine fst snd area hd last]. field. lra. }
  split; [exact G|]. rewrite G. intros Z.
  assert (0 < pp * d) by nra. assert (0 < dead * f) by nra. nra.
Qed.

(** * C62 The parameters of a created waveform can be read back *)

(** What [calculate_basic_processed_data] must say of a waveform created with
    these parameters. *)
Definition reads_back (p : processed) (label : wave_label) (pp off d : Q) : Prop :=
  p_label p = label /\
  (exists x, p_peak_to_peak p = Some x /\ x == pp) /\ p_offset p == off /\
  (exists x, p_duty_cycle p = Some x /\ x == d).

(** The shapes and parameters for which everything is recovered. *)
Definition recoverable (label : wave_label) (pp off d : Q) : Prop :=
  match label with
  | TRIANGULAR | UNIPOLAR_TRIANGULAR => 0 <= pp
  | RECTANGULAR => 0 <= pp /\ off == 0
  | UNIPOLAR_RECTANGULAR => 0 <= pp /\ d <= 1 # 2
  | BIPOLAR_RECTANGULAR => 0 <= pp /\ off == 0
  | BIPOLAR_TRIANGULAR => 0 <= pp /\ off == 0 /\ d <= 1 # 2
  | FLYBACK_PRIMARY | FLYBACK_SECONDARY => 0 <= pp /\ 0 <= off
  | _ => False
  end.

Lemma basic_unsampled : forall sine w l samples, w_label w = Some l -> l <> CUSTOM ->
  is_waveform_sampled w samples = false ->
  calculate_basic_processed_data sine w samples =
  (offset <- calculate_offset w l ;;
   positivePeak <- greatest (w_data w) ;;
   negativePeak <- smallest (w_data w) ;;
   dutyCycle <- try_guess_duty_cycle w l samples ;;
   Ok (mkProcessed l (Some (match l with
                            | FLYBACK_PRIMARY | FLYBACK_SECONDARY => positivePeak - negativePeak - offset
                            | _ => positivePeak - negativePeak
                            end)) offset (Some dutyCycle) None None
        (Some (cmax positivePeak (- negativePeak))) (Some positivePeak) (Some negativePeak))).
Proof.
  intros sine w l samples L NC NS. unfold calculate_basic_processed_data, try_guess_waveform_label.
  rewrite NS. cbn [bind]. rewrite L. cbn [bind].
  assert (IC : is_custom l = false) by (destruct l; try reflexivity; congruence). rewrite IC.
  destruct (calculate_offset w l); reflexivity.
Qed.

Lemma extremes_values : forall data hi lo, extremes data hi lo -> exists mx mn,
  greatest data = Ok mx /\ smallest data = Ok mn /\ mx == hi /\ mn == lo.
Proof.
  intros data hi lo [[x [X1 X2]] [[y [Y1 Y2]] B]].
  assert (NE : data <> []) by (intros ->; contradiction).
  destruct (greatest_total data NE) as [mx G]. destruct (smallest_total data NE) as [mn M].
  exists mx, mn. split; [exact G|]. split; [exact M|]. split.
  - rewrite (greatest_unique data mx x G X1); [exact X2|]. intros z Z. destruct (B z Z). lra.
  - rewrite (smallest_unique data mn y M Y1); [exact Y2|]. intros z Z. destruct (B z Z). lra.
Qed.

Ltac in_list := cbn [In]; tauto.

(** Missing for the full claim: the offset of rectangles, duty cycles above one
    half of the unipolar rectangle and bipolar triangle, and the shapes with dead
    time (refuted below). *)
Theorem C62_reads_back_partial : forall sine label pp f d off dead samples w,
  sensible f d dead -> recoverable label pp off d -> (10 < samples)%nat ->
  create_waveform sine label pp f d off dead 0 samples = Ok w ->
  exists p, calculate_basic_processed_data sine w samples = Ok p /\ reads_back p label pp off d.
Proof.
  intros sine label pp f d off dead samples w SE R N H.
  rewrite (create_plain _ _ _ _ _ _ _ _ _ H). clear H w.
  assert (NC : label <> CUSTOM) by (intros ->; contradiction).
  assert (SZ : is_waveform_sampled
    (mkWave (snd (shape sine label pp (1 / f) d off dead samples))
       (Some (fst (shape sine label pp (1 / f) d off dead samples))) (Some label)) samples = false).
  { unfold is_waveform_sampled, is_waveform_imported. cbn [w_time w_data].
    assert (LE : (List.length (snd (shape sine label pp (1 / f) d off dead samples)) <= 10)%nat)
      by (destruct label; try contradiction; cbn [shape snd List.length]; lia).
    destruct (Nat.ltb_spec samples (List.length (snd (shape sine label pp (1 / f) d off dead samples)))) as [X|_]; [lia|].
    apply Nat.eqb_neq. lia. }
  rewrite (basic_unsampled _ _ label); [|reflexivity|exact NC|exact SZ]. clear SZ NC.
  destruct (sensible_period f d dead SE) as [P [C0 [C1 [C2 C3]]]].
  destruct SE as [F D0 D1 E0 E1].
  set (T := 1 / f) in *. clearbody T. clear F E1.
  set (h := pp / 2). assert (H2 : 2 * h == pp) by (unfold h; field).
  assert (NH : - pp / 2 == - h) by (unfold h; field).
  destruct label; try contradiction; cbn [recoverable] in R; cbn [shape snd fst w_data].
  - (* triangular *)
    assert (X : extremes [- pp / 2 + off; pp / 2 + off; - pp / 2 + off] (h + off) (- h + off)).
    { fold h. split; [exists (h + off); split; [in_list|reflexivity]|].
      split; [exists (- pp / 2 + off); split; [in_list|rewrite NH; reflexivity]|].
      intros x [<-|[<-|[<-|[]]]]; try rewrite NH; clearbody h; split; lra. }
    destruct (extremes_values _ _ _ X) as [mx [mn [G [M [EG EM]]]]]. rewrite G, M.
    eexists. split; [reflexivity|]. unfold reads_back. cbn [p_label p_peak_to_peak p_offset p_duty_cycle].
    split; [reflexivity|]. split; [eexists; split; [reflexivity|rewrite EG, EM; lra]|].
    split; [field|]. eexists. split; [reflexivity|]. cbn [nth]. field. lra.
  - (* unipolar triangular *)
    assert (X : extremes [off; pp + off; off; off] (pp + off) off).
    { split; [exists (pp + off); split; [in_list|reflexivity]|].
      split; [exists off; split; [in_list|reflexivity]|].
      intros x [<-|[<-|[<-|[<-|[]]]]]; split; lra. }
    destruct (extremes_values _ _ _ X) as [mx [mn [G [M [EG EM]]]]].
    cbn [calculate_offset w_data]. rewrite G, M.
    eexists. split; [reflexivity|]. unfold reads_back. cbn [p_label p_peak_to_peak p_offset p_duty_cycle].
    split; [reflexivity|]. split; [eexists; split; [reflexivity|rewrite EG, EM; lra]|].
    split; [exact EM|]. eexists. split; [reflexivity|]. field. lra.
  - (* rectangular *)
    destruct R as [PP OFF].
    assert (PD : 0 <= pp * d) by nra. assert (PD1 : pp * d <= pp) by nra.
    assert (X : extremes [- pp * d + off; pp * (1 - d) + off; pp * (1 - d) + off; - pp * d + off; - pp * d + off]
      (pp * (1 - d) + off) (- pp * d + off)).
    { split; [exists (pp * (1 - d) + off); split; [in_list|reflexivity]|].
      split; [exists (- pp * d + off); split; [in_list|reflexivity]|].
      intros x [<-|[<-|[<-|[<-|[<-|[]]]]]]; split; lra. }
    destruct (extremes_values _ _ _ X) as [mx [mn [G [M [EG EM]]]]]. rewrite G, M.
    eexists. split; [reflexivity|]. unfold reads_back. cbn [p_label p_peak_to_peak p_offset p_duty_cycle].
    split; [reflexivity|]. split; [eexists; split; [reflexivity|rewrite EG, EM; ring]|].
    split; [symmetry; exact OFF|]. eexists. split; [reflexivity|]. field. lra.
  - (* unipolar rectangular *)
    destruct R as [PP DH].
    assert (X : extremes [off; pp + off; pp + off; off; off] (pp + off) off).
    { split; [exists (pp + off); split; [in_list|reflexivity]|].
      split; [exists off; split; [in_list|reflexivity]|].
      intros x [<-|[<-|[<-|[<-|[<-|[]]]]]]; split; lra. }
    destruct (extremes_values _ _ _ X) as [mx [mn [G [M [EG EM]]]]].
    cbn [calculate_offset w_data]. rewrite G, M.
    assert (CM : cmin (1 # 2) d == d).
    { unfold cmin. destruct (Qlt_bool d (1 # 2)) eqn:E; qb; [reflexivity|lra]. }
    eexists. split; [reflexivity|]. unfold reads_back. cbn [p_label p_peak_to_peak p_offset p_duty_cycle].
    split; [reflexivity|]. split; [eexists; split; [reflexivity|rewrite EG, EM; lra]|].
    split; [exact EM|]. eexists. split; [reflexivity|]. rewrite CM. field. lra.
  - (* bipolar rectangular *)
    destruct R as [PP OFF].
    assert (X : extremes [0; 0; pp / 2; pp / 2; 0; 0; - pp / 2; - pp / 2; 0; 0] h (- h)).
    { fold h. split; [exists h; split; [in_list|reflexivity]|].
      split; [exists (- pp / 2); split; [in_list|exact NH]|].
      intros x XI. cbn [In] in XI.
      repeat match goal with H : _ \/ _ |- _ => destruct H as [<-|XI] end; try contradiction;
      try rewrite NH; clearbody h; split; lra. }
    destruct (extremes_values _ _ _ X) as [mx [mn [G [M [EG EM]]]]]. rewrite G, M.
    eexists. split; [reflexivity|]. unfold reads_back. cbn [p_label p_peak_to_peak p_offset p_duty_cycle].
    split; [reflexivity|]. split; [eexists; split; [reflexivity|rewrite EG, EM; lra]|].
    split; [symmetry; exact OFF|]. eexists. split; [reflexivity|]. field. lra.
  - (* bipolar triangular *)
    destruct R as [PP [OFF DH]].
    assert (X : extremes [- pp / 2; - pp / 2; pp / 2; pp / 2; - pp / 2; - pp / 2] h (- h)).
    { fold h. split; [exists h; split; [in_list|reflexivity]|].
      split; [exists (- pp / 2); split; [in_list|exact NH]|].
      intros x XI. cbn [In] in XI.
      repeat match goal with H : _ \/ _ |- _ => destruct H as [<-|XI] end; try contradiction;
      try rewrite NH; clearbody h; split; lra. }
    destruct (extremes_values _ _ _ X) as [mx [mn [G [M [EG EM]]]]]. rewrite G, M.
    assert (CM : cmin (1 # 2) d == d).
    { unfold cmin. destruct (Qlt_bool d (1 # 2)) eqn:E; qb; [reflexivity|lra]. }
    eexists. split; [reflexivity|]. unfold reads_back. cbn [p_label p_peak_to_peak p_offset p_duty_cycle].
    split; [reflexivity|]. split; [eexists; split; [reflexivity|rewrite EG, EM; lra]|].
    split; [symmetry; exact OFF|]. eexists. split; [reflexivity|]. rewrite CM. field. lra.
  - (* flyback primary *)
    destruct R as [PP OFF].
    assert (X : extremes [0; off; pp + off; 0; 0] (pp + off) 0).
    { split; [exists (pp + off); split; [in_list|reflexivity]|].
      split; [exists 0; split; [in_list|reflexivity]|].
      intros x [<-|[<-|[<-|[<-|[<-|[]]]]]]; split; lra. }
    destruct (extremes_values _ _ _ X) as [mx [mn [G [M [EG EM]]]]]. rewrite G, M.
    eexists. split; [reflexivity|]. unfold reads_back. cbn [p_label p_peak_to_peak p_offset p_duty_cycle].
    split; [reflexivity|]. split; [eexists; split; [reflexivity|rewrite EG, EM; lra]|].
    split; [reflexivity|]. eexists. split; [reflexivity|]. field. lra.
  - (* flyback secondary *)
    destruct R as [PP OFF].
    assert (X : extremes [0; 0; pp + off; off; 0] (pp + off) 0).
    { split; [exists (pp + off); split; [in_list|reflexivity]|].
      split; [exists 0; split; [in_list|reflexivity]|].
      intros x [<-|[<-|[<-|[<-|[<-|[]]]]]]; split; lra. }
    destruct (extremes_values _ _ _ X) as [mx [mn [G [M [EG EM]]]]]. rewrite G, M.
    eexists. split; [reflexivity|]. unfold reads_back. cbn [p_label p_peak_to_peak p_offset p_duty_cycle].
    split; [reflexivity|]. split; [eexists; split; [reflexivity|rewrite EG, EM; lra]|].
    split; [reflexivity|]. eexists. split; [reflexivity|]. field. lra.
Qed.

(** A waveform rebuilt from what was read back is the same one, sample by sample. *)
Theorem C62_rebuild : forall sine label pp f d off samples w,
  sensible f d 0 -> recoverable label pp off d -> (10 < samples)%nat ->
  create_waveform sine label pp f d off 0 0 samples = Ok w ->
  exists p w', calculate_basic_processed_data sine w samples = Ok p /\
    create_waveform_from sine p f samples = Ok w' /\ w_label w' = w_label w /\
    Forall2 Qeq (w_data w') (w_data w) /\
    exists t t', w_time w = Some t /\ w_time w' = Some t' /\ Forall2 Qeq t' t.
Proof.
  intros sine label pp f d off samples w SE R N H.
  destruct (C62_reads_back_partial sine label pp f d off 0 samples w SE R N H) as [p [HP [L [[x [X1 X2]] [O [y [Y1 Y2]]]]]]].
  assert (DT : p_dead_time p = None).
  { unfold calculate_basic_processed_data in HP.
    destruct (if is_waveform_sampled w samples then compress_waveform w else Ok w) as [c| | |]; try discriminate.
    cbn [bind] in HP. destruct (try_guess_waveform_label sine c samples) as [l| | |]; try discriminate.
    cbn [bind] in HP. destruct (calculate_offset c l) as [o| | |]; try discriminate.
    cbn [bind] in HP. destruct (greatest (w_data c)) as [g| | |]; try discriminate.
    cbn [bind] in HP. destruct (smallest (w_data c)) as [s| | |]; try discriminate.
    cbn [bind] in HP.
    destruct (if is_custom l then try_guess_duty_cycle w l samples else try_guess_duty_cycle c l samples) as [z| | |];
      try discriminate.
    cbn [bind] in HP. injection HP as <-. reflexivity. }
  exists p. unfold create_waveform_from. rewrite X1, Y1, DT, L.
  destruct (create_total sine label x f y (p_offset p) 0 samples) as [w' H'].
  exists w'. split; [exact HP|]. split; [exact H'|].
  rewrite (create_plain _ _ _ _ _ _ _ _ _ H), (create_plain _ _ _ _ _ _ _ _ _ H').
  cbn [w_label w_data w_time]. split; [reflexivity|].
  assert (CM : cmin (1 # 2) y == cmin (1 # 2) d).
  { unfold cmin. destruct (Qlt_bool y (1 # 2)) eqn:A; destruct (Qlt_bool d (1 # 2)) eqn:B; qb; lra. }
  assert (G : Forall2 Qeq (snd (shape sine label x (1 / f) y (p_offset p) 0 samples))
                (snd (shape sine label pp (1 / f) d off 0 samples)) /\
              Forall2 Qeq (fst (shape sine label x (1 / f) y (p_offset p) 0 samples))
                (fst (shape sine label pp (1 / f) d off 0 samples))).
  { destruct label; try contradiction; cbn [shape fst snd];
      split; repeat constructor; rewrite ?X2, ?Y2, ?O, ?CM; reflexivity. }
  destruct G as [G1 G2]. split; [exact G1|]. eexists. eexists.
  split; [reflexivity|]. split; [reflexivity|]. exact G2.
Qed.

(** A rectangle created with an offset is read back without it. *)
Theorem C62_rectangle_offset_refuted : forall sine pp f d off samples, sensible f d 0 ->
  (10 < samples)%nat -> ~ off == 0 ->
  exists w p, create_waveform sine RECTANGULAR pp f d off 0 0 samples = Ok w /\
    calculate_basic_processed_data sine w samples = Ok p /\ ~ p_offset p == off.
Proof.
  intros sine pp f d off samples SE N OFF.
  destruct (create_total sine RECTANGULAR pp f d off 0 samples) as [w H].
  pose proof (create_plain _ _ _ _ _ _ _ _ _ H) as E. rewrite E in H. clear E w.
  set (w0 := mkWave _ _ _) in *. exists w0.
  assert (NS : is_waveform_sampled w0 samples = false).
  { unfold is_waveform_sampled, is_waveform_imported, w0. cbn [w_time w_data shape fst snd List.length].
    destruct (Nat.ltb_spec samples 5) as [X|_]; [lia|]. apply Nat.eqb_neq. lia. }
  rewrite (basic_unsampled sine w0 RECTANGULAR samples eq_refl ltac:(discriminate) NS).
  destruct (greatest_total (w_data w0)) as [g G]; [discriminate|].
  destruct (smallest_total (w_data w0)) as [s S]; [discriminate|].
  eexists. split; [exact H|]. rewrite G, S. split; [reflexivity|].
  cbn [p_offset]. intros E. apply OFF. symmetry. exact E.
Qed.

(** A triangle with dead time is read back with another duty cycle: the middle of
    its falling edge counts as the corner. *)
Theorem C62_dead_time_refuted : exists f d dead w p x,
  sensible f d dead /\
  create_waveform (fun _ => 0) TRIANGULAR_WITH_DEADTIME 2 f d 0 dead 0 128 = Ok w /\
  calculate_basic_processed_data (fun _ => 0) w 128 = Ok p /\
  p_duty_cycle p = Some x /\ d == 1 # 4 /\ x == 1 # 2.
Proof.
  exists 1, (1 # 4), (1 # 4). eexists. eexists. eexists.
  split; [constructor; vm_compute; congruence|].
  split; [vm_compute; reflexivity|]. split; [vm_compute; reflexivity|].
  split; [reflexivity|]. split; reflexivity.
Qed.

(** Duty cycles above one half are cut to one half by the unipolar rectangle. *)
Theorem C62_duty_cut_refuted : exists w p x,
  create_waveform (fun _ => 0) UNIPOLAR_RECTANGULAR 10 1 (3 # 4) 0 0 0 128 = Ok w /\
  calculate_basic_processed_data (fun _ => 0) w 128 = Ok p /\
  p_duty_cycle p = Some x /\ x == 1 # 2.
Proof.
  eexists. eexists. eexists. split; [vm_compute; reflexivity|].
  split; [vm_compute; reflexivity|]. split; reflexivity.
Qed.

(** * C63 The shape of an unlabelled waveform is recognised *)

(** The shape the code must find for the corners of a created waveform once its
    label is taken away.  [balance] of a rectangle is its mean. *)
Definition recognisable (label : wave_label) (pp off d : Q) : Prop :=
  match label with
  | TRIANGULAR | UNIPOLAR_TRIANGULAR | BIPOLAR_RECTANGULAR | BIPOLAR_TRIANGULAR => True
  | RECTANGULAR => Qabs off <= 1
  | UNIPOLAR_RECTANGULAR => 1 < Qabs (off + pp * cmin (1 # 2) d)
  | FLYBACK_PRIMARY => 0 < pp
  | FLYBACK_SECONDARY => 0 < pp /\ 0 <= off
  | _ => False
  end.

Definition unlabelled (w : waveform) : waveform := mkWave (w_data w) (w_time w) None.

Lemma close_self : forall x y e, x == y -> 0 <= e -> is_close_enough x y e = true.
Proof.
  intros x y e E P. unfold is_close_enough. apply Qle_bool_iff. rewrite E.
  assert (Z : y - y == 0) by ring. rewrite Z. exact P.
Qed.

Lemma close_refl : forall e, 0 <= e -> forall x, is_close_enough x x e = true.
Proof. intros e E x. apply close_self; [reflexivity|exact E]. Qed.

Lemma Qeq_bool_refl' : forall x, Qeq_bool x x = true.
Proof. intros x. apply Qeq_bool_iff. reflexivity. Qed.

Lemma Qeq_bool_no : forall x y, ~ x == y -> Qeq_bool x y = false.
Proof. intros x y H. destruct (Qeq_bool x y) eqn:E; [apply Qeq_bool_iff in E; contradiction|reflexivity]. Qed.

(** Missing for the full claim: rectangles whose mean is not on the expected side
    of one unit (refuted below). *)
Theorem C63_recognised_partial : forall sine sine' label pp f d off samples w,
  sensible f d 0 -> recognisable label pp off d -> (10 < samples)%nat ->
  create_waveform sine label pp f d off 0 0 samples = Ok w ->
  try_guess_waveform_label sine' (unlabelled w) samples = Ok label.
Proof.
  intros sine sine' label pp f d off samples w SE R N H.
  rewrite (create_plain _ _ _ _ _ _ _ _ _ H). clear H w. unfold unlabelled. cbn [w_data w_time].
  unfold try_guess_waveform_label. cbn [w_label].
  assert (SZ : is_waveform_sampled
    (mkWave (snd (shape sine label pp (1 / f) d off 0 samples))
       (Some (fst (shape sine label pp (1 / f) d off 0 samples))) None) samples = false).
  { unfold is_waveform_sampled, is_waveform_imported. cbn [w_time w_data].
    assert (LE : (List.length (snd (shape sine label pp (1 / f) d off 0 samples)) <= 10)%nat)
      by (destruct label; try contradiction; cbn [shape snd List.length]; lia).
    destruct (Nat.ltb_spec samples (List.length (snd (shape sine label pp (1 / f) d off 0 samples)))) as [X|_]; [lia|].
    apply Nat.eqb_neq. lia. }
  rewrite SZ. clear SZ. cbn [bind w_data w_time].
  destruct (sensible_period f d 0 SE) as [P [C0 [C1 [C2 C3]]]].
  destruct SE as [F D0 D1 E0 E1].
  set (T := 1 / f) in *. clearbody T. clear F E1 E0 C2 C3.
  assert (NP : 0 < inject_Z (Z.of_nat samples)) by (apply (inj_lt 0); lia).
  assert (TOL : forall p, p == T -> 0 <= (3 # 2) * p / inject_Z (Z.of_nat samples) /\
     (3 # 2) * p / inject_Z (Z.of_nat samples) < (1 # 2) * T).
  { intros p E. split.
    - rewrite (Qle_div_iff _ _ _ NP). rewrite E. lra.
    - rewrite (Qdiv_lt_iff _ _ _ NP), E.
      assert (10 <= inject_Z (Z.of_nat samples)) by (apply (inj_le 10); lia). nra. }
  assert (TP : T - 0 == T) by ring.
  destruct (TOL _ TP) as [TOL0 TOL1].
  destruct label; try contradiction; cbn [recognisable] in R;
    cbn [shape snd fst]; cbn [back front idx List.length Nat.sub nth_error bind];
    unfold shape_of; cbn [List.length Nat.eqb nth andb Nat.ltb Nat.leb];
    set (e := (3 # 2) * (T - 0) / inject_Z (Z.of_nat samples)) in *; clearbody e.
  - (* triangular *) rewrite Qeq_bool_refl'. reflexivity.
  - (* unipolar triangular *)
    rewrite (close_self _ _ e); [|reflexivity|exact TOL0]. rewrite !Qeq_bool_refl'. reflexivity.
  - (* rectangular *)
    rewrite ?(close_refl e TOL0). rewrite !Qeq_bool_refl'.
    assert (B : is_close_enough ((d * T - 0) * (pp * (1 - d) + off) + (T - d * T) * (- pp * d + off)) 0 (T - 0) = true).
    { unfold is_close_enough. apply Qle_bool_iff.
      assert (E : (d * T - 0) * (pp * (1 - d) + off) + (T - d * T) * (- pp * d + off) - 0 == off * T) by ring.
      rewrite E, Qabs_Qmult, (Qabs_pos T) by lra. rewrite TP.
      rewrite <- (Qmult_1_l T) at 2. apply Qmult_le_compat_r; [exact R|lra]. }
    rewrite B. cbn [negb andb]. reflexivity.
  - (* unipolar rectangular *)
    rewrite ?(close_refl e TOL0). rewrite !Qeq_bool_refl'.
    assert (B : is_close_enough ((cmin (1 # 2) d * T - 0) * (pp + off) + (T - cmin (1 # 2) d * T) * off) 0 (T - 0) = false).
    { unfold is_close_enough. apply Qle_bool_false.
      assert (E : (cmin (1 # 2) d * T - 0) * (pp + off) + (T - cmin (1 # 2) d * T) * off - 0
                  == (off + pp * cmin (1 # 2) d) * T) by ring.
      rewrite E, Qabs_Qmult, (Qabs_pos T) by lra. rewrite TP.
      rewrite <- (Qmult_1_l T) at 1. apply Qmult_lt_compat_r; [exact P|exact R]. }
    rewrite B. cbn [negb andb]. reflexivity.
  - (* bipolar rectangular *)
    rewrite ?(close_refl e TOL0). rewrite !Qeq_bool_refl'. reflexivity.
  - (* bipolar triangular *)
    rewrite (close_self _ _ e); [|ring|exact TOL0]. rewrite !Qeq_bool_refl'. reflexivity.
  - (* flyback primary *)
    rewrite (Qeq_bool_no off (pp + off)) by lra.
    rewrite !andb_false_r. cbn [andb].
    assert (FAR : is_close_enough (d * T) 0 e = false \/ is_close_enough (d * T) T e = false).
    { unfold is_close_enough. rewrite !Qle_bool_false.
      destruct (Qlt_le_dec (d * T) ((1 # 2) * T)) as [S|S].
      - right. rewrite Qabs_neg by lra. lra.
      - left. rewrite Qabs_pos by lra. lra. }
    assert (FAR' : is_close_enough 0 (d * T) e && (Qeq_bool 0 off && (is_close_enough (d * T) T e)) = false).
    { assert (SYM : is_close_enough 0 (d * T) e = is_close_enough (d * T) 0 e).
      { unfold is_close_enough. rewrite Qabs_Qminus. reflexivity. }
      rewrite SYM. destruct FAR as [-> | ->]; [reflexivity|]. rewrite !andb_false_r. reflexivity. }
    rewrite ?(close_refl e TOL0).
    rewrite !Qeq_bool_refl'.
    assert (LT : Qlt_bool off (pp + off) = true) by (apply Qlt_bool_iff; lra).
    rewrite LT.
    destruct (is_close_enough 0 (d * T) e); destruct (Qeq_bool 0 off); destruct (is_close_enough (d * T) T e);
      try discriminate FAR'; rewrite ?andb_false_r; cbn [andb]; reflexivity.
  - (* flyback secondary *)
    destruct R as [PP OFF].
    rewrite (Qeq_bool_no 0 (pp + off)) by lra.
    rewrite (Qeq_bool_no (pp + off) off) by lra.
    rewrite !andb_false_r. cbn [andb].
    assert (FAR : is_close_enough 0 (d * T) e && is_close_enough (d * T) T e = false).
    { destruct (Qlt_le_dec (d * T) ((1 # 2) * T)) as [S|S].
      - assert (X : is_close_enough (d * T) T e = false).
        { unfold is_close_enough. apply Qle_bool_false. rewrite Qabs_neg by lra. lra. }
        rewrite X, andb_false_r. reflexivity.
      - assert (X : is_close_enough 0 (d * T) e = false).
        { unfold is_close_enough. apply Qle_bool_false. rewrite Qabs_neg by lra. lra. }
        rewrite X. reflexivity. }
    rewrite ?(close_refl e TOL0).
    rewrite !Qeq_bool_refl'.
    assert (LT : Qlt_bool off (pp + off) = true) by (apply Qlt_bool_iff; lra).
    rewrite LT.
    destruct (is_close_enough 0 (d * T) e); destruct (is_close_enough (d * T) T e); destruct (Qlt_bool 0 (pp + off));
      try discriminate FAR; rewrite ?andb_false_r; cbn [andb]; reflexivity.
Qed.

(** The same unipolar pulse train gets another name when it is expressed in other
    units: the test compares its mean with one. *)
Theorem C63_units_refuted : forall sine sine' f samples, 0 < f -> (10 < samples)%nat ->
  exists w w', create_waveform sine UNIPOLAR_RECTANGULAR 10 f (1 # 2) 0 0 0 samples = Ok w /\
    create_waveform sine UNIPOLAR_RECTANGULAR 1 f (1 # 2) 0 0 0 samples = Ok w' /\
    try_guess_waveform_label sine' (unlabelled w) samples = Ok UNIPOLAR_RECTANGULAR /\
    try_guess_waveform_label sine' (unlabelled w') samples = Ok RECTANGULAR.
Proof.
  intros sine sine' f samples F N.
  destruct (create_total sine UNIPOLAR_RECTANGULAR 10 f (1 # 2) 0 0 samples) as [w H].
  destruct (create_total sine UNIPOLAR_RECTANGULAR 1 f (1 # 2) 0 0 samples) as [w' H'].
  assert (SE : sensible f (1 # 2) 0).
  { constructor; try lra. rewrite (Qle_div_iff _ _ _ F). lra. }
  exists w, w'. split; [exact H|]. split; [exact H'|]. split.
  - apply (C63_recognised_partial sine sine' UNIPOLAR_RECTANGULAR 10 f (1 # 2) 0 samples w SE); [reflexivity|exact N|exact H].
  - rewrite (create_plain _ _ _ _ _ _ _ _ _ H'). unfold unlabelled, try_guess_waveform_label.
    cbn [w_data w_time w_label shape fst snd].
    assert (SZ : forall t d, List.length d = 5%nat -> is_waveform_sampled (mkWave d (Some t) None) samples = false).
    { intros t d L. unfold is_waveform_sampled, is_waveform_imported. cbn [w_time w_data]. rewrite L.
      destruct (Nat.ltb_spec samples 5) as [X|_]; [lia|]. apply Nat.eqb_neq. lia. }
    rewrite SZ by reflexivity. clear SZ. cbn [bind w_data w_time].
    assert (P : 0 < 1 / f) by (rewrite (Qlt_div_iff _ _ _ F); lra).
    set (T := 1 / f) in *. clearbody T.
    assert (NP : 0 < inject_Z (Z.of_nat samples)) by (apply (inj_lt 0); lia).
    cbn [back front idx List.length Nat.sub nth_error bind]. unfold shape_of.
    cbn [List.length Nat.eqb nth andb Nat.ltb Nat.leb].
    assert (E0 : 0 <= (3 # 2) * (T - 0) / inject_Z (Z.of_nat samples)).
    { rewrite (Qle_div_iff _ _ _ NP). lra. }
    set (e := (3 # 2) * (T - 0) / inject_Z (Z.of_nat samples)) in *. clearbody e.
    rewrite ?(close_refl e E0). rewrite !Qeq_bool_refl'.
    change (cmin (1 # 2) (1 # 2)) with (1 # 2).
    assert (B : is_close_enough (((1 # 2) * T - 0) * (1 + 0) + (T - (1 # 2) * T) * 0) 0 (T - 0) = true).
    { unfold is_close_enough. apply Qle_bool_iff. rewrite Qabs_pos by lra. lra. }
    rewrite B. reflexivity.
Qed.

Example C60_witness : exists w a,
  sensible 100000 (3 # 10) 0 /\
  create_waveform (fun _ => 0) RECTANGULAR 10 100000 (3 # 10) 2 0 0 128 = Ok w /\
  calculate_waveform_average w = Ok a /\ a == 2.
Proof.
  eexists. eexists. split; [constructor; vm_compute; congruence|].
  split; [vm_compute; reflexivity|]. split; [vm_compute; reflexivity|]. reflexivity.
Qed.

Example C62_witness : recoverable FLYBACK_PRIMARY 3 1 (4 # 10) /\ recognisable FLYBACK_PRIMARY 3 1 (4 # 10) /\
  recoverable UNIPOLAR_RECTANGULAR 10 1 (4 # 10) /\ recognisable UNIPOLAR_RECTANGULAR 10 1 (4 # 10).
Proof. cbn. repeat split; vm_compute; congruence. Qed.

Print Assumptions C60_covers_one_period_partial.
Print Assumptions C60_average.
Print Assumptions C62_reads_back_partial.
Print Assumptions C62_rebuild.
Print Assumptions C63_recognised_partial.
Print Assumptions C63_units_refuted.
