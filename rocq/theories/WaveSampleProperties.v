(** C61: resampling a waveform at equal steps. *)
From Coq Require Import ZArith NArith QArith Qabs List String Bool Arith Lia Lqa.
From Verif Require Import Base QAux WaveModel WaveProofs WaveProperties.
Import ListNotations.
Open Scope Q_scope.
Open Scope outcome_scope.

(** * Vocabulary *)

(** The curve through the points passes through value [v] at time [t]. *)
Definition on_curve (pts : list point) (t v : Q) : Prop :=
  exists l a b m u, pts = l ++ a :: b :: m /\ 0 <= u /\ u <= 1 /\
    t == on_line (fst a) (fst b) u /\ v == on_line (snd a) (snd b) u.

(** A number of samples the transform accepts. *)
Definition power_of_two (n : nat) : Prop := exists k, n = Nat.pow 2 k.

(** Of [s] points, how many samples are taken when [n] are asked for: [n], unless
    there are more points than that, and then the next power of two. *)
Definition samples_taken (n s taken : nat) : Prop :=
  ((s <= n)%nat -> taken = n) /\
  ((n < s)%nat -> power_of_two taken /\ (s <= taken)%nat /\ (taken < 2 * s)%nat).

(** * Lemmas *)

Lemma spaced_length : forall n v h, List.length (spaced v h n) = n.
Proof. induction n as [|n IH]; intros v h; [reflexivity|]. cbn. rewrite IH. reflexivity. Qed.

Lemma spaced_nth : forall n v h i, (i < n)%nat ->
  nth i (spaced v h n) 0 == v + inject_Z (Z.of_nat i) * h.
Proof.
  induction n as [|n IH]; intros v h i L; [lia|].
  destruct i as [|i].
  - cbn [spaced nth]. change (inject_Z (Z.of_nat 0)) with 0. ring.
  - cbn [spaced nth]. rewrite IH by lia. rewrite Nat2Z.inj_succ. unfold Z.succ. rewrite inject_Z_plus.
    change (inject_Z 1) with 1. ring.
Qed.

Lemma spaced_removelast : forall n v h, removelast (spaced v h (n + 1)) = spaced v h n.
Proof.
  induction n as [|n IH]; intros v h; [reflexivity|].
  change (removelast (v :: spaced (v + h) h (n + 1)) = v :: spaced (v + h) h n).
  rewrite <- IH. destruct (spaced (v + h) h (n + 1)) as [|x l] eqn:E; [|reflexivity].
  apply (f_equal (@List.length Q)) in E. rewrite spaced_length in E. cbn in E. lia.
Qed.

Lemma sample_at_cons : forall s p q l, sample_at s (p :: q :: l) =
  if Qeq_bool (fst q) (fst p) then
    if Qeq_bool s (fst p) then Some (snd p) else sample_at s (q :: l)
  else if Qle_bool (fst p) s && Qle_bool s (fst q) then
    Some (snd p + (s - fst p) / (fst q - fst p) * (snd q - snd p))
  else sample_at s (q :: l).
Proof. reflexivity. Qed.

Lemma on_curve_cons : forall p l t v, on_curve l t v -> on_curve (p :: l) t v.
Proof.
  intros p l t v [m [a [b [n [u [-> H]]]]]]. exists (p :: m), a, b, n, u. split; [reflexivity|exact H].
Qed.

Lemma sample_on_curve : forall l s v, ordered l -> sample_at s l = Some v -> on_curve l s v.
Proof.
  induction l as [|p l IH]; intros s v O H; [discriminate|].
  destruct l as [|q l]; [discriminate|]. destruct O as [O1 O2].
  rewrite sample_at_cons in H.
  destruct (Qeq_bool (fst q) (fst p)) eqn:E.
  - destruct (Qeq_bool s (fst p)) eqn:F.
    + injection H as <-. apply Qeq_bool_iff in F.
      exists [], p, q, l, 0. split; [reflexivity|]. split; [lra|]. split; [lra|].
      unfold on_line. split; [rewrite F; ring|ring].
    + apply on_curve_cons. apply IH; assumption.
  - destruct (Qle_bool (fst p) s && Qle_bool s (fst q)) eqn:F.
    + apply andb_prop in F. destruct F as [F1 F2]. apply Qle_bool_iff in F1. apply Qle_bool_iff in F2.
      apply Qeq_bool_neq in E. injection H as <-.
      assert (D : 0 < fst q - fst p).
      { apply Qle_lteq in O1. destruct O1 as [O1|O1]; [lra|]. symmetry in O1. contradiction. }
      exists [], p, q, l, ((s - fst p) / (fst q - fst p)). split; [reflexivity|].
      split; [rewrite (Qle_div_iff _ _ _ D); lra|]. split; [rewrite (Qdiv_le_iff _ _ _ D); lra|].
      unfold on_line. split; [field; lra|reflexivity].
    + apply on_curve_cons. apply IH; assumption.
Qed.

Lemma sample_found : forall l s, l <> [] -> (2 <= List.length l)%nat -> ordered l -> first_time l <= s -> s <= last_time l ->
  exists v, sample_at s l = Some v.
Proof.
  induction l as [|p l IH]; intros s NE L O F B; [congruence|].
  destruct l as [|q l]; [cbn in L; lia|]. destruct O as [O1 O2].
  rewrite last_time_cons in B. unfold first_time in F. cbn [hd] in F.
  rewrite sample_at_cons.
  destruct (Qeq_bool (fst q) (fst p)) eqn:E.
  - destruct (Qeq_bool s (fst p)) eqn:G; [eexists; reflexivity|].
    apply Qeq_bool_iff in E. apply Qeq_bool_neq in G.
    destruct l as [|r l].
    + unfold last_time in B. cbn [last] in B. exfalso. apply G. lra.
    + apply IH; [discriminate|cbn; lia|exact O2| |exact B].
      unfold first_time. cbn [hd]. lra.
  - destruct (Qle_bool (fst p) s && Qle_bool s (fst q)) eqn:G; [eexists; reflexivity|].
    apply andb_false_iff in G. rewrite !Qle_bool_false in G.
    destruct G as [G|G]; [lra|].
    destruct l as [|r l].
    + unfold last_time in B. cbn [last] in B. lra.
    + apply IH; [discriminate|cbn; lia|exact O2| |exact B].
      unfold first_time. cbn [hd]. lra.
Qed.

Lemma sample_all_spec : forall l times vs, sample_all l times = Ok vs ->
  List.length vs = List.length times /\
  forall i, (i < List.length times)%nat -> sample_at (nth i times 0) l = Some (nth i vs 0).
Proof.
  intros l. induction times as [|s times IH]; intros vs H.
  - injection H as <-. split; [reflexivity|]. cbn. lia.
  - cbn [sample_all] in H. destruct (sample_at s l) as [v|] eqn:E; [|discriminate].
    destruct (sample_all l times) as [vs'| | |] eqn:F; try discriminate. injection H as <-.
    destruct (IH vs' eq_refl) as [L N]. split; [cbn; lia|].
    intros [|i] I; [exact E|]. cbn [nth]. apply N. cbn in I. lia.
Qed.

Lemma sample_all_total : forall l times, (forall s, In s times -> exists v, sample_at s l = Some v) ->
  exists vs, sample_all l times = Ok vs.
Proof.
  intros l. induction times as [|s times IH]; intros H; [eexists; reflexivity|].
  cbn [sample_all]. destruct (H s (or_introl eq_refl)) as [v ->].
  destruct (IH (fun x X => H x (or_intror X))) as [vs ->]. eexists. reflexivity.
Qed.

Lemma power_of_two_bits : forall data, is_size_power_of_2 data = true -> power_of_two (List.length data).
Proof.
  intros data H. unfold is_size_power_of_2 in H. apply andb_prop in H. destruct H as [P Z].
  apply N.ltb_lt in P. apply N.eqb_eq in Z.
  set (n := N.of_nat (List.length data)) in *.
  (* n = 2^log2 n: otherwise the bit log2 n is set both in n and in n - 1 *)
  destruct (N.log2_spec n P) as [L U].
  assert (E : n = (2 ^ N.log2 n)%N).
  { destruct (N.eq_dec n (2 ^ N.log2 n)%N) as [E|NE]; [exact E|]. exfalso.
    assert (B1 : N.testbit n (N.log2 n) = true) by (apply N.bit_log2; lia).
    assert (LG : N.log2 (n - 1) = N.log2 n).
    { apply N.log2_unique; [lia|]. split; [lia|]. lia. }
    assert (B2 : N.testbit (n - 1) (N.log2 n) = true).
    { rewrite <- LG. apply N.bit_log2.
      assert (1 <= 2 ^ N.log2 n)%N by (pose proof (N.pow_nonzero 2 (N.log2 n)); lia). lia. }
    assert (B3 : N.testbit (N.land n (n - 1)) (N.log2 n) = true) by (rewrite N.land_spec, B1, B2; reflexivity).
    rewrite Z, N.bits_0 in B3. discriminate. }
  exists (N.to_nat (N.log2 n)).
  assert (F : List.length data = N.to_nat n) by (unfold n; rewrite Nat2N.id; reflexivity).
  rewrite F, E at 1. apply N2Nat.inj_pow.
Qed.

(** The number of samples [calculate_sampled_waveform] takes. *)
Definition count_of (numberPoints : option nat) (samples : nat) (data : list Q) : nat :=
  let n := match numberPoints with Some n => n | None => samples end in
  if Nat.ltb n (List.length data) then
    if is_size_power_of_2 data then List.length data else round_up_size_to_power_of_2 data
  else n.

Lemma count_taken : forall numberPoints samples data, (2 <= List.length data)%nat ->
  samples_taken (match numberPoints with Some n => n | None => samples end) (List.length data)
    (count_of numberPoints samples data).
Proof.
  intros np samples data L. unfold samples_taken, count_of.
  set (n := match np with Some n => n | None => samples end).
  destruct (Nat.ltb_spec n (List.length data)) as [B|B].
  - split; [lia|]. intros _. destruct (is_size_power_of_2 data) eqn:P.
    + split; [apply power_of_two_bits; exact P|]. lia.
    + unfold round_up_size_to_power_of_2. split; [eexists; reflexivity|].
      pose proof (Nat.log2_up_spec (List.length data) ltac:(lia)) as [S1 S2].
      split; [exact S2|].
      assert (E : Nat.pow 2 (Nat.log2_up (List.length data)) = (2 * Nat.pow 2 (Nat.pred (Nat.log2_up (List.length data))))%nat).
      { assert (0 < Nat.log2_up (List.length data))%nat by (apply Nat.log2_up_pos; lia).
        destruct (Nat.log2_up (List.length data)); [lia|]. reflexivity. }
      rewrite E. lia.
  - split; [reflexivity|]. lia.
Qed.

Lemma sampled_inv : forall pts label f np samples w,
  calculate_sampled_waveform (of_points pts label) f np samples = Ok w ->
  let n := count_of np samples (map snd pts) in
  let T := 1 / roundFloat (1 / period pts) 9 in
  (2 <= List.length pts)%nat /\ 0 < period pts /\ ~ roundFloat (1 / period pts) 9 == 0 /\
  exists vs, sample_all pts (spaced 0 ((T - 0) / inject_Z (Z.of_nat (n + 1 - 1))) n) = Ok vs /\
    w = mkWave vs (Some (spaced 0 ((T - 0) / inject_Z (Z.of_nat (n + 1 - 1))) n)) label.
Proof.
  intros pts label f np samples w H n T. unfold calculate_sampled_waveform, of_points in H.
  cbn [w_data w_time w_label] in H.
  destruct (Nat.ltb_spec (List.length (map snd pts)) 2) as [B|B]; [discriminate|].
  rewrite map_length in B.
  assert (NE : pts <> []) by (intros ->; cbn in B; lia).
  rewrite (back_points pts NE), (front_points pts NE) in H. cbn [bind] in H.
  fold (period pts) in H.
  destruct (Qle_bool (period pts) 0) eqn:P; [discriminate|]. rewrite Qle_bool_false in P.
  cbn [bind] in H. fold (count_of np samples (map snd pts)) in H. fold n in H.
  destruct (Qeq_bool (roundFloat (1 / period pts) 9) 0) eqn:Z; [discriminate|].
  apply Qeq_bool_neq in Z. rewrite points_of_points in H. cbn [bind] in H.
  unfold linear_spaced_array in H. rewrite spaced_removelast in H. fold T in H.
  destruct (sample_all pts (spaced 0 ((T - 0) / inject_Z (Z.of_nat (n + 1 - 1))) n)) as [vs| | |] eqn:S;
    try discriminate.
  cbn [bind] in H. injection H as <-. split; [exact B|]. split; [exact P|]. split; [exact Z|].
  exists vs. split; reflexivity.
Qed.

(** * C61 Resampling takes equally spaced values of the curve *)

(** A successful resampling has the number of samples asked for (or the next
    power of two), one time per value, keeps the label, and its times are
    [0, T/n, 2T/n, ...] for the period [T] belonging to the frequency rounded to
    nine decimals. *)
Theorem C61_size_and_times : forall pts label f np samples w,
  calculate_sampled_waveform (of_points pts label) f np samples = Ok w ->
  exists times taken, w_time w = Some times /\ w_label w = label /\
    samples_taken (match np with Some n => n | None => samples end) (List.length pts) taken /\
    List.length (w_data w) = taken /\ List.length times = taken /\
    forall i, (i < taken)%nat ->
      nth i times 0 == inject_Z (Z.of_nat i) * (1 / roundFloat (1 / period pts) 9) / inject_Z (Z.of_nat taken).
Proof.
  intros pts label f np samples w H. apply sampled_inv in H. cbn zeta in H.
  set (n := count_of np samples (map snd pts)) in *.
  set (T := 1 / roundFloat (1 / period pts) 9) in *.
  destruct H as [L [P [Z [vs [S ->]]]]].
  destruct (sample_all_spec _ _ _ S) as [LV _]. rewrite spaced_length in LV.
  eexists. exists n. cbn [w_time w_label w_data]. split; [reflexivity|]. split; [reflexivity|].
  split.
  - pose proof (count_taken np samples (map snd pts)) as C. rewrite map_length in C. exact (C L).
  - split; [exact LV|]. split; [apply spaced_length|]. intros i I.
    rewrite spaced_nth by exact I. replace (n + 1 - 1)%nat with n by lia.
    assert (0 < inject_Z (Z.of_nat n)) by (apply (inj_lt 0); lia).
    unfold T. field. split; [exact Z|]. lra.
Qed.

(** Every sample is a point of the curve, so it lies between its extremes. *)
Theorem C61_on_the_curve : forall pts label f np samples w, ordered pts ->
  calculate_sampled_waveform (of_points pts label) f np samples = Ok w ->
  exists times, w_time w = Some times /\
  forall i, (i < List.length (w_data w))%nat -> on_curve pts (nth i times 0) (nth i (w_data w) 0).
Proof.
  intros pts label f np samples w O H. apply sampled_inv in H. cbn zeta in H.
  destruct H as [L [P [Z [vs [S ->]]]]]. eexists. split; [reflexivity|].
  destruct (sample_all_spec _ _ _ S) as [LV N]. cbn [w_data]. rewrite LV. intros i I.
  apply sample_on_curve; [exact O|]. apply N. exact I.
Qed.

Theorem C61_between_extremes : forall pts label f np samples w lo hi, ordered pts ->
  (forall p, In p pts -> lo <= snd p /\ snd p <= hi) ->
  calculate_sampled_waveform (of_points pts label) f np samples = Ok w ->
  forall v, In v (w_data w) -> lo <= v /\ v <= hi.
Proof.
  intros pts label f np samples w lo hi O B H v V.
  destruct (C61_on_the_curve _ _ _ _ _ _ O H) as [times [_ C]].
  destruct (In_nth _ _ 0 V) as [i [I E]]. specialize (C i I). rewrite E in C.
  destruct C as [l [a [b [m [u [-> [U0 [U1 [_ EV]]]]]]]]].
  destruct (B a ltac:(apply in_or_app; right; left; reflexivity)) as [A1 A2].
  destruct (B b ltac:(apply in_or_app; right; right; left; reflexivity)) as [B1 B2].
  rewrite EV. unfold on_line. split; nra.
Qed.

(** Where the curve is a straight line between two points the sample is the value
    of that line: no other segment is used when times increase strictly. *)
Theorem C61_exact_value : forall before p q after label f np samples w i times,
  let pts := before ++ p :: q :: after in
  (forall l a b m, pts = l ++ a :: b :: m -> fst a < fst b) ->
  calculate_sampled_waveform (of_points pts label) f np samples = Ok w ->
  w_time w = Some times -> (i < List.length (w_data w))%nat ->
  fst p <= nth i times 0 -> nth i times 0 <= fst q ->
  nth i (w_data w) 0 == on_line (snd p) (snd q) ((nth i times 0 - fst p) / (fst q - fst p)).
Proof.
  intros before p q after label f np samples w i times pts INC H TM I B1 B2.
  apply sampled_inv in H. cbn zeta in H. destruct H as [L [P [Z [vs [S ->]]]]].
  cbn [w_time w_data] in *. injection TM as <-.
  destruct (sample_all_spec _ _ _ S) as [LV N]. rewrite LV in I. specialize (N i I).
  set (s := nth i (spaced 0 ((1 / roundFloat (1 / period pts) 9 - 0) /
              inject_Z (Z.of_nat (count_of np samples (map snd pts) + 1 - 1)))
              (count_of np samples (map snd pts))) 0) in *.
  set (v := nth i vs 0) in *. clearbody s v. clear S LV I Z P L. subst pts.
  revert INC N. induction before as [|a before IH]; intros INC N.
  - cbn [app] in N. rewrite sample_at_cons in N.
    pose proof (INC [] p q after eq_refl) as D.
    destruct (Qeq_bool (fst q) (fst p)) eqn:E; [apply Qeq_bool_iff in E; lra|].
    assert (F : Qle_bool (fst p) s && Qle_bool s (fst q) = true)
      by (apply andb_true_intro; split; apply Qle_bool_iff; assumption).
    rewrite F in N. injection N as <-. reflexivity.
  - assert (INC' : forall l x b m, before ++ p :: q :: after = l ++ x :: b :: m -> fst x < fst b).
    { intros l x b m E. apply (INC (a :: l) x b m). cbn [app]. rewrite E. reflexivity. }
    specialize (IH INC').
    destruct (before ++ p :: q :: after) as [|b rest] eqn:R; [destruct before; discriminate|].
    cbn [app] in N. rewrite R in N. rewrite sample_at_cons in N.
    assert (D : fst a < fst b) by (apply (INC [] a b rest); cbn [app]; rewrite R; reflexivity).
    destruct (Qeq_bool (fst b) (fst a)) eqn:E; [apply Qeq_bool_iff in E; lra|].
    destruct (Qle_bool (fst a) s && Qle_bool s (fst b)) eqn:F; [|exact (IH N)].
    apply andb_prop in F. destruct F as [F1 F2]. apply Qle_bool_iff in F1. apply Qle_bool_iff in F2.
    (* the earlier segment contains the time too: it is the point the two share *)
    assert (PB : fst b <= fst p /\ (fst b == fst p -> b = p)).
    { clear -R INC'. rewrite <- R in INC'. destruct before as [|b' before].
      - cbn [app] in R. injection R as <- _. split; [lra|reflexivity].
      - cbn [app] in R. injection R as <- R2.
        assert (G : forall x l, (forall l' a' b'' m', x :: l ++ p :: q :: after = l' ++ a' :: b'' :: m' -> fst a' < fst b'') -> fst x < fst p).
        { clear. intros x l. revert x. induction l as [|y l IH]; intros x INC.
          - apply (INC [] x p (q :: after)). reflexivity.
          - assert (fst x < fst y) by (apply (INC [] x y (l ++ p :: q :: after)); reflexivity).
            assert (fst y < fst p).
            { apply IH. intros l' a' b'' m' E. apply (INC (x :: l') a' b'' m'). cbn [app]. rewrite <- E. reflexivity. }
            lra. }
        pose proof (G b' before INC') as G1. split; [lra|]. intros E. lra. }
    destruct PB as [PB1 PB2].
    assert (SB : s == fst b) by lra. assert (BP : fst b == fst p) by lra.
    specialize (PB2 BP). subst b. injection N as <-.
    assert (PQ : fst p < fst q).
    { apply (INC' before p q after). rewrite <- R. reflexivity. }
    unfold on_line. rewrite SB. field. split; lra.
Qed.

(** Resampling succeeds for every waveform whose times start at zero and do not
    go back, and whose period is below two billion seconds per sample taken.
    Missing for the full claim: waveforms that start at another time (refuted
    below). *)
Lemma rounded_frequency : forall f, 0 < f -> Qabs (roundFloat f 9 - f) <= 1 # 2000000000.
Proof.
  intros f F. unfold roundFloat. pose proof (qround_bounds (f * p10 9)) as B.
  change (p10 9) with (1000000000 # 1) in *.
  set (z := inject_Z (qround (f * (1000000000 # 1)))) in *.
  assert (E : z / (1000000000 # 1) - f == (z - f * (1000000000 # 1)) * (1 # 1000000000)) by field.
  rewrite E. apply Qabs_Qle_condition. destruct B. split; lra.
Qed.

Theorem C61_succeeds_partial : forall pts label f np samples, well_timed pts -> (2 <= List.length pts)%nat ->
  first_time pts == 0 ->
  period pts * inject_Z (Z.of_nat (count_of np samples (map snd pts))) < inject_Z 2000000000 ->
  exists w, calculate_sampled_waveform (of_points pts label) f np samples = Ok w.
Proof.
  intros pts label f np samples [O T] L F B.
  set (n := count_of np samples (map snd pts)) in *.
  assert (PP : 0 < period pts) by (unfold period; lra).
  unfold calculate_sampled_waveform, of_points. cbn [w_data w_time w_label].
  destruct (Nat.ltb_spec (List.length (map snd pts)) 2) as [X|_]; [rewrite map_length in X; lia|].
  assert (NE : pts <> []) by (intros ->; cbn in L; lia).
  rewrite (back_points pts NE), (front_points pts NE). cbn [bind]. fold (period pts).
  destruct (Qle_bool (period pts) 0) eqn:P; [apply Qle_bool_iff in P; lra|]. cbn [bind].
  fold (count_of np samples (map snd pts)). fold n.
  set (fr := 1 / period pts).
  assert (FP : 0 < fr) by (unfold fr; rewrite (Qlt_div_iff _ _ _ PP); lra).
  assert (FE : fr * period pts == 1) by (unfold fr; field; lra).
  pose proof (rounded_frequency fr FP) as RB. apply Qabs_Qle_condition in RB.
  set (rf := roundFloat fr 9) in *. clearbody rf.
  rewrite points_of_points. cbn [bind].
  set (N := inject_Z (Z.of_nat n)) in *.
  assert (NN : 0 <= N) by (apply (inj_le 0); lia).
  assert (FN : N * (1 # 2000000000) < fr).
  { assert (period pts * N * (1 # 2000000000) < 1).
    { apply Qlt_le_trans with (inject_Z 2000000000 * (1 # 2000000000)).
      - apply Qmult_lt_compat_r; [reflexivity|exact B].
      - apply Qle_bool_iff. reflexivity. }
    assert (E : N * (1 # 2000000000) == (period pts * N * (1 # 2000000000)) * fr).
    { setoid_replace (period pts * N * (1 # 2000000000) * fr) with
        ((fr * period pts) * (N * (1 # 2000000000))) by ring. rewrite FE. ring. }
    rewrite E. rewrite <- (Qmult_1_l fr) at 2. apply Qmult_lt_compat_r; assumption. }
  unfold linear_spaced_array. rewrite spaced_removelast.
  replace (n + 1 - 1)%nat with n by lia. fold N.
  assert (N2 : (2 <= n)%nat).
  { pose proof (count_taken np samples (map snd pts)) as C. rewrite map_length in C.
    destruct (C L) as [C1 C2]. fold n in C1, C2.
    destruct (Nat.le_gt_cases (List.length pts) (match np with Some k => k | None => samples end)) as [X|X].
    - rewrite (C1 X). lia.
    - destruct (C2 X) as [_ [C3 _]]. lia. }
  destruct n as [|m] eqn:En.
  - exfalso. lia.
  - assert (N1 : 1 <= N) by (unfold N; apply (inj_le 1); lia).
    assert (RP : 0 < rf) by lra.
    destruct (Qeq_bool rf 0) eqn:Z; [apply Qeq_bool_iff in Z; lra|].
    assert (ALL : exists vs, sample_all pts (spaced 0 ((1 / rf - 0) / N) (Datatypes.S m)) = Ok vs).
    { apply sample_all_total. intros s S. destruct (In_nth _ _ 0 S) as [i [I E]].
      rewrite spaced_length in I.
      pose proof (spaced_nth (Datatypes.S m) 0 ((1 / rf - 0) / N) i I) as V. rewrite E in V.
      set (q := inject_Z (Z.of_nat i)) in *.
      assert (Q0 : 0 <= q) by (apply (inj_le 0); lia).
      assert (Q1 : q + 1 <= N).
      { unfold q, N. change 1 with (inject_Z 1). rewrite <- inject_Z_plus. apply inj_le. lia. }
      assert (VS : s * (rf * N) == q) by (rewrite V; field; split; lra).
      assert (RN : 0 < rf * N) by nra.
      apply sample_found; [exact NE|exact L|exact O| |].
      - rewrite F. destruct (Qlt_le_dec s 0) as [W|W]; [|exact W]. exfalso. nra.
      - assert (LT : last_time pts == period pts) by (unfold period; lra).
        rewrite LT. destruct (Qlt_le_dec (period pts) s) as [W|W]; [|exact W]. exfalso.
        (* N rf T >= N - N T / 2e9 > N - 1 *)
        assert (X : q < N * rf * period pts).
        { assert (Y : N * fr * period pts - N * (1 # 2000000000) * period pts <= N * rf * period pts).
          { setoid_replace (N * fr * period pts - N * (1 # 2000000000) * period pts)
              with ((N * period pts) * (fr - (1 # 2000000000))) by ring.
            setoid_replace (N * rf * period pts) with ((N * period pts) * rf) by ring.
            apply Qmult_le_l; [nra|lra]. }
          assert (Y2 : N * fr * period pts == N).
          { setoid_replace (N * fr * period pts) with (N * (fr * period pts)) by ring. rewrite FE. ring. }
          assert (Y3 : N * (1 # 2000000000) * period pts < 1).
          { apply Qlt_le_trans with (inject_Z 2000000000 * (1 # 2000000000)).
            - setoid_replace (N * (1 # 2000000000) * period pts) with (period pts * N * (1 # 2000000000)) by ring.
              apply Qmult_lt_compat_r; [reflexivity|exact B].
            - apply Qle_bool_iff. reflexivity. }
          lra. }
        assert (X2 : N * rf * period pts < s * (rf * N)).
        { setoid_replace (N * rf * period pts) with ((rf * N) * period pts) by ring.
          setoid_replace (s * (rf * N)) with ((rf * N) * s) by ring.
          apply Qmult_lt_l; assumption. }
        lra. }
    destruct ALL as [vs ->]. cbn [bind]. eexists. reflexivity.
Qed.

(** A waveform recorded from another instant is refused: the sampling times start
    at zero whatever the times of the waveform are. *)
Theorem C61_shifted_refuted : exists pts, well_timed pts /\ (2 <= List.length pts)%nat /\
  forall f label, calculate_sampled_waveform (of_points pts label) f None 128 =
    Throw "Error while sampling waveform in point".
Proof.
  exists [(1, 0); (2, 5); (3, 0)]. split; [split; [cbn; lra|reflexivity]|]. split; [cbn; lia|].
  intros f label. vm_compute. reflexivity.
Qed.

(** Nothing is assumed about the frequency passed in when times are given. *)
Theorem C61_frequency_not_used : forall pts label f g np samples,
  calculate_sampled_waveform (of_points pts label) f np samples =
  calculate_sampled_waveform (of_points pts label) g np samples.
Proof. reflexivity. Qed.

(** Without times the samples are taken as equally spaced over one period. *)
Theorem C61_untimed : forall data label f np samples w, 1 <= f ->
  calculate_sampled_waveform (mkWave data None label) f np samples = Ok w ->
  exists times taken, w_time w = Some times /\ samples_taken
    (match np with Some n => n | None => samples end) (List.length data) taken /\
  List.length (w_data w) = taken /\ List.length times = taken /\
  forall i, (i < taken)%nat ->
    on_curve (combine (linear_spaced_array 0 (1 / roundFloat f 9) (List.length data)) data)
      (nth i times 0) (nth i (w_data w) 0).
Proof.
  intros data label f np samples w F H. unfold calculate_sampled_waveform in H.
  cbn [w_data w_time w_label] in H.
  destruct (Nat.ltb_spec (List.length data) 2) as [B|B]; [discriminate|].
  destruct (Qle_bool f 0) eqn:F0; [discriminate|].
  destruct (Qlt_bool f 1) eqn:F1; [discriminate|]. cbn [bind] in H.
  fold (count_of np samples data) in H. set (n := count_of np samples data) in *.
  destruct (Qeq_bool (roundFloat f 9) 0) eqn:Z; [discriminate|].
  set (T := linear_spaced_array 0 (1 / roundFloat f 9) (List.length data)) in *.
  unfold points in H.
  assert (LT : List.length T = List.length data) by (unfold T, linear_spaced_array; apply spaced_length).
  rewrite LT, Nat.ltb_irrefl in H. cbn [bind] in H.
  unfold linear_spaced_array at 1 in H. rewrite spaced_removelast in H.
  destruct (sample_all (combine T data) (spaced 0 ((1 / roundFloat f 9 - 0) / inject_Z (Z.of_nat (n + 1 - 1))) n))
    as [vs| | |] eqn:S; try discriminate.
  cbn [bind] in H. injection H as <-. cbn [w_time w_data].
  destruct (sample_all_spec _ _ _ S) as [LV NV]. rewrite spaced_length in LV, NV.
  assert (RT : removelast (linear_spaced_array 0 (1 / roundFloat f 9) (n + 1)) =
    spaced 0 ((1 / roundFloat f 9 - 0) / inject_Z (Z.of_nat (n + 1 - 1))) n)
    by (unfold linear_spaced_array; apply spaced_removelast).
  eexists. exists n. split; [reflexivity|].
  split; [apply count_taken; exact B|]. split; [exact LV|].
  split; [rewrite RT; apply spaced_length|]. intros i I. rewrite RT.
  apply sample_on_curve; [|apply NV; exact I].
  (* equally spaced times never go back *)
  unfold T, linear_spaced_array.
  assert (RP : 0 < roundFloat f 9).
  { assert (FP : 0 < f) by lra. pose proof (rounded_frequency f FP) as RB.
    apply Qabs_Qle_condition in RB. lra. }
  set (h := (1 / roundFloat f 9 - 0) / inject_Z (Z.of_nat (List.length data - 1))).
  assert (HP : 0 <= h).
  { unfold h. assert (D : 0 < inject_Z (Z.of_nat (List.length data - 1))) by (apply (inj_lt 0); lia).
    rewrite (Qle_div_iff _ _ _ D). assert (0 <= 1 / roundFloat f 9) by (rewrite (Qle_div_iff _ _ _ RP); lra).
    lra. }
  clearbody h. clear -HP. generalize 0.
  induction data as [|x data IH]; intros v; [exact I|].
  destruct data as [|y data]; [exact I|].
  change (combine (spaced v h (List.length (x :: y :: data))) (x :: y :: data)) with
    ((v, x) :: combine (spaced (v + h) h (List.length (y :: data))) (y :: data)).
  specialize (IH (v + h)).
  change (combine (spaced (v + h) h (List.length (y :: data))) (y :: data)) with
    ((v + h, y) :: combine (spaced (v + h + h) h (List.length data)) data) in *.
  split; [cbn [fst]; lra|exact IH].
Qed.

Example C61_witness :
  well_timed [(0, 0); (1 # 4, 5); (1, 0)] /\
  exists w, calculate_sampled_waveform (of_points [(0, 0); (1 # 4, 5); (1, 0)] None) 0 (Some 8%nat) 128 = Ok w /\
    nth 1 (w_data w) 0 == 5 # 2 /\ nth 2 (w_data w) 0 == 5 /\ List.length (w_data w) = 8%nat.
Proof.
  split; [split; [cbn; lra|reflexivity]|]. eexists. split; [vm_compute; reflexivity|].
  split; [reflexivity|]. split; reflexivity.
Qed.

Print Assumptions C61_size_and_times.
Print Assumptions C61_on_the_curve.
Print Assumptions C61_exact_value.
Print Assumptions C61_succeeds_partial.
