(** * Core losses: agreement of the models (C130) and records of several cycles (C131) *)
From Coq Require Import Reals List Lra Lia ZArith String Permutation.
From Verif Require Import Base SizingModel SizingProofs CoreLossModel CoreLossProofs CoreLossShapeProofs
  CoreLossScaleProperties CoreLossShapeProperties.
Import ListNotations.
Local Open Scope R_scope.

(** ** C130: the models agree where they should *)

Lemma ok_inj : forall (A : Type) (a b : A), Ok a = Ok b -> a = b.
Proof. intros A a b H. injection H as H. exact H. Qed.

(** Albach and MSE are the same model as soon as there is any swing. *)
Theorem C130_albach_is_mse : forall loaded ranges e t,
  (forall f, switching_frequency e = Ok f -> peak_to_peak_at e f <> 0) ->
  albach_losses loaded ranges e t = mse_losses loaded ranges e t.
Proof.
  intros loaded ranges e t P. unfold albach_losses, mse_losses, equivalent_losses.
  destruct (switching_frequency e) as [f| | |] eqn:EF; try reflexivity. cbn [bind].
  destruct (datum loaded ranges f) as [d| | |]; try reflexivity. cbn [bind].
  destruct (integrated (samples e) (one_period (samples e) f (List.length (samples e)))) as [l| | |];
    try reflexivity. cbn [bind].
  pose proof (P f eq_refl) as Z. set (s := peak_to_peak_at e f) in *.
  assert (E : albach_frequency s l = mse_frequency s l).
  { unfold albach_frequency, mse_frequency.
    rewrite (fsum_scale _ (/ s ^ 2) mse_term (albach_term s)).
    - unfold fdiv. destruct (Req_EM_T (s ^ 2) 0) as [W|_]; [exfalso; revert W; apply pow_nonzero; exact Z|].
      destruct (fsum (map mse_term l)); simpl; [|reflexivity]. f_equal. pose proof PI_RGT_0. field. split; lra.
    - intros [dt db] _. unfold albach_term, mse_term, fdiv. cbn [fst snd].
      destruct (Req_EM_T s 0); [contradiction|]. destruct (Req_EM_T dt 0); [reflexivity|].
      unfold fmul, fmap2. f_equal. field. split; assumption. }
  rewrite E. reflexivity.
Qed.

Lemma cosine_two : forall n alpha two, cosine_integral n alpha (Some two) =
  fmul (Some two) (cosine_integral n alpha (Some 1)).
Proof.
  intros n alpha two. unfold cosine_integral. apply (fsum_scale _ two). intros i _.
  destruct (cpow (Rabs (cos (INR i * 2 * PI / INR n))) alpha); unfold fmul, fmap2, fdiv.
  - destruct (Req_EM_T (INR n) 0); [reflexivity|]. f_equal. field. assumption.
  - reflexivity.
Qed.

Lemma ki_kn : forall n d x, fmul (ki n d) (cpow (2 * x) (beta_ d - alpha_ d)) =
  fmul (kn n d) (cpow x (beta_ d - alpha_ d)).
Proof.
  intros n d x. unfold ki, kn. rewrite (cpow_pos 2), cosine_two, (cpow_scale 2 x) by lra.
  set (p := Rpower 2 (beta_ d - alpha_ d)).
  assert (P : 0 < p) by apply Rpower_pos. clearbody p.
  destruct (cpow (2 * PI) (alpha_ d - 1)) as [a|]; [|reflexivity].
  destruct (cosine_integral n (alpha_ d) (Some 1)) as [b|]; [|reflexivity].
  destruct (cpow x (beta_ d - alpha_ d)) as [c|]; unfold fmul, fmap2, fdiv.
  - destruct (Req_EM_T (a * (p * b)) 0) as [Z|Z], (Req_EM_T (a * b) 0) as [Z'|Z']; try reflexivity.
    + exfalso. apply Rmult_integral in Z as [Z|Z]; [apply Z'; rewrite Z; ring|].
      apply Rmult_integral in Z as [Z|Z]; [lra|apply Z'; rewrite Z; ring].
    + exfalso. apply Z. replace (a * (p * b)) with (p * (a * b)) by ring. rewrite Z'. ring.
    + f_equal. assert (a <> 0) by (intros W; apply Z'; rewrite W; ring).
      assert (b <> 0) by (intros W; apply Z'; rewrite W; ring). field. repeat split; try assumption; lra.
  - destruct (Req_EM_T (a * (p * b)) 0), (Req_EM_T (a * b) 0); reflexivity.
Qed.

(** iGSE and NSE are the same model for a waveform as far above its offset as
    below it, over a record that is integrated whole. *)
Theorem C130_igse_is_nse : forall n loaded ranges e t,
  whole e -> samples e <> [] ->
  (forall f, switching_frequency e = Ok f -> peak_to_peak_at e f = 2 * (peak e - offset e)) ->
  igse_losses n loaded ranges e t = nse_losses n loaded ranges e t.
Proof.
  intros n loaded ranges e t (f & EF & [F0 F] & W) N P. unfold igse_losses, nse_losses.
  rewrite EF. cbn [bind]. rewrite (P f EF).
  destruct (datum loaded ranges f) as [d| | |]; try reflexivity. cbn [bind].
  rewrite igse_points_whole by (try assumption; lra). rewrite integrated_whole by assumption. cbn [bind].
  rewrite ki_kn. reflexivity.
Qed.

(** ciGSE is iGSE without the coefficients loaded in the model *)
Theorem C130_cigse_is_igse : forall n ranges e t,
  cigse_losses n None ranges e t = igse_losses n None ranges e t.
Proof. reflexivity. Qed.

(** so that loaded coefficients are ignored by it. *)
Theorem C130_cigse_loaded_refuted : exists loaded e t v w,
  cigse_losses 2 (Some loaded) [ferrite] e t = Ok (Some v) /\
  igse_losses 2 (Some loaded) [ferrite] e t = Ok (Some w) /\ v <> w.
Proof.
  destruct C127_witness as (v & w & EV & V & _).
  set (half := {| k_ := 6; alpha_ := 3 / 2; beta_ := 5 / 2; ct0 := None; ct1 := None; ct2 := None;
                  minimum_frequency := None; maximum_frequency := None |}).
  exists half, triangle, 25, v, (2 * v). split; [exact EV|]. split; [|lra].
  unfold igse_losses in *. rewrite triangle_switching in *. cbn [bind] in *.
  rewrite ferrite_datum in EV by lra. cbn [bind datum] in *.
  rewrite igse_points_whole in * by (try rewrite triangle_span; simpl; lra).
  rewrite integrated_whole in * by discriminate. cbn [bind] in *.
  change (alpha_ half) with (alpha_ ferrite). change (beta_ half) with (beta_ ferrite).
  apply ok_inj in EV. f_equal.
  assert (K : ki 2 half = fmul (Some 2) (ki 2 ferrite)).
  { unfold ki. change (alpha_ half) with (alpha_ ferrite). change (beta_ half) with (beta_ ferrite).
    set (z := fmul (cpow (2 * PI) _) _). destruct z as [x|]; [|reflexivity]. unfold fdiv, fmul, fmap2.
    destruct (Req_EM_T x 0); [reflexivity|]. f_equal. simpl. field. assumption. }
  rewrite K. destruct (ki 2 ferrite) as [k|]; [|discriminate].
  destruct (cpow (peak_to_peak_at triangle 1000) (beta_ ferrite - alpha_ ferrite)) as [c|]; [|discriminate].
  destruct (slope_integral (alpha_ ferrite) (steps (samples triangle))) as [s|]; [|discriminate].
  unfold with_temperature, fmul, fmap2 in *. injection EV as <-. f_equal.
  change (temperature_factor half 25) with (temperature_factor ferrite 25). ring.
Qed.

(** *** The sinusoid *)

(** [n] intervals of a sinusoid of that amplitude over one period, starting half
    an interval before its rising zero. *)
Definition sinusoid (n : nat) (B f : R) : list (R * R) :=
  map (fun i => (INR i / (INR n * f), B * sin (INR i * 2 * PI / INR n - PI / INR n))) (seq 0 (S n)).

Lemma steps_seq : forall (g : nat -> R * R) n a,
  steps (map g (seq a (S n))) =
  map (fun i => (fst (g (S i)) - fst (g i), snd (g (S i)) - snd (g i))) (seq a n).
Proof.
  intros g n. induction n as [|n IH]; intros a; [reflexivity|].
  change (map g (seq a (S (S n)))) with (g a :: g (S a) :: map g (seq (S (S a)) n)).
  change (steps (g a :: g (S a) :: map g (seq (S (S a)) n)))
    with ((fst (g (S a)) - fst (g a), snd (g (S a)) - snd (g a)) :: steps (map g (seq (S a) (S n)))).
  rewrite IH. reflexivity.
Qed.

Lemma sinusoid_steps : forall n B f, (0 < n)%nat -> f <> 0 ->
  steps (sinusoid n B f) =
  map (fun i => (1 / (INR n * f), 2 * B * sin (PI / INR n) * cos (INR i * 2 * PI / INR n))) (seq 0 n).
Proof.
  intros n B f N F. unfold sinusoid. rewrite steps_seq. apply map_ext. intros i. cbn [fst snd].
  pose proof (lt_0_INR n N) as P. rewrite S_INR. f_equal; [field; split; lra|].
  replace ((INR i + 1) * 2 * PI / INR n - PI / INR n) with (INR i * 2 * PI / INR n + PI / INR n) by (field; lra).
  rewrite sin_plus, sin_minus. ring.
Qed.

Lemma sinusoid_span : forall n B f, (0 < n)%nat -> 0 < f -> span (sinusoid n B f) = 1 / f.
Proof.
  intros n B f N F. unfold span. rewrite moves_steps, sinusoid_steps by (try assumption; lra).
  rewrite !map_map. cbn [fst].
  assert (S : forall l : list nat, sumR (map (fun _ : nat => 1 / (INR n * f)) l) = INR (List.length l) * (1 / (INR n * f))).
  { induction l as [|x l IH]; [simpl; ring|]. rewrite map_cons. cbn [sumR]. rewrite IH.
    change (List.length (x :: l)) with (S (List.length l)). rewrite S_INR. ring. }
  rewrite S, seq_length. pose proof (lt_0_INR n N). field. split; lra.
Qed.

(** What sampling a sinusoid at [n] points takes off its slope. *)
Definition chord (n : nat) : R := INR n / PI * sin (PI / INR n).

Lemma chord_bounds : forall n, (2 <= n)%nat -> 0 < chord n < 1.
Proof.
  intros n N. unfold chord. pose proof PI_RGT_0 as PI0.
  assert (P : 2 <= INR n) by (replace 2 with (INR 2) by (simpl; ring); apply le_INR; exact N).
  assert (X : 0 < PI / INR n) by (apply Rmult_lt_0_compat; [lra|apply Rinv_0_lt_compat; lra]).
  assert (X2 : PI / INR n <= PI / 2).
  { apply Rmult_le_compat_l; [lra|]. apply Rinv_le_contravar; lra. }
  assert (S0 : 0 < sin (PI / INR n)) by (apply sin_gt_0; lra).
  assert (S1 : sin (PI / INR n) < PI / INR n) by (apply sin_lt_x; exact X).
  assert (Q : 0 < INR n / PI) by (apply Rmult_lt_0_compat; [lra|apply Rinv_0_lt_compat; lra]).
  split; [apply Rmult_lt_0_compat; assumption|].
  apply (Rmult_lt_compat_l (INR n / PI)) in S1; [|exact Q].
  replace (INR n / PI * (PI / INR n)) with 1 in S1 by (field; split; lra). exact S1.
Qed.

(** A sinusoid sampled at as many points as the model integrates the cosine with
    loses by iGSE what the Steinmetz law says, times [chord n] to the [alpha]:
    below it, and as close to it as sampling gets. *)
Theorem C130_igse_of_a_sinusoid : forall n loaded ranges e t d B w,
  (2 <= n)%nat -> 400 <= frequency e -> harmonics e = None -> 0 < B ->
  peak e = B -> offset e = 0 -> peak_to_peak e = 2 * B -> samples e = sinusoid n B (frequency e) ->
  datum loaded ranges (frequency e) = Ok d -> 0 < alpha_ d ->
  steinmetz_losses loaded ranges e t = Ok (Some w) ->
  igse_losses n loaded ranges e t = Ok (Some (Rpower (chord n) (alpha_ d) * w)).
Proof.
  intros n loaded ranges e t d B w N F H P EP EO EPP ES ED A EW.
  pose proof (chord_bounds n N) as [CH0 _]. pose proof PI_RGT_0 as PI0.
  assert (N0 : (0 < n)%nat) by lia. pose proof (lt_0_INR n N0) as NR.
  set (f := frequency e) in *. assert (F0 : 0 < f) by lra.
  assert (SWF : switching_frequency e = Ok f).
  { unfold switching_frequency. fold f. destruct (Rlt_dec f 400); [lra|reflexivity]. }
  assert (HA : harmonic_at e f = None) by (unfold harmonic_at; rewrite H; reflexivity).
  unfold steinmetz_losses in EW. rewrite SWF in EW. cbn [bind] in EW. rewrite ED in EW. cbn [bind] in EW.
  unfold peak_at in EW. rewrite HA, EP, EO, Rminus_0_r, Rabs_pos_eq in EW by lra.
  unfold igse_losses. rewrite SWF. cbn [bind]. rewrite ED. cbn [bind].
  assert (SP : span (samples e) = 1 / f) by (rewrite ES; apply sinusoid_span; assumption).
  assert (IF : 0 < 1 / f) by (apply Rmult_lt_0_compat; [lra|apply Rinv_0_lt_compat; lra]).
  rewrite igse_points_whole by (fold f; try rewrite SP; lra).
  rewrite integrated_whole by (rewrite ES; unfold sinusoid; discriminate). cbn [bind].
  unfold peak_to_peak_at. rewrite HA, EPP, ki_kn.
  rewrite ES, sinusoid_steps by (try assumption; lra).
  set (C := sumR (map (fun i => pw (Rabs (cos (INR i * 2 * PI / INR n))) (alpha_ d)) (seq 0 n))).
  assert (SN : 0 < sin (PI / INR n)).
  { unfold chord in CH0. assert (0 < INR n / PI) by (apply Rmult_lt_0_compat; [lra|apply Rinv_0_lt_compat; lra]).
    destruct (Rlt_le_dec 0 (sin (PI / INR n))) as [L|L]; [exact L|]. exfalso.
    assert (0 <= INR n / PI * - sin (PI / INR n)) by (apply Rmult_le_pos; lra). lra. }
  set (M := 2 * B * INR n * f * sin (PI / INR n)).
  assert (M0 : 0 < M).
  { unfold M. apply Rmult_lt_0_compat; [|exact SN]. apply Rmult_lt_0_compat; [|exact F0].
    apply Rmult_lt_0_compat; lra. }
  assert (SI : slope_integral (alpha_ d)
                 (map (fun i => (1 / (INR n * f), 2 * B * sin (PI / INR n) * cos (INR i * 2 * PI / INR n))) (seq 0 n))
               = Some (Rpower M (alpha_ d) * (1 / (INR n * f)) * C)).
  { unfold slope_integral. rewrite map_map.
    rewrite (fsum_some _ _ (fun i => Rpower M (alpha_ d) * (1 / (INR n * f)) *
                                     pw (Rabs (cos (INR i * 2 * PI / INR n))) (alpha_ d))).
    - f_equal. unfold C. apply sumR_scale. intros; reflexivity.
    - intros i _. unfold slope_term. cbn [fst snd].
      assert (T : 0 < 1 / (INR n * f)).
      { apply Rmult_lt_0_compat; [lra|]. apply Rinv_0_lt_compat. apply Rmult_lt_0_compat; assumption. }
      destruct (Req_EM_T (1 / (INR n * f)) 0) as [Z|_]; [lra|].
      replace (2 * B * sin (PI / INR n) * cos (INR i * 2 * PI / INR n) / (1 / (INR n * f)))
        with (M * cos (INR i * 2 * PI / INR n)) by (unfold M; field; split; lra).
      rewrite Rabs_mult, (Rabs_pos_eq M), cpow_scale, cpow_pw by (try apply Rabs_pos; lra).
      unfold fmul, fmap2. f_equal. ring. }
  rewrite SI.
  assert (CI : cosine_integral n (alpha_ d) (Some 1) = Some (2 * PI / INR n * C)).
  { unfold cosine_integral.
    rewrite (fsum_some _ _ (fun i => 2 * PI / INR n * pw (Rabs (cos (INR i * 2 * PI / INR n))) (alpha_ d))).
    - f_equal. unfold C. apply sumR_scale. intros; reflexivity.
    - intros i _. rewrite cpow_pw by (try apply Rabs_pos; lra). unfold fmul, fmap2, fdiv.
      destruct (Req_EM_T (INR n) 0); [lra|]. f_equal. field. assumption. }
  assert (C0 : 0 < C).
  { assert (SQ : seq 0 n = 0%nat :: seq 1 (n - 1)).
    { destruct n as [|n']; [lia|]. simpl. rewrite Nat.sub_0_r. reflexivity. }
    unfold C. rewrite SQ. cbn [map sumR].
    replace (INR 0 * 2 * PI / INR n) with 0 by (simpl; field; lra). rewrite cos_0, Rabs_R1.
    assert (0 < pw 1 (alpha_ d)) by (apply pw_positive; lra).
    assert (0 <= sumR (map (fun i => pw (Rabs (cos (INR i * 2 * PI / INR n))) (alpha_ d)) (seq 1 (n - 1)))).
    { apply sumR_nonneg. intros x X. apply in_map_iff in X as (i & <- & _). apply pw_nonneg. }
    lra. }
  unfold kn. rewrite CI, !(cpow_pos (2 * PI)), (cpow_pos B) by lra.
  unfold fmul, fmap2, fdiv.
  pose proof (Rpower_pos (2 * PI) (alpha_ d - 1)) as R2.
  assert (NZ : Rpower (2 * PI) (alpha_ d - 1) * (2 * PI / INR n * C) <> 0).
  { apply Rgt_not_eq. apply Rmult_lt_0_compat; [exact R2|]. apply Rmult_lt_0_compat; [|exact C0].
    apply Rmult_lt_0_compat; [lra|]. apply Rinv_0_lt_compat. exact NR. }
  destruct (Req_EM_T (Rpower (2 * PI) (alpha_ d - 1) * (2 * PI / INR n * C)) 0) as [Z|_]; [contradiction|].
  assert (LAW : amplitude_law (beta_ d) B B = Some (Rpower B (beta_ d))).
  { unfold amplitude_law. destruct (Rlt_dec 2 (beta_ d)); [|apply cpow_pos; exact P].
    rewrite !cpow_pos by exact P. unfold fmul, fmap2. f_equal. rewrite <- Rpower_plus. f_equal. ring. }
  rewrite LAW, (cpow_pos f) in EW by exact F0.
  unfold with_temperature, fmul, fmap2 in *. injection EW as <-. do 2 f_equal.
  (* the powers *)
  assert (EM : Rpower M (alpha_ d) = Rpower (chord n) (alpha_ d) * (Rpower (2 * PI) (alpha_ d)
                                     * (Rpower f (alpha_ d) * Rpower B (alpha_ d)))).
  { assert (FB : 0 < f * B) by (apply Rmult_lt_0_compat; assumption).
    assert (PFB : 0 < 2 * PI * (f * B)) by (apply Rmult_lt_0_compat; [lra|exact FB]).
    replace M with (chord n * (2 * PI * (f * B))) by (unfold M, chord; field; lra).
    rewrite <- (Rpower_mult_distr (chord n)), <- (Rpower_mult_distr (2 * PI)), <- (Rpower_mult_distr f)
      by (try assumption; lra). reflexivity. }
  assert (E2 : Rpower (2 * PI) (alpha_ d) = Rpower (2 * PI) (alpha_ d - 1) * (2 * PI)).
  { rewrite <- (Rpower_1 (2 * PI)) at 3 by lra. rewrite <- Rpower_plus. f_equal. ring. }
  assert (EB : Rpower B (beta_ d) = Rpower B (beta_ d - alpha_ d) * Rpower B (alpha_ d)).
  { rewrite <- Rpower_plus. f_equal. ring. }
  rewrite EM, E2, EB. field. repeat split; try lra.
Qed.

(** Such a sinusoid: four intervals at 1 kHz. *)
Example C130_witness : exists e,
  400 <= frequency e /\ harmonics e = None /\ peak e = 1 /\ offset e = 0 /\ peak_to_peak e = 2 * 1 /\
  samples e = sinusoid 4 1 (frequency e) /\ datum None [ferrite] (frequency e) = Ok ferrite /\
  (exists w, steinmetz_losses None [ferrite] e 25 = Ok (Some w) /\ 0 < w) /\
  0 < chord 4 < 1.
Proof.
  exists {| frequency := 1000; current_points := 3; current_harmonics := None;
     peak := 1; offset := 0; peak_to_peak := 2 * 1; harmonics := None; samples := sinusoid 4 1 1000 |}.
  cbn [frequency harmonics peak offset peak_to_peak samples].
  split; [lra|]. do 5 (split; [reflexivity|]). split; [apply ferrite_datum; lra|].
  split; [|apply chord_bounds; lia].
  destruct C127_witness as (v & w & _ & _ & EW & W & _). exists w. split; [|exact W]. rewrite <- EW.
  unfold steinmetz_losses, switching_frequency. reflexivity.
Qed.

(** ** C131: records of several cycles *)

(** [n] samples taken every [h] of a waveform [g]. *)
Definition record_of (g : nat -> R) (h : R) (n : nat) : list (R * R) :=
  map (fun i => (INR i * h, g i)) (seq 0 n).

Lemma record_length : forall g h n, List.length (record_of g h n) = n.
Proof. intros. unfold record_of. rewrite map_length, seq_length. reflexivity. Qed.
Lemma record_nth : forall g h n i, (i < n)%nat -> nth i (record_of g h n) (0, 0) = (INR i * h, g i).
Proof.
  intros g h n i L. unfold record_of.
  rewrite (nth_indep _ (0, 0) ((fun i => (INR i * h, g i)) O)) by (rewrite map_length, seq_length; exact L).
  rewrite (map_nth (fun i => (INR i * h, g i))). rewrite seq_nth by exact L. reflexivity.
Qed.

Lemma record_steps : forall g h n, steps (record_of g h (S n)) = map (fun i => (h, g (S i) - g i)) (seq 0 n).
Proof.
  intros g h n. unfold record_of. rewrite steps_seq. apply map_ext. intros i. cbn [fst snd].
  rewrite S_INR. f_equal. ring.
Qed.

Lemma intervals_firstn : forall n s, intervals n s = steps (firstn n s).
Proof.
  induction n as [|n IH]; intros s; [destruct s; reflexivity|].
  destruct s as [|a [|b s]]; [reflexivity|destruct n; reflexivity|].
  destruct n as [|n]; [reflexivity|].
  change (intervals (S (S n)) (a :: b :: s)) with ((fst b - fst a, snd b - snd a) :: intervals (S n) (b :: s)).
  rewrite IH. reflexivity.
Qed.

Lemma firstn_record : forall g h k n, (k <= n)%nat -> firstn k (record_of g h n) = record_of g h k.
Proof.
  intros g h k n L. unfold record_of. rewrite firstn_map. f_equal.
  replace n with (k + (n - k))%nat by lia. rewrite seq_app, firstn_app, seq_length, Nat.sub_diag.
  simpl firstn at 2. rewrite app_nil_r. replace k with (List.length (seq 0 k)) at 1 by apply seq_length.
  apply firstn_all.
Qed.

Lemma nround_between : forall x k, 0 <= x -> INR k - 1 / 2 <= x < INR k + 1 / 2 -> nround x = k.
Proof.
  intros x k P [L U]. pose proof (nround_le x k P U). pose proof (nround_ge x k P L). lia.
Qed.

(** The points kept of a record of [n] samples, [m] to the period. *)
Lemma kept_points : forall g m n f, (1 < n)%nat -> 0 < f -> (0 < m)%nat ->
  (3 * INR m < 2 * INR (n - 1)) ->
  one_period (record_of g (1 / f / INR m) n) f n = Nat.max 2 (nround (INR m + INR m / INR (n - 1))).
Proof.
  intros g m n f N F M L. unfold one_period.
  destruct (Nat.ltb_spec 1 n); [|lia]. rewrite !record_nth by lia. cbn [fst].
  pose proof (lt_0_INR m M) as M0. assert (N1 : 0 < INR (n - 1)) by (apply lt_0_INR; lia).
  replace (INR (n - 1) * (1 / f / INR m) - INR 0 * (1 / f / INR m)) with (INR (n - 1) / INR m * (1 / f))
    by (simpl; field; split; lra).
  assert (IF : 0 < 1 / f) by (apply Rmult_lt_0_compat; [lra|apply Rinv_0_lt_compat; lra]).
  destruct (Rlt_dec (3 / 2 * (1 / f)) (INR (n - 1) / INR m * (1 / f))) as [_|Z].
  - f_equal. f_equal. replace n with (S (n - 1)) at 1 by lia. rewrite S_INR. field. repeat split; lra.
  - exfalso. apply Z. apply Rmult_lt_compat_r; [exact IF|].
    apply (Rmult_lt_reg_r (INR m)); [exact M0|]. replace (INR (n - 1) / INR m * INR m) with (INR (n - 1)) by (field; lra). lra.
Qed.

(** The models that keep one period: iGSE, Albach and MSE. *)
Inductive periodic_model : (option steinmetz -> list steinmetz -> excitation -> R -> outcome figure) -> Prop :=
| PerIgse : forall n, periodic_model (igse_losses n)
| PerAlbach : periodic_model albach_losses
| PerMse : periodic_model mse_losses.

Lemma periodic_same : forall model loaded ranges e s s' t k,
  periodic_model model -> 400 <= frequency e ->
  one_period s (frequency e) (List.length s) = k -> one_period s' (frequency e) (List.length s') = k ->
  integrated s k = integrated s' k ->
  model loaded ranges (resampled e s) t = model loaded ranges (resampled e s') t.
Proof.
  intros model loaded ranges e s s' t k M F K K' I.
  assert (S : forall x, switching_frequency (resampled e x) = Ok (frequency e)).
  { intros x. unfold switching_frequency. cbn [frequency resampled]. destruct (Rlt_dec (frequency e) 400); [lra|reflexivity]. }
  assert (PT : forall x, igse_points (resampled e x) (frequency e) = one_period x (frequency e) (List.length x)).
  { intros x. unfold igse_points. cbn [frequency samples resampled].
    destruct (Rlt_dec 1 (frequency e / frequency e)) as [L|_]; [|reflexivity].
    exfalso. replace (frequency e / frequency e) with 1 in L by (field; lra). lra. }
  destruct M.
  - unfold igse_losses. rewrite !S. cbn [bind]. rewrite !PT, K, K'. cbn [samples resampled]. rewrite I. reflexivity.
  - unfold albach_losses, equivalent_losses. rewrite !S. cbn [bind samples resampled]. rewrite K, K', I. reflexivity.
  - unfold mse_losses, equivalent_losses. rewrite !S. cbn [bind samples resampled]. rewrite K, K', I. reflexivity.
Qed.

Lemma record_integrated : forall g h k n, (0 < k <= n)%nat ->
  integrated (record_of g h n) k = Ok (steps (record_of g h k)).
Proof.
  intros g h k n [K L]. unfold integrated. rewrite record_length. destruct k as [|k]; [lia|].
  destruct (Nat.ltb_spec n (S k)); [lia|]. rewrite intervals_firstn, firstn_record by lia. reflexivity.
Qed.

Lemma one_cycle_kept : forall g m f, (0 < m)%nat -> 0 < f ->
  one_period (record_of g (1 / f / INR m) (S m)) f (S m) = S m.
Proof.
  intros g m f M F. pose proof (lt_0_INR m M) as M0.
  assert (SP : span (record_of g (1 / f / INR m) (S m)) = 1 / f).
  { unfold span. rewrite moves_steps, record_steps, !map_map. cbn [fst].
    assert (S : forall l : list nat, sumR (map (fun _ : nat => 1 / f / INR m) l) = INR (List.length l) * (1 / f / INR m)).
    { induction l as [|x l IH]; [simpl; ring|]. rewrite map_cons. cbn [sumR]. rewrite IH.
      change (List.length (x :: l)) with (S (List.length l)). rewrite S_INR. ring. }
    rewrite S, seq_length. field. split; lra. }
  pose proof (one_period_whole (record_of g (1 / f / INR m) (S m)) f) as W. rewrite record_length in W.
  apply W. rewrite SP. assert (0 < 1 / f) by (apply Rmult_lt_0_compat; [lra|apply Rinv_0_lt_compat; lra]). lra.
Qed.

(** A record of two cycles loses what one cycle does: [m] intervals to the cycle,
    with the sample that closes the second one or without it. *)
Theorem C131_two_cycles : forall model loaded ranges e t g m n,
  periodic_model model -> 400 <= frequency e -> (3 <= m)%nat -> n = (2 * m)%nat \/ n = (2 * m + 1)%nat ->
  let h := 1 / frequency e / INR m in
  model loaded ranges (resampled e (record_of g h n)) t =
  model loaded ranges (resampled e (record_of g h (m + 1))) t.
Proof.
  intros model loaded ranges e t g m n M F MM NN h. set (f := frequency e) in *.
  assert (M0 : 0 < INR m) by (apply lt_0_INR; lia).
  assert (M2 : 3 <= INR m) by (replace 3 with (INR 3) by (simpl; ring); apply le_INR; exact MM).
  replace (m + 1)%nat with (S m) by lia.
  assert (K : one_period (record_of g h n) f n = S m).
  { unfold h.
    assert (N1 : INR (n - 1) = 2 * INR m - 1 \/ INR (n - 1) = 2 * INR m).
    { destruct NN as [-> | ->]; [left|right].
      - rewrite minus_INR, mult_INR by lia. simpl. ring.
      - replace (2 * m + 1 - 1)%nat with (2 * m)%nat by lia. rewrite mult_INR. simpl. ring. }
    rewrite kept_points; [|lia|lra|lia|].
    - assert (Q : 0 <= INR m / INR (n - 1)).
      { apply Rmult_le_pos; [lra|]. left. apply Rinv_0_lt_compat. destruct N1 as [-> | ->]; lra. }
      rewrite (nround_between _ (S m)); [lia|lra|]. rewrite S_INR. clear Q.
      destruct N1 as [-> | ->].
      + split.
        * apply (Rmult_le_reg_r (2 * INR m - 1)); [lra|].
          replace ((INR m + INR m / (2 * INR m - 1)) * (2 * INR m - 1)) with (INR m * (2 * INR m - 1) + INR m)
            by (field; lra). nra.
        * apply (Rmult_lt_reg_r (2 * INR m - 1)); [lra|].
          replace ((INR m + INR m / (2 * INR m - 1)) * (2 * INR m - 1)) with (INR m * (2 * INR m - 1) + INR m)
            by (field; lra). nra.
      + replace (INR m / (2 * INR m)) with (1 / 2) by (field; lra). lra.
    - destruct N1 as [-> | ->]; lra. }
  apply (periodic_same _ _ _ _ _ _ _ (S m)); try assumption; fold f.
  - rewrite record_length. exact K.
  - rewrite record_length. apply one_cycle_kept; [lia|lra].
  - rewrite !record_integrated by lia. reflexivity.
Qed.

(** Of a record of three cycles or more the last interval of the cycle is left out:
    the losses are those of the samples [0 .. m - 1] only. *)
Theorem C131_more_cycles : forall model loaded ranges e t g m n,
  periodic_model model -> 400 <= frequency e -> (2 <= m)%nat -> (3 * m <= n)%nat ->
  let h := 1 / frequency e / INR m in
  model loaded ranges (resampled e (record_of g h n)) t =
  model loaded ranges (resampled e (record_of g h m)) t.
Proof.
  intros model loaded ranges e t g m n M F MM NN h. set (f := frequency e) in *.
  assert (M0 : 0 < INR m) by (apply lt_0_INR; lia).
  assert (N1 : 2 * INR m + 1 <= INR (n - 1)).
  { replace (2 * INR m + 1) with (INR (2 * m + 1)) by (rewrite plus_INR, mult_INR; simpl; ring).
    apply le_INR. lia. }
  apply (periodic_same _ _ _ _ _ _ _ m); try assumption; fold f.
  - rewrite record_length. unfold h. rewrite kept_points; [|lia|lra|lia|lra].
    assert (0 < INR m / INR (n - 1)) by (apply Rmult_lt_0_compat; [lra|apply Rinv_0_lt_compat; lra]).
    rewrite (nround_between _ m); [lia|lra|].
    split; [lra|].
    assert (INR m / INR (n - 1) < 1 / 2); [|lra].
    apply (Rmult_lt_reg_r (INR (n - 1))); [lra|].
    replace (INR m / INR (n - 1) * INR (n - 1)) with (INR m) by (field; lra). lra.
  - rewrite record_length. unfold h.
    assert (SP : span (record_of g (1 / f / INR m) m) = 1 / f - 1 / f / INR m).
    { replace m with (S (m - 1)) at 2 by lia. unfold span. rewrite moves_steps, record_steps, !map_map. cbn [fst].
      assert (S : forall l : list nat, sumR (map (fun _ : nat => 1 / f / INR m) l) = INR (List.length l) * (1 / f / INR m)).
      { induction l as [|x l IH]; [simpl; ring|]. rewrite map_cons. cbn [sumR]. rewrite IH.
        change (List.length (x :: l)) with (S (List.length l)). rewrite S_INR. ring. }
      rewrite S, seq_length, minus_INR by lia. simpl. field. split; lra. }
    pose proof (one_period_whole (record_of g (1 / f / INR m) m) f) as W. rewrite record_length in W.
    apply W. rewrite SP. assert (0 < 1 / f) by (apply Rmult_lt_0_compat; [lra|apply Rinv_0_lt_compat; lra]).
    assert (0 < 1 / f / INR m) by (apply Rmult_lt_0_compat; [assumption|apply Rinv_0_lt_compat; exact M0]). lra.
  - rewrite !record_integrated by lia. reflexivity.
Qed.

(** The triangle, sampled at its corners. *)
Definition corners (i : nat) : R := if Nat.even i then -(1) else 1.

Lemma triangle_record : samples triangle = record_of corners (1 / frequency triangle / INR 2) 3.
Proof.
  unfold record_of. cbn [seq map corners Nat.even samples triangle frequency].
  apply (f_equal2 cons); [f_equal; simpl; ring|]. apply (f_equal2 cons); [f_equal; simpl; field|].
  apply (f_equal2 cons); [f_equal; simpl; field|reflexivity].
Qed.

(** Hence three cycles of a triangle lose half of what one does. *)
Theorem C131_more_cycles_refuted : exists v,
  igse_losses 2 None [ferrite] triangle 25 = Ok (Some v) /\ 0 < v /\
  igse_losses 2 None [ferrite]
    (resampled triangle (record_of corners (1 / frequency triangle / INR 2) 7)) 25 = Ok (Some (v / 2)).
Proof.
  destruct C127_witness as (v & w & EV & V & _). exists v. split; [exact EV|]. split; [exact V|].
  rewrite (C131_more_cycles (igse_losses 2) None [ferrite] triangle 25 corners 2 7 (PerIgse 2));
    [|simpl; lra|lia|lia].
  assert (S2 : switching_frequency (resampled triangle (record_of corners (1 / frequency triangle / INR 2) 2)) = Ok 1000)
    by exact triangle_switching.
  unfold igse_losses in *. rewrite triangle_switching in EV. rewrite S2. cbn [bind] in *.
  rewrite ferrite_datum in * by lra. cbn [bind] in *.
  rewrite igse_points_whole in EV by (try rewrite triangle_span; simpl; lra).
  assert (SP : span (record_of corners (1 / frequency triangle / INR 2) 2) = 1 / 2000).
  { unfold span, record_of. simpl. field. }
  rewrite igse_points_whole by (cbn [samples resampled]; try rewrite SP; simpl; lra).
  rewrite integrated_whole in * by discriminate. cbn [bind samples resampled] in *.
  change (samples triangle) with (samples triangle) in EV. rewrite triangle_record in EV.
  rewrite slope_moves in *.
  set (h := 1 / frequency triangle / INR 2) in *.
  assert (H : h = 1 / 2000) by (unfold h; simpl; field).
  assert (D : Rabs (1 - -(1)) = 2) by (rewrite Rabs_pos_eq; lra).
  assert (D' : Rabs (-(1) - 1) = 2) by (replace (-(1) - 1) with (-(2)) by ring; rewrite Rabs_Ropp, Rabs_pos_eq; lra).
  assert (M3 : moves (record_of corners h 3) = [(h, 2); (h, 2)]).
  { unfold record_of. cbn [seq map corners Nat.even moves fst snd]. rewrite D, D'.
    apply (f_equal2 cons); [f_equal; simpl; ring|]. apply (f_equal2 cons); [f_equal; simpl; ring|reflexivity]. }
  assert (M2 : moves (record_of corners h 2) = [(h, 2)]).
  { unfold record_of. cbn [seq map corners Nat.even moves fst snd]. rewrite D.
    apply (f_equal2 cons); [f_equal; simpl; ring|reflexivity]. }
  rewrite M3 in EV. rewrite M2.
  assert (A : slope_integral (alpha_ ferrite) [(h, 2); (h, 2)] =
              fmul (Some 2) (slope_integral (alpha_ ferrite) [(h, 2)])).
  { unfold slope_integral. cbn [map fsum fold_right].
    destruct (slope_term (alpha_ ferrite) (h, 2)); simpl; [f_equal; ring|reflexivity]. }
  rewrite A in EV. apply ok_inj in EV. f_equal.
  change (peak_to_peak_at (resampled triangle (record_of corners h 2)) 1000) with (peak_to_peak_at triangle 1000).
  destruct (ki 2 ferrite) as [k|]; [|discriminate].
  destruct (cpow (peak_to_peak_at triangle 1000) (beta_ ferrite - alpha_ ferrite)) as [c|]; [|discriminate].
  destruct (slope_integral (alpha_ ferrite) [(h, 2)]) as [s|]; [|discriminate].
  unfold with_temperature, fmul, fmap2 in *. injection EV as <-. f_equal. field.
Qed.

(** A record between one and one and a half periods is integrated whole, and the
    part after the period is counted twice: a triangle with a quarter more. *)
Theorem C131_over_counted_refuted : exists v w,
  igse_losses 2 None [ferrite] triangle 25 = Ok (Some v) /\
  igse_losses 2 None [ferrite]
    (resampled triangle (samples triangle ++ [(5 / 4000, 0)])) 25 = Ok (Some w) /\ v < w.
Proof.
  destruct C127_witness as (v & _ & EV & V & _).
  assert (S2 : switching_frequency (resampled triangle (samples triangle ++ [(5 / 4000, 0)])) = Ok 1000)
    by exact triangle_switching.
  unfold igse_losses in *. rewrite triangle_switching in *. rewrite S2. cbn [bind] in *.
  rewrite ferrite_datum in * by lra. cbn [bind] in *.
  rewrite (igse_points_whole triangle) in * by (try rewrite triangle_span; simpl; lra).
  assert (SP : span (samples triangle ++ [(5 / 4000, 0)]) = 5 / 4000) by (unfold span; simpl; lra).
  rewrite (igse_points_whole (resampled _ _)) by (cbn [samples resampled]; try rewrite SP; simpl; lra).
  rewrite !integrated_whole in * by discriminate. cbn [bind samples resampled] in *.
  set (s := [(0, -(1)); (1 / 2000, 1); (1 / 1000, -(1))]) in *.
  assert (E : steps (s ++ [(5 / 4000, 0)]) = (steps s ++ [(5 / 4000 - 1 / 1000, 0 - -(1))])%list) by reflexivity.
  apply ok_inj in EV.
  destruct (slope_positive (alpha_ ferrite) [(5 / 4000 - 1 / 1000, 0 - -(1))]) as (x & EX & X);
    [simpl; lra|discriminate| |].
  { intros i [<-|[]]. cbn [fst snd]. split; lra. }
  assert (A : slope_integral (alpha_ ferrite) (steps (s ++ [(5 / 4000, 0)])) =
              fadd (slope_integral (alpha_ ferrite) (steps s)) (Some x)).
  { rewrite E. unfold slope_integral in *. rewrite map_app, fsum_app, EX. reflexivity. }
  change (samples triangle) with s in *.
  destruct (slope_positive (alpha_ ferrite) (steps s)) as (y & EY & Y); [simpl; lra|discriminate| |].
  { simpl. intros i [<-|[<-|[]]]; cbn [fst snd]; lra. }
  change (peak_to_peak_at (resampled triangle (s ++ [(5 / 4000, 0)])) 1000) with (peak_to_peak_at triangle 1000).
  rewrite EY in EV, A. rewrite EY, A.
  destruct (ki 2 ferrite) as [k|]; [|discriminate].
  destruct (cpow (peak_to_peak_at triangle 1000) (beta_ ferrite - alpha_ ferrite)) as [c|]; [|discriminate].
  unfold with_temperature, fmul, fadd, fmap2 in *. injection EV as EV.
  eexists. eexists. split; [reflexivity|]. split; [reflexivity|].
  pose proof (temperature_factor_pos ferrite 25) as T. set (q := temperature_factor ferrite 25) in *.
  assert (KC : 0 < k * c * 1000).
  { destruct (Rlt_le_dec 0 (k * c * 1000)) as [L|L]; [exact L|]. exfalso.
    assert (0 <= - (k * c * 1000) * y) by (apply Rmult_le_pos; lra).
    assert (0 <= - (k * c * 1000) * y * q) by (apply Rmult_le_pos; lra). lra. }
  apply Rmult_lt_compat_r; [exact T|]. apply Rmult_lt_compat_l; [exact KC|]. lra.
Qed.

(** NSE integrates every cycle of the record: the second one doubles the loss. *)
Theorem C131_nse_counts_all_refuted : forall n loaded ranges e first rest t period v,
  400 <= frequency e -> samples e = first :: rest ->
  last (samples e) first = (fst first + period, snd first) ->
  nse_losses n loaded ranges e t = Ok v ->
  nse_losses n loaded ranges
    (resampled e (samples e ++ map (fun p => (fst p + period, snd p)) rest)) t = Ok (fmul (Some 2) v).
Proof.
  intros n loaded ranges e first rest t period v F ES EL EV.
  set (sh := fun p : R * R => (fst p + period, snd p)).
  assert (S : forall s, switching_frequency (resampled e s) = Ok (frequency e)).
  { intros s. unfold switching_frequency. cbn [frequency resampled]. destruct (Rlt_dec (frequency e) 400); [lra|reflexivity]. }
  assert (S0 : switching_frequency e = Ok (frequency e)) by exact (S []).
  unfold nse_losses in *. rewrite S. rewrite S0 in EV. cbn [bind] in *.
  took EV d Ed. rewrite Ed. cbn [bind].
  assert (N : samples e <> []) by (rewrite ES; discriminate).
  rewrite integrated_whole in EV by exact N. cbn [bind samples resampled] in *. injection EV as <-.
  rewrite integrated_whole by (rewrite ES; discriminate). cbn [bind]. f_equal.
  assert (E : steps (samples e ++ map sh rest) = (steps (samples e) ++ steps (samples e))%list).
  { destruct (exists_last N) as (r & z & EZ).
    assert (Z : z = sh first) by (rewrite EZ, last_last in EL; exact EL).
    rewrite EZ at 1. rewrite <- app_assoc. cbn [app]. rewrite steps_app, <- EZ. f_equal.
    rewrite Z. change (sh first :: map sh rest) with (map sh (first :: rest)). rewrite <- ES.
    rewrite (steps_map sh (fun i => i)); [apply map_id|]. intros a b. unfold sh. cbn [fst snd]. f_equal. ring. }
  rewrite E. unfold slope_integral. rewrite map_app, fsum_app.
  change (peak (resampled e _)) with (peak e). change (offset (resampled e _)) with (offset e).
  destruct (fsum (map (slope_term (alpha_ d)) (steps (samples e)))) as [x|];
    destruct (kn n d), (cpow (peak e - offset e) (beta_ d - alpha_ d)); simpl; try reflexivity.
  f_equal. ring.
Qed.

(** Records of the theorems above: two cycles of a waveform of three intervals. *)
Example C131_witness :
  400 <= frequency triangle /\
  igse_losses 2 None [ferrite] (resampled triangle (record_of corners (1 / frequency triangle / INR 3) 7)) 25 =
  igse_losses 2 None [ferrite] (resampled triangle (record_of corners (1 / frequency triangle / INR 3) 4)) 25 /\
  last (samples triangle) (0, -(1)) = (0 + 1 / 1000, -(1)).
Proof.
  split; [simpl; lra|]. split.
  - apply (C131_two_cycles (igse_losses 2) None [ferrite] triangle 25 corners 3 7 (PerIgse 2)); [simpl; lra|lia|right; reflexivity].
  - simpl. f_equal. ring.
Qed.

Print Assumptions C130_albach_is_mse.
Print Assumptions C130_igse_is_nse.
Print Assumptions C130_cigse_loaded_refuted.
Print Assumptions C130_igse_of_a_sinusoid.
Print Assumptions C131_two_cycles.
Print Assumptions C131_more_cycles.
Print Assumptions C131_more_cycles_refuted.
Print Assumptions C131_over_counted_refuted.
Print Assumptions C131_nse_counts_all_refuted.
