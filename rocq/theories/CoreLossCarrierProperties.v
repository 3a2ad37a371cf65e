(** Specification: at which frequency, and of which amplitude, the loss models see an excitation of
    mains frequency that carries a switching ripple. *)
From Coq Require Import Reals List String Lra Lia Arith.
From Verif Require Import Base SizingModel SizingProofs CoreLossModel CoreLossShapeProperties.
Import ListNotations.
Open Scope R_scope.

(** [f] is where the strongest of the harmonics [l] lies, the first of them if several tie. *)
Definition strongest_of (l : list (R * R)) (f a : R) : Prop :=
  exists before after, l = (before ++ (f, a) :: after)%list /\
    (forall g b, In (g, b) before -> b < a) /\ (forall g b, In (g, b) after -> b <= a).

Lemma strongest_spec : forall l main best at_, 0 <= main -> 0 <= best ->
  (strongest l main best at_ = at_ /\
   forall g b, In (g, b) l -> b <= main / 100 \/ b <= best) \/
  exists a, strongest_of l (strongest l main best at_) a /\ main / 100 < a /\ best < a.
Proof.
  intros l main best at_ M. revert best at_.
  induction l as [|[f a] l IH]; intros best at_ B; [left; split; [reflexivity|intros g b []]|].
  cbn [strongest].
  destruct (Rlt_dec (1 / 100 * main) a) as [H|H].
  - destruct (Rlt_dec best a) as [K|K].
    + destruct (IH a f ltac:(lra)) as [[E N]|[x [(u & v & L & U & V) [X Y]]]].
      * right. exists a. rewrite E. split; [|lra]. exists [], l. split; [reflexivity|].
        split; [intros g b []|]. intros g b I. destruct (N g b I); lra.
      * right. exists x. split; [|lra]. exists ((f, a) :: u), v. split; [cbn; now rewrite L at 1|].
        split; [|exact V]. intros g b [I|I]; [inversion I; subst; lra|exact (U g b I)].
    + destruct (IH best at_ B) as [[E N]|[x [(u & v & L & U & V) [X Y]]]].
      * left. split; [exact E|]. intros g b [I|I]; [inversion I; subst; lra|exact (N g b I)].
      * right. exists x. split; [|lra]. exists ((f, a) :: u), v. split; [cbn; now rewrite L at 1|].
        split; [|exact V]. intros g b [I|I]; [inversion I; subst; lra|exact (U g b I)].
  - destruct (IH best at_ B) as [[E N]|[x [(u & v & L & U & V) [X Y]]]].
    + left. split; [exact E|]. intros g b [I|I]; [inversion I; subst; lra|exact (N g b I)].
    + right. exists x. split; [|lra]. exists ((f, a) :: u), v. split; [cbn; now rewrite L at 1|].
      split; [|exact V]. intros g b [I|I]; [inversion I; subst; lra|exact (U g b I)].
Qed.

(** Below 400 Hz, and if the current was sampled finely, the frequency of the losses is the one of
    the strongest harmonic above the main one; the main one itself if all the others stay within a
    hundredth of it. *)
Theorem C163_carrier : forall e mean f1 a1 rest, frequency e < 400 -> (128 < current_points e)%nat ->
  current_harmonics e = Some (mean :: (f1, a1) :: rest) -> 0 <= a1 ->
  exists f, switching_frequency e = Ok f /\
    ((f = f1 /\ forall g b, In (g, b) rest -> b <= a1 / 100) \/
     exists a, strongest_of rest f a /\ a1 / 100 < a).
Proof.
  intros e mean f1 a1 rest F P H A. unfold switching_frequency.
  destruct (Rlt_dec (frequency e) 400); [|lra]. rewrite H.
  destruct (Nat.ltb 128 (current_points e)) eqn:N; [|apply PeanoNat.Nat.ltb_ge in N; lia].
  exists (strongest rest a1 0 f1). split; [reflexivity|].
  destruct (strongest_spec rest a1 0 f1 A ltac:(lra)) as [[E B]|[a [S [X Y]]]].
  - left. split; [exact E|]. intros g b I. destruct (B g b I); lra.
  - right. exists a. split; assumption.
Qed.

(** Any other excitation is taken at its own frequency: from 400 Hz on, without harmonics of the
    current, or sampled coarsely. *)
Theorem C163_own : forall e,
  400 <= frequency e \/ current_harmonics e = None \/ (current_points e <= 128)%nat ->
  switching_frequency e = Ok (frequency e).
Proof.
  intros e H. unfold switching_frequency. destruct (Rlt_dec (frequency e) 400); [|reflexivity].
  destruct (current_harmonics e) eqn:E; [|reflexivity].
  destruct (Nat.ltb 128 (current_points e)) eqn:N; [|reflexivity].
  apply PeanoNat.Nat.ltb_lt in N. destruct H as [H|[H|H]]; [lra|discriminate|lia].
Qed.

Lemma amplitude_first : forall l f a before after, l = (before ++ (f, a) :: after)%list ->
  (forall g b, In (g, b) before -> g <> f) -> amplitude_at l f = Some a.
Proof.
  intros l f a before after -> H. induction before as [|[g b] r IH]; cbn [app amplitude_at].
  - destruct (Req_EM_T f f); [reflexivity|contradiction].
  - destruct (Req_EM_T g f) as [E|E]; [exfalso; exact (H g b (or_introl eq_refl) E)|].
    apply IH. intros x y I. exact (H x y (or_intror I)).
Qed.

Lemma amplitude_none : forall l f, (forall g b, In (g, b) l -> g <> f) -> amplitude_at l f = None.
Proof.
  intros l f H. induction l as [|[g b] r IH]; [reflexivity|]. cbn [amplitude_at].
  destruct (Req_EM_T g f) as [E|E]; [exfalso; exact (H g b (or_introl eq_refl) E)|].
  apply IH. intros x y I. exact (H x y (or_intror I)).
Qed.

(** At the frequency of a harmonic of the flux density the peak is the amplitude of that harmonic
    and the swing is twice the peak. *)
Theorem C163_amplitude : forall e mean f1 a1 before f a after,
  harmonics e = Some (mean :: (f1, a1) :: before ++ (f, a) :: after) -> f1 <> f ->
  (forall g b, In (g, b) before -> g <> f) ->
  peak_at e f = a /\ peak_to_peak_at e f = 2 * a.
Proof.
  intros e mean f1 a1 before f a after H N B.
  assert (E : harmonic_at e f = Some a).
  { unfold harmonic_at. rewrite H. destruct (Req_EM_T f1 f); [contradiction|].
    eapply amplitude_first; [reflexivity|exact B]. }
  unfold peak_at, peak_to_peak_at. rewrite E. split; [reflexivity|ring].
Qed.

(** At the main frequency, and at one the flux density has no harmonic of, they are the ones of the
    whole waveform. *)
Theorem C163_whole : forall e mean f1 a1 rest f, harmonics e = Some (mean :: (f1, a1) :: rest) ->
  f = f1 \/ (forall g b, In (g, b) rest -> g <> f) ->
  peak_at e f = peak e /\ peak_to_peak_at e f = peak_to_peak e.
Proof.
  intros e mean f1 a1 rest f H N.
  assert (E : harmonic_at e f = None).
  { unfold harmonic_at. rewrite H. destruct (Req_EM_T f1 f) as [Z|Z]; [reflexivity|].
    destruct N as [N|N]; [congruence|]. exact (amplitude_none rest f N). }
  unfold peak_at, peak_to_peak_at. rewrite E. split; reflexivity.
Qed.

(** ** Of a carrier iGSE integrates one cycle *)

Lemma intervals_front : forall k s tail, (k <= List.length s)%nat -> intervals k (s ++ tail) = intervals k s.
Proof.
  intro k. induction k as [|k IH]; intros s tail L; [reflexivity|].
  destruct s as [|a s]; [cbn in L; lia|]. destruct s as [|b s].
  - cbn in L. assert (k = 0%nat) by lia. subst k. cbn. destruct tail; reflexivity.
  - cbn [app intervals]. destruct k as [|k]; [reflexivity|]. f_equal.
    change (b :: s ++ tail)%list with ((b :: s) ++ tail)%list. apply IH. cbn in L |- *. lia.
Qed.

Lemma one_period_few : forall s f k, 0 < f -> (2 <= k)%nat -> (one_period s f k <= k)%nat.
Proof.
  intros s f k F K. unfold one_period. destruct (Nat.ltb 1 k); [|lia]. cbv zeta.
  set (d := fst (nth (k - 1) s (0, 0)) - fst (nth 0 s (0, 0))).
  destruct (Rlt_dec (3 / 2 * (1 / f)) d) as [L|L]; [|lia].
  assert (D : 3 / 2 < d * f).
  { apply (Rmult_lt_compat_r f) in L; [|exact F]. replace (3 / 2 * (1 / f) * f) with (3 / 2) in L by (field; lra).
    exact L. }
  apply Nat.max_lub; [exact K|]. pose proof (pos_INR k). apply nround_le.
  - apply Rmult_le_pos; [lra|]. apply Rlt_le, Rinv_0_lt_compat. lra.
  - assert (INR k / (d * f) <= INR k); [|lra].
    apply (Rmult_le_reg_r (d * f)); [lra|]. unfold Rdiv. rewrite Rmult_assoc, Rinv_l by lra. nra.
Qed.

(** When the losses are taken at a carrier above the frequency of the excitation, iGSE only looks at the
    share of the samples one cycle of the carrier has, two at least: what comes later may be anything. *)
Theorem C163_one_cycle : forall n loaded ranges e t f s tail tail',
  switching_frequency e = Ok f -> 0 < frequency e < f -> List.length tail = List.length tail' ->
  List.length s = Nat.max 2 (nround (INR (List.length (s ++ tail)) / (f / frequency e))) ->
  igse_losses n loaded ranges (resampled e (s ++ tail)) t = igse_losses n loaded ranges (resampled e (s ++ tail')) t.
Proof.
  intros n loaded ranges e t f s tail tail' S F T L.
  assert (R : 1 < f / frequency e).
  { apply (Rmult_lt_reg_r (frequency e)); [lra|]. unfold Rdiv. rewrite Rmult_assoc, Rinv_l by lra. lra. }
  assert (K : (2 <= List.length s)%nat) by lia.
  assert (TT : List.length (s ++ tail) = List.length (s ++ tail')) by (rewrite !app_length; lia).
  assert (P : forall u, List.length (s ++ u) = List.length (s ++ tail) ->
              igse_points (resampled e (s ++ u)) f = one_period s f (List.length s)).
  { intros u U. unfold igse_points. cbn [samples resampled frequency].
    destruct (Rlt_dec 1 (f / frequency e)); [|lra]. rewrite U, <- L. unfold one_period.
    destruct (Nat.ltb 1 (List.length s)); [|reflexivity]. rewrite !app_nth1 by lia. reflexivity. }
  unfold igse_losses. change (switching_frequency (resampled e (s ++ tail))) with (switching_frequency e).
  change (switching_frequency (resampled e (s ++ tail'))) with (switching_frequency e). rewrite S. cbn [bind].
  change (peak_to_peak_at (resampled e (s ++ tail)) f) with (peak_to_peak_at e f).
  change (peak_to_peak_at (resampled e (s ++ tail')) f) with (peak_to_peak_at e f).
  rewrite (P tail eq_refl), (P tail' (eq_sym TT)). cbn [samples resampled].
  assert (I : integrated (s ++ tail) (one_period s f (List.length s)) =
              integrated (s ++ tail') (one_period s f (List.length s))).
  { pose proof (one_period_few s f (List.length s) ltac:(lra) K) as O. unfold integrated.
    rewrite TT, !intervals_front by exact O. reflexivity. }
  rewrite I. reflexivity.
Qed.

(** ** C164: flux that rests at its top *)

(** How many of the values are within a fiftieth of the highest one. *)
Definition near_top (top : R) (l : list R) : nat :=
  List.length (filter (fun x => if Rlt_dec (98 / 100 * top) x then true else false) l).

Lemma highest_is : forall l x top, In top (x :: l) -> (forall y, In y (x :: l) -> y <= top) ->
  highest_value x l = top.
Proof.
  intro l. induction l as [|y l IH]; intros x top I M; cbn [highest_value].
  - destruct I as [I|[]]. exact I.
  - apply IH.
    + destruct (Rlt_dec x y) as [L|L].
      * destruct I as [I|[I|I]]; [|left; exact I|right; exact I]. subst x.
        pose proof (M y (or_intror (or_introl eq_refl))). lra.
      * destruct I as [I|[I|I]]; [left; exact I| |right; exact I]. subst y.
        pose proof (M x (or_introl eq_refl)). left. lra.
    + intros z [Z|Z]; [|apply M; right; right; exact Z]. subst z.
      destruct (Rlt_dec x y); apply M; [right|]; left; reflexivity.
Qed.

(** Barg: the losses are pi / 4 of those of Steinmetz, times the factor tabulated for half a period less
    the share of it the flux density stays within a fiftieth of its top; the factor is looked for between a
    tenth and a half, and is never below one. *)
Theorem C164_plateau : forall spline loaded ranges e t v top,
  offset e <= peak e -> steinmetz_losses loaded ranges e t = Ok v ->
  In top (map snd (samples e)) -> (forall y, In y (map snd (samples e)) -> y <= top) -> 0 < top ->
  exists factor,
    barg_losses spline loaded ranges e t = Ok (fmul (Some (factor * (PI / 4))) v) /\ 1 <= factor /\
    exists duty, 1 / 10 <= duty <= 1 / 2 /\ factor = Rmax 1 (spline duty) /\
      duty = Rmax (1 / 10)
        (1 / 2 - INR (near_top top (map snd (samples e))) / INR (List.length (samples e))).
Proof.
  intros spline loaded ranges e t v top OP SV IT MT T0.
  set (values := map snd (samples e)) in *.
  assert (LV : List.length values = List.length (samples e)) by (unfold values; apply map_length).
  assert (N : 0 < INR (List.length values)).
  { destruct values; [destruct IT|]. apply lt_0_INR. cbn. lia. }
  assert (D : plateau_duty values = Ok ((INR (List.length values) / 2 - INR (near_top top values)) / INR (List.length values))).
  { unfold plateau_duty. destruct values as [|x r] eqn:E; [destruct IT|]. cbv zeta.
    rewrite (highest_is r x top IT MT). do 4 f_equal. unfold near_top. f_equal. apply filter_ext_in.
    intros y Y. pose proof (MT y Y) as B. unfold on_plateau. destruct (Req_EM_T top 0); [lra|].
    rewrite Rabs_right by lra.
    assert (Q : (top - y) / top < 2 / 100 <-> 98 / 100 * top < y).
    { split; intro H.
      - apply (Rmult_lt_compat_r top) in H; [|exact T0]. unfold Rdiv in H. rewrite Rmult_assoc, Rinv_l in H by lra. lra.
      - apply (Rmult_lt_reg_r top); [exact T0|]. unfold Rdiv. rewrite Rmult_assoc, Rinv_l by lra. lra. }
    destruct (Rlt_dec ((top - y) / top) (2 / 100)), (Rlt_dec (98 / 100 * top) y); try reflexivity; tauto. }
  assert (S0 : 0 <= INR (near_top top values) / INR (List.length values)).
  { apply Rmult_le_pos; [apply pos_INR|]. apply Rlt_le, Rinv_0_lt_compat, N. }
  assert (DQ : (INR (List.length values) / 2 - INR (near_top top values)) / INR (List.length values) =
               1 / 2 - INR (near_top top values) / INR (List.length values)) by (field; lra).
  rewrite DQ in D. rewrite <- LV. set (q := INR (near_top top values) / INR (List.length values)) in *.
  unfold steinmetz_losses in SV. unfold barg_losses.
  destruct (switching_frequency e) as [f| | |]; cbn [bind] in *; try discriminate.
  destruct (datum loaded ranges f) as [d| | |]; cbn [bind] in *; try discriminate.
  fold values. rewrite D. cbn [bind].
  assert (CL : clamp (1 / 2 - q) (1 / 10) (1 / 2) = Rmax (1 / 10) (1 / 2 - q)).
  { unfold clamp. destruct (Rlt_dec (1 / 2 - q) (1 / 10)); [rewrite Rmax_left by lra; reflexivity|].
    destruct (Rlt_dec (1 / 2) (1 / 2 - q)); [lra|]. rewrite Rmax_right by lra. reflexivity. }
  set (duty := Rmax (1 / 10) (1 / 2 - q)) in *.
  exists (Rmax 1 (spline duty)). split; [|split; [apply Rmax_l|]].
  - assert (V : v = with_temperature (fmul (fmul (Some (k_ d)) (cpow f (alpha_ d)))
                     (amplitude_law (beta_ d) (Rabs (peak e - offset e)) (Rabs (peak_at e f - offset e)))) d t) by congruence.
    subst v. rewrite (Rabs_right (peak e - offset e)) by lra. f_equal.
    unfold barg_factor. rewrite CL.
    replace (if Rlt_dec 1 (spline duty) then spline duty else 1) with (Rmax 1 (spline duty))
      by (destruct (Rlt_dec 1 (spline duty)); [rewrite Rmax_right by lra|rewrite Rmax_left by lra]; reflexivity).
    unfold with_temperature.
    destruct (cpow f (alpha_ d)), (amplitude_law (beta_ d) (peak e - offset e) (Rabs (peak_at e f - offset e)));
      cbn; try reflexivity. f_equal. field.
  - exists duty. split; [|split; reflexivity]. unfold duty. split; [apply Rmax_l|]. apply Rmax_lub; lra.
Qed.

(** A mains current of 50 Hz with a ripple at 20 kHz, and a weaker one at 40 kHz. *)
Definition rippled : excitation :=
  {| frequency := 50; current_points := 1000;
     current_harmonics := Some [(0, 0); (50, 10); (100, 1 / 100); (20000, 2); (40000, 1)];
     peak := 3 / 10; offset := 0; peak_to_peak := 6 / 10;
     harmonics := Some [(0, 0); (50, 2 / 10); (100, 0); (20000, 1 / 10); (40000, 1 / 20)];
     samples := [] |}.

Example C163_witness : switching_frequency rippled = Ok 20000 /\
  peak_at rippled 20000 = 1 / 10 /\ peak_to_peak_at rippled 20000 = 2 * (1 / 10).
Proof.
  split.
  - unfold switching_frequency, rippled. cbn [frequency current_points current_harmonics].
    destruct (Rlt_dec 50 400); [|lra]. change (Nat.ltb 128 1000) with true. cbn [strongest].
    destruct (Rlt_dec (1 / 100 * 10) (1 / 100)); [lra|].
    destruct (Rlt_dec (1 / 100 * 10) 2); [|lra]. destruct (Rlt_dec 0 2); [|lra].
    destruct (Rlt_dec (1 / 100 * 10) 1); [|lra]. destruct (Rlt_dec 2 1); [lra|]. reflexivity.
  - apply (C163_amplitude rippled (0, 0) 50 (2 / 10) [(100, 0)] 20000 (1 / 10) [(40000, 1 / 20)]);
      [reflexivity|lra|]. intros g b [I|[]]. inversion I; subst. lra.
Qed.

(** A trapezium that rests at its top for a third of its samples. *)
Example C164_witness : near_top 1 [0; 1 / 2; 1; 1; 1 / 2; 0] = 2%nat /\
  In 1 [0; 1 / 2; 1; 1; 1 / 2; 0] /\ (forall y, In y [0; 1 / 2; 1; 1; 1 / 2; 0] -> y <= 1).
Proof.
  split; [|split].
  - unfold near_top. cbn [filter]. destruct (Rlt_dec (98 / 100 * 1) 0); [lra|].
    destruct (Rlt_dec (98 / 100 * 1) (1 / 2)); [lra|]. destruct (Rlt_dec (98 / 100 * 1) 1); [|lra]. reflexivity.
  - right. right. left. reflexivity.
  - intros y I. repeat (destruct I as [I|I]; [subst y; lra|]). destruct I.
Qed.

(** 1600 samples of a period of 50 Hz have four for a cycle of 20 kHz. *)
Example C163_cycle_witness : forall s tail : list (R * R), List.length s = 4%nat -> List.length tail = (1600 - 4)%nat ->
  0 < frequency rippled < 20000 /\
  List.length s = Nat.max 2 (nround (INR (List.length (s ++ tail)) / (20000 / frequency rippled))).
Proof.
  intros s tail S T. cbn [frequency rippled]. split; [lra|].
  rewrite app_length, S, T. replace (INR (4 + (1600 - 4)) / (20000 / 50)) with (INR 4).
  - rewrite nround_INR. reflexivity.
  - rewrite !INR_IZR_INZ. change (Z.of_nat 4) with 4%Z. change (Z.of_nat (4 + (1600 - 4))) with 1600%Z. field.
Qed.

Print Assumptions C163_one_cycle.
Print Assumptions C164_plateau.
Print Assumptions C163_carrier.
Print Assumptions C163_own.
Print Assumptions C163_amplitude.
Print Assumptions C163_whole.
