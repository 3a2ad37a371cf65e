(** * Core losses: inverses of Steinmetz (C135) *)
From Coq Require Import Reals List Lra Lia ZArith String.
From Verif Require Import Base SizingModel CoreLossModel CoreLossProofs CoreLossChoiceModel CoreLossInverseModel.
Import ListNotations.
Local Open Scope R_scope.

(** ** C135 *)

(** A flux density without offset whose peak at that frequency is [b]. *)
Definition pure (e : excitation) (f b : R) : Prop :=
  switching_frequency e = Ok f /\ peak e = b /\ peak_at e f = b /\ offset e = 0.

Lemma pure_law : forall beta b, 0 < b -> amplitude_law beta b b = Some (Rpower b beta).
Proof.
  intros beta b B. unfold amplitude_law. destruct (Rlt_dec 2 beta); rewrite !cpow_pos by exact B; [|reflexivity].
  simpl. f_equal. rewrite <- Rpower_plus. f_equal. ring.
Qed.

Lemma pure_losses : forall ranges e t f b d, pure e f b -> 0 < b -> 0 < f -> coefficients ranges f = Ok d ->
  steinmetz_losses None ranges e t =
  Ok (Some (k_ d * Rpower f (alpha_ d) * Rpower b (beta_ d) * temperature_factor d t)).
Proof.
  intros ranges e t f b d (S & P & PA & O) B F D. unfold steinmetz_losses. rewrite S. cbn [bind datum].
  rewrite D. cbn [bind]. rewrite PA, P, O, Rminus_0_r, Rabs_pos_eq by lra. rewrite pure_law by exact B.
  rewrite cpow_pos by exact F. reflexivity.
Qed.

Lemma Rpower_inverse : forall x y, 0 < x -> y <> 0 -> Rpower (Rpower x (1 / y)) y = x.
Proof.
  intros x y X Y. rewrite Rpower_mult. replace (1 / y * y) with 1 by (field; exact Y). apply Rpower_1. exact X.
Qed.
Lemma Rpower_inverse' : forall x y, 0 < x -> y <> 0 -> Rpower (Rpower x y) (1 / y) = x.
Proof.
  intros x y X Y. rewrite Rpower_mult. replace (y * (1 / y)) with 1 by (field; exact Y). apply Rpower_1. exact X.
Qed.

(** The flux density found for some losses loses them. *)
Theorem C135_flux_density : forall ranges f t volume losses d,
  coefficients ranges f = Ok d -> 0 < k_ d -> beta_ d <> 0 -> 0 < f -> 0 < volume -> 0 < losses ->
  exists b, flux_density_from ranges f t volume losses = Ok (Some b) /\ 0 < b /\
    forall e, pure e f b -> exists v, steinmetz_losses None ranges e t = Ok (Some v) /\ v * volume = losses.
Proof.
  intros ranges f t volume losses d D K B F V L. pose proof (temperature_factor_pos d t) as T.
  pose proof (Rpower_pos f (alpha_ d)) as FP.
  set (q := uncorrected d t volume losses / (k_ d * Rpower f (alpha_ d))).
  assert (U : 0 < uncorrected d t volume losses).
  { unfold uncorrected, Rdiv. repeat apply Rmult_lt_0_compat; try apply Rinv_0_lt_compat; assumption. }
  assert (KF : 0 < k_ d * Rpower f (alpha_ d)) by (apply Rmult_lt_0_compat; assumption).
  assert (Q : 0 < q) by (unfold q, Rdiv; apply Rmult_lt_0_compat; [exact U|apply Rinv_0_lt_compat; exact KF]).
  exists (Rpower q (1 / beta_ d)). split; [|split; [apply Rpower_pos|]].
  - unfold flux_density_from. rewrite D. cbn [bind]. rewrite cpow_pos by exact F. simpl fmul. unfold fdiv.
    destruct (Req_EM_T (k_ d * Rpower f (alpha_ d)) 0); [lra|].
    destruct (Req_EM_T (beta_ d) 0); [contradiction|]. fold q. rewrite cpow_pos by exact Q. reflexivity.
  - intros e P. eexists. split; [apply (pure_losses ranges e t f _ d P); [apply Rpower_pos|exact F|exact D]|].
    rewrite Rpower_inverse by assumption. unfold q, uncorrected. field. lra.
Qed.

(** and the losses of a flux density give it back. *)
Theorem C135_flux_density_back : forall ranges e f b t volume d v,
  coefficients ranges f = Ok d -> 0 < k_ d -> beta_ d <> 0 -> 0 < f -> 0 < volume -> 0 < b -> pure e f b ->
  steinmetz_losses None ranges e t = Ok (Some v) ->
  flux_density_from ranges f t volume (v * volume) = Ok (Some b).
Proof.
  intros ranges e f b t volume d v D K B F V BP P E.
  rewrite (pure_losses _ _ _ _ _ _ P BP F D) in E. injection E as <-.
  pose proof (temperature_factor_pos d t) as T. pose proof (Rpower_pos f (alpha_ d)) as FP.
  unfold flux_density_from. rewrite D. cbn [bind]. rewrite cpow_pos by exact F. simpl fmul. unfold fdiv.
  assert (KF : 0 < k_ d * Rpower f (alpha_ d)) by (apply Rmult_lt_0_compat; assumption).
  destruct (Req_EM_T (k_ d * Rpower f (alpha_ d)) 0); [lra|]. destruct (Req_EM_T (beta_ d) 0); [contradiction|].
  unfold uncorrected.
  replace (_ / volume / temperature_factor d t / (k_ d * Rpower f (alpha_ d))) with (Rpower b (beta_ d))
    by (field; lra).
  rewrite cpow_pos by apply Rpower_pos. rewrite Rpower_inverse' by assumption. reflexivity.
Qed.

(** ** The frequency *)

(** The frequency at which the datum, wherever it comes from, gives the losses. *)
Definition solves_for (d : steinmetz) (t volume losses b f : R) : Prop :=
  k_ d * Rpower f (alpha_ d) * Rpower b (beta_ d) * temperature_factor d t * volume = losses.

Lemma frequency_by_solves : forall d t volume losses b f,
  0 < k_ d -> alpha_ d <> 0 -> 0 < b -> 0 < volume -> 0 < losses ->
  frequency_by d t volume losses b = Some f -> 0 < f /\ solves_for d t volume losses b f.
Proof.
  intros d t volume losses b f K A B V L. pose proof (temperature_factor_pos d t) as T.
  pose proof (Rpower_pos b (beta_ d)) as BP. unfold frequency_by. rewrite cpow_pos by exact B. simpl fmul.
  unfold fdiv. assert (KB : 0 < k_ d * Rpower b (beta_ d)) by (apply Rmult_lt_0_compat; assumption).
  destruct (Req_EM_T (k_ d * Rpower b (beta_ d)) 0); [lra|]. destruct (Req_EM_T (alpha_ d) 0); [contradiction|].
  assert (U : 0 < uncorrected d t volume losses).
  { unfold uncorrected, Rdiv. repeat apply Rmult_lt_0_compat; try apply Rinv_0_lt_compat; assumption. }
  set (q := uncorrected d t volume losses / (k_ d * Rpower b (beta_ d))).
  assert (Q : 0 < q) by (unfold q, Rdiv; apply Rmult_lt_0_compat; [exact U|apply Rinv_0_lt_compat; exact KB]).
  rewrite cpow_pos by exact Q. intros E. injection E as <-. split; [apply Rpower_pos|].
  unfold solves_for. rewrite Rpower_inverse by assumption. unfold q, uncorrected. field. lra.
Qed.

Lemma solves_by : forall d t volume losses b f,
  0 < k_ d -> alpha_ d <> 0 -> 0 < b -> 0 < volume -> 0 < f ->
  solves_for d t volume losses b f -> frequency_by d t volume losses b = Some f.
Proof.
  intros d t volume losses b f K A B V F S. pose proof (temperature_factor_pos d t) as T.
  pose proof (Rpower_pos b (beta_ d)) as BP. unfold frequency_by. rewrite cpow_pos by exact B. simpl fmul.
  unfold fdiv. assert (KB : 0 < k_ d * Rpower b (beta_ d)) by (apply Rmult_lt_0_compat; assumption).
  destruct (Req_EM_T (k_ d * Rpower b (beta_ d)) 0); [lra|]. destruct (Req_EM_T (alpha_ d) 0); [contradiction|].
  unfold uncorrected. rewrite <- S.
  replace (_ / volume / temperature_factor d t / (k_ d * Rpower b (beta_ d))) with (Rpower f (alpha_ d))
    by (field; lra).
  rewrite cpow_pos by apply Rpower_pos. rewrite Rpower_inverse' by assumption. reflexivity.
Qed.

Lemma lookup_in : forall ranges f low high lo hi d (all : list steinmetz),
  (forall x, In x ranges -> In x all) -> (forall x, lo = Some x -> In x all) -> (forall x, hi = Some x -> In x all) ->
  lookup ranges f low high lo hi = Ok d -> In d all.
Proof.
  induction ranges as [|x r IH]; intros f low high lo hi d all A L H E; simpl in E.
  - destruct (Rlt_dec f low); [destruct lo as [y|]|].
    + injection E as <-. apply L. reflexivity.
    + destruct (Rlt_dec high f); [destruct hi as [y|]|]; try discriminate. injection E as <-. apply H. reflexivity.
    + destruct (Rlt_dec high f); [destruct hi as [y|]|]; try discriminate. injection E as <-. apply H. reflexivity.
  - assert (X : In x all) by (apply A; left; reflexivity).
    assert (A' : forall y, In y r -> In y all) by (intros y Y; apply A; right; exact Y).
    destruct (minimum_frequency x) as [a|]; [|discriminate]. destruct (maximum_frequency x) as [b|]; [|discriminate].
    assert (G : forall low' high' lo' hi', (lo' = lo \/ lo' = Some x) -> (hi' = hi \/ hi' = Some x) ->
               lookup r f low' high' lo' hi' = Ok d -> In d all).
    { intros low' high' lo' hi' L' H' E'. apply (IH f low' high' lo' hi' d all A'); [| |exact E'].
      - intros y Y. destruct L' as [-> | ->]; [apply L; exact Y|injection Y as <-; exact X].
      - intros y Y. destruct H' as [-> | ->]; [apply H; exact Y|injection Y as <-; exact X]. }
    destruct (Rle_dec a f); [destruct (Rle_dec f b); [injection E as <-; exact X|]|];
      destruct (Rlt_dec a low), (Rlt_dec high b); eapply G; try exact E; auto.
Qed.

Lemma coefficients_in : forall ranges f d, coefficients ranges f = Ok d -> In d ranges.
Proof. intros ranges f d E. apply (lookup_in ranges f _ _ None None d ranges) in E; auto; intros x X; discriminate. Qed.

Lemma converge_spec : forall n ranges t volume losses b d previous f,
  (exists g, coefficients ranges g = Ok d /\ g = previous) ->
  converge n ranges t volume losses b d previous = Ok f ->
  exists d0 g d', coefficients ranges g = Ok d0 /\ frequency_by d0 t volume losses b = Some f /\
    coefficients ranges f = Ok d' /\ (alpha_ d' = alpha_ d0 \/ (0 < g /\ Rabs (f - g) < 1 / 1000000 * g)).
Proof.
  induction n as [|n IH]; intros ranges t volume losses b d previous f (g & G & ->) E; cbn [converge] in E.
  - destruct (frequency_by d t volume losses b) as [f1|] eqn:FB; [|discriminate].
    destruct (coefficients ranges f1) as [d'| | |] eqn:C; try discriminate. cbn [bind] in E.
    destruct (Req_EM_T (alpha_ d') (alpha_ d)) as [A|A].
    + injection E as <-. exists d, previous, d'. auto.
    + destruct (Rlt_dec 0 previous) as [P|P]; [|discriminate].
      destruct (Rlt_dec (Rabs (f1 - previous) / previous) (1 / 1000000)) as [Q|Q]; [|discriminate].
      injection E as <-. exists d, previous, d'. repeat split; try assumption. right. split; [exact P|].
      apply Rmult_lt_compat_r with (r := previous) in Q; [|exact P]. unfold Rdiv in Q at 1.
      rewrite Rmult_assoc, Rinv_l, Rmult_1_r in Q by lra. exact Q.
  - destruct (frequency_by d t volume losses b) as [f1|] eqn:FB; [|discriminate].
    destruct (coefficients ranges f1) as [d'| | |] eqn:C; try discriminate. cbn [bind] in E.
    destruct (Req_EM_T (alpha_ d') (alpha_ d)) as [A|A].
    + injection E as <-. exists d, previous, d'. auto.
    + destruct (Rlt_dec 0 previous) as [P|P]; [destruct (Rlt_dec (Rabs (f1 - previous) / previous) (1 / 1000000)) as [Q|Q]|].
      * injection E as <-. exists d, previous, d'. repeat split; try assumption. right. split; [exact P|].
        apply Rmult_lt_compat_r with (r := previous) in Q; [|exact P]. unfold Rdiv in Q at 1.
        rewrite Rmult_assoc, Rinv_l, Rmult_1_r in Q by lra. exact Q.
      * apply (IH ranges t volume losses b d' f1 f); [exists f1; auto|exact E].
      * apply (IH ranges t volume losses b d' f1 f); [exists f1; auto|exact E].
Qed.

(** When no two ranges share their exponent, the frequency returned loses the
    losses asked for, or differs in less than a millionth from a frequency whose
    range does. *)
Theorem C135_frequency : forall ranges peak_ offset_ t volume losses f,
  (forall x, In x ranges -> 0 < k_ x /\ alpha_ x <> 0) ->
  (forall x y, In x ranges -> In y ranges -> alpha_ x = alpha_ y -> x = y) ->
  0 < volume -> 0 < losses -> 0 < peak_ - offset_ ->
  frequency_from ranges peak_ offset_ t volume losses = Ok f ->
  0 < f /\
  ((exists d, coefficients ranges f = Ok d /\ solves_for d t volume losses (peak_ - offset_) f) \/
   (exists g d, coefficients ranges g = Ok d /\ solves_for d t volume losses (peak_ - offset_) f /\
      Rabs (f - g) < 1 / 1000000 * g)).
Proof.
  intros ranges p o t volume losses f K I V L B E. unfold frequency_from in E.
  destruct (coefficients ranges 100000) as [d0| | |] eqn:C0; try discriminate. cbn [bind] in E.
  apply converge_spec in E; [|exists 100000; auto].
  destruct E as (d & g & d' & G & FB & C & R).
  pose proof (coefficients_in _ _ _ G) as ID. pose proof (coefficients_in _ _ _ C) as ID'.
  destruct (K d ID) as [KP A]. destruct (frequency_by_solves _ _ _ _ _ _ KP A B V L FB) as [F S].
  split; [exact F|]. destruct R as [R|[GP R]].
  - left. exists d'. split; [exact C|]. rewrite (I d' d ID' ID R). exact S.
  - right. exists g, d. auto.
Qed.

(** The losses of that frequency, by the model. *)
Theorem C135_frequency_losses : forall ranges e t volume losses b f d,
  0 < f -> 0 < b -> pure e f b -> coefficients ranges f = Ok d -> solves_for d t volume losses b f ->
  exists v, steinmetz_losses None ranges e t = Ok (Some v) /\ v * volume = losses.
Proof.
  intros ranges e t volume losses b f d F B P D S. eexists. split; [apply (pure_losses _ _ _ _ _ _ P B F D)|exact S].
Qed.

(** With one range the frequency of any losses is found. *)
Theorem C135_one_range : forall d ranges t volume losses p o,
  (forall f, coefficients ranges f = Ok d) -> 0 < k_ d -> alpha_ d <> 0 ->
  0 < volume -> 0 < losses -> 0 < p - o ->
  exists f, frequency_from ranges p o t volume losses = Ok f /\ 0 < f /\ solves_for d t volume losses (p - o) f.
Proof.
  intros d ranges t volume losses p o C K A V L B. unfold frequency_from. rewrite C. cbn [bind converge].
  destruct (frequency_by d t volume losses (p - o)) as [f|] eqn:FB.
  - exists f. rewrite C. cbn [bind]. destruct (Req_EM_T (alpha_ d) (alpha_ d)); [|contradiction].
    split; [reflexivity|]. apply frequency_by_solves; assumption.
  - exfalso. revert FB. unfold frequency_by. rewrite cpow_pos by exact B. simpl fmul. unfold fdiv.
    pose proof (temperature_factor_pos d t) as T.
    assert (KB : 0 < k_ d * Rpower (p - o) (beta_ d)) by (apply Rmult_lt_0_compat; [exact K|apply Rpower_pos]).
    destruct (Req_EM_T (k_ d * Rpower (p - o) (beta_ d)) 0); [lra|]. destruct (Req_EM_T (alpha_ d) 0); [contradiction|].
    rewrite cpow_pos; [discriminate|]. unfold uncorrected, Rdiv.
    repeat apply Rmult_lt_0_compat; try apply Rinv_0_lt_compat; assumption.
Qed.

(** The frequency of the losses of a sinusoid in the range of 100 kHz comes back. *)
Theorem C135_frequency_back : forall ranges e t volume b f d v,
  coefficients ranges 100000 = Ok d -> coefficients ranges f = Ok d -> 0 < k_ d -> alpha_ d <> 0 ->
  0 < volume -> 0 < b -> 0 < f -> pure e f b -> steinmetz_losses None ranges e t = Ok (Some v) ->
  frequency_from ranges b 0 t volume (v * volume) = Ok f.
Proof.
  intros ranges e t volume b f d v C0 C K A V B F P E. unfold frequency_from. rewrite C0. cbn [bind converge].
  rewrite (pure_losses _ _ _ _ _ _ P B F C) in E. injection E as <-. rewrite Rminus_0_r.
  rewrite (solves_by d t volume _ b f); try assumption; [|unfold solves_for; ring].
  rewrite C. cbn [bind]. destruct (Req_EM_T (alpha_ d) (alpha_ d)); [reflexivity|contradiction].
Qed.

(** Two ranges with the same exponent: the frequency returned loses twice as much. *)
Definition band (k low high : R) : steinmetz :=
  {| k_ := k; alpha_ := 1; beta_ := 2; ct0 := None; ct1 := None; ct2 := None;
     minimum_frequency := Some low; maximum_frequency := Some high |}.

Theorem C135_same_exponent_refuted :
  let ranges := [band 1 1 150000; band 2 150000 1000000] in
  frequency_from ranges 1 0 25 1 200000 = Ok 200000 /\
  exists d, coefficients ranges 200000 = Ok d /\ solves_for d 25 1 400000 1 200000.
Proof.
  intros ranges.
  assert (C1 : coefficients ranges 100000 = Ok (band 1 1 150000)).
  { unfold coefficients. simpl. destruct (Rle_dec 1 100000); [|lra]. destruct (Rle_dec 100000 150000); [reflexivity|lra]. }
  assert (C2 : coefficients ranges 200000 = Ok (band 2 150000 1000000)).
  { unfold coefficients. simpl. destruct (Rle_dec 1 200000); [|lra]. destruct (Rle_dec 200000 150000); [lra|].
    destruct (Rlt_dec 1 100000000); [|lra]. destruct (Rlt_dec 0 150000); [|lra].
    destruct (Rle_dec 150000 200000); [|lra]. destruct (Rle_dec 200000 1000000); [reflexivity|lra]. }
  assert (T : forall k l h, temperature_factor (band k l h) 25 = 1) by reflexivity.
  assert (P2 : Rpower 1 2 = 1) by (replace 1 with (Rpower 2 0) at 1 by (apply Rpower_O; lra); rewrite Rpower_mult, Rmult_0_l; apply Rpower_O; lra).
  split.
  - unfold frequency_from. rewrite C1. cbn [bind converge].
    rewrite (solves_by _ _ _ _ _ 200000); [|simpl; lra..|].
    + rewrite C2. cbn [bind]. destruct (Req_EM_T _ _) as [E|E]; [reflexivity|exfalso; apply E; reflexivity].
    + unfold solves_for. rewrite T. cbn [k_ alpha_ beta_ band]. rewrite Rminus_0_r, P2, Rpower_1 by lra. ring.
  - eexists. split; [exact C2|]. unfold solves_for. rewrite T. cbn [k_ alpha_ beta_ band].
    rewrite P2, Rpower_1 by lra. ring.
Qed.

(** Where the correction for the temperature is negative the models ignore it,
    and the flux density of a volumetric loss is not a number. *)
Definition hot : steinmetz :=
  {| k_ := 1; alpha_ := 1; beta_ := 5 / 2; ct0 := Some 1; ct1 := Some 1; ct2 := Some 0;
     minimum_frequency := Some 1; maximum_frequency := Some 1000000 |}.
Theorem C135_negative_correction_refuted :
  temperature_factor hot 25 = 1 /\ flux_density_of_datum hot 1000 1000 25 = None.
Proof.
  split.
  - unfold temperature_factor. simpl. destruct (Rlt_dec _ _) as [L|L]; [exfalso; lra|reflexivity].
  - unfold flux_density_of_datum. cbn [ct0 ct1 ct2 hot k_ alpha_ beta_]. rewrite cpow_pos by lra. unfold fdiv.
    destruct (Req_EM_T 1 0); [lra|]. pose proof (Rpower_pos 1000 1).
    destruct (Req_EM_T (Rpower 1000 1) 0); [lra|].
    destruct (Req_EM_T (0 * 25 ^ 2 - 1 * 25 + 1) 0); [lra|]. destruct (Req_EM_T (5 / 2) 0); [lra|].
    set (x := 1000 / 1 / Rpower 1000 1 / (0 * 25 ^ 2 - 1 * 25 + 1)).
    assert (X : x < 0).
    { unfold x. rewrite Rpower_1 by lra. lra. }
    unfold cpow. destruct (Rlt_dec 0 x); [lra|]. destruct (Req_EM_T x 0); [lra|].
    destruct (Req_EM_T (IZR (Int_part (1 / (5 / 2)))) (1 / (5 / 2))) as [I|I]; [|reflexivity]. exfalso.
    pose proof (base_Int_part (1 / (5 / 2))) as [A B]. set (z := Int_part (1 / (5 / 2))) in *.
    assert (L : (-1 < z)%Z) by (apply lt_IZR; lra). assert (U : (z < 1)%Z) by (apply lt_IZR; lra).
    assert (z = 0%Z) as Z by lia. rewrite Z in I. lra.
Qed.

(** Otherwise it is the inverse of the model. *)
Theorem C135_datum : forall d volumetric f t b,
  0 < k_ d -> beta_ d <> 0 -> 0 < f -> 0 < b ->
  (forall c0 c1 c2, ct0 d = Some c0 -> ct1 d = Some c1 -> ct2 d = Some c2 -> 0 < c2 * t ^ 2 - c1 * t + c0) ->
  flux_density_of_datum d volumetric f t = Some b ->
  k_ d * Rpower f (alpha_ d) * Rpower b (beta_ d) * temperature_factor d t = volumetric \/ volumetric <= 0.
Proof.
  intros d volumetric f t b K B F BP C E. destruct (Rlt_le_dec 0 volumetric) as [VP|VP]; [left|right; exact VP].
  unfold flux_density_of_datum in E. rewrite cpow_pos in E by exact F. pose proof (Rpower_pos f (alpha_ d)) as FP.
  assert (T : temperature_factor d t = match ct0 d, ct1 d, ct2 d with
              | Some c0, Some c1, Some c2 => c2 * t ^ 2 - c1 * t + c0 | _, _, _ => 1 end).
  { unfold temperature_factor. destruct (ct0 d) as [c0|]; [|reflexivity]. destruct (ct1 d) as [c1|]; [|reflexivity].
    destruct (ct2 d) as [c2|]; [|reflexivity]. specialize (C c0 c1 c2 eq_refl eq_refl eq_refl).
    destruct (Rlt_dec 0 _); [reflexivity|lra]. }
  cbv zeta in E. rewrite <- T in E. pose proof (temperature_factor_pos d t) as TP. unfold fdiv in E.
  destruct (Req_EM_T (k_ d) 0); [lra|]. destruct (Req_EM_T (Rpower f (alpha_ d)) 0); [lra|].
  destruct (Req_EM_T (temperature_factor d t) 0); [lra|]. destruct (Req_EM_T (beta_ d) 0); [contradiction|].
  set (q := volumetric / k_ d / Rpower f (alpha_ d) / temperature_factor d t) in *.
  assert (Q : 0 < q).
  { unfold q, Rdiv. repeat apply Rmult_lt_0_compat; try apply Rinv_0_lt_compat; assumption. }
  rewrite cpow_pos in E by exact Q. injection E as <-. rewrite Rpower_inverse by assumption. unfold q. field. lra.
Qed.

(** A band without end: the frequency of 300 kW in a unit volume with a peak of
    one tesla, and the flux density of 3 kW at 3 kHz. *)
Example C135_witness :
  frequency_from [band 1 1 1000000] 1 0 25 1 300000 = Ok 300000 /\
  flux_density_from [band 1 1 1000000] 3000 25 1 3000 = Ok (Some 1).
Proof.
  assert (P2 : forall x, Rpower 1 x = 1).
  { intros x. replace 1 with (Rpower 2 0) at 1 by (apply Rpower_O; lra). rewrite Rpower_mult, Rmult_0_l. apply Rpower_O. lra. }
  assert (C : forall f, 1 <= f <= 1000000 -> coefficients [band 1 1 1000000] f = Ok (band 1 1 1000000)).
  { intros f H. unfold coefficients. simpl. destruct (Rle_dec 1 f); [|lra]. destruct (Rle_dec f 1000000); [reflexivity|lra]. }
  split.
  - unfold frequency_from. rewrite C by lra. cbn [bind converge].
    rewrite (solves_by _ _ _ _ _ 300000); [|simpl; lra..|].
    + rewrite C by lra. cbn [bind]. destruct (Req_EM_T _ _) as [E|E]; [reflexivity|exfalso; apply E; reflexivity].
    + unfold solves_for. change (temperature_factor (band 1 1 1000000) 25) with 1. cbn [k_ alpha_ beta_ band].
      rewrite Rminus_0_r, P2, Rpower_1 by lra. ring.
  - unfold flux_density_from. rewrite C by lra. cbn [bind k_ alpha_ beta_ band]. rewrite cpow_pos by lra.
    rewrite Rpower_1 by lra. unfold uncorrected. change (temperature_factor (band 1 1 1000000) 25) with 1.
    simpl fmul. unfold fdiv. destruct (Req_EM_T (1 * 3000) 0); [lra|]. destruct (Req_EM_T 2 0); [lra|].
    replace (3000 / 1 / 1 / (1 * 3000)) with 1 by field. rewrite cpow_pos by lra. rewrite P2. reflexivity.
Qed.

Print Assumptions C135_flux_density.
Print Assumptions C135_flux_density_back.
Print Assumptions C135_frequency.
Print Assumptions C135_frequency_back.
Print Assumptions C135_same_exponent_refuted.
Print Assumptions C135_negative_correction_refuted.
Print Assumptions C135_datum.
