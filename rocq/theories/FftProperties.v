(** C65-C68: the harmonics of a waveform and the figures computed from them. *)
From Coq Require Import Reals List Arith NArith Bool String Lia Lra Psatz.
From Verif Require Import Base FftModel FftProofs.
Import ListNotations.
Open Scope R_scope.

(** * Vocabulary *)

(** The sum of [f] over 0 .. n-1. *)
Fixpoint sigma (f : nat -> R) (n : nat) : R :=
  match n with O => 0 | S m => sigma f m + f m end.

(** The angle of sample [j] in harmonic [r] of a period of [n] samples. *)
Definition angle (n j r : nat) : R := 2 * PI * INR j * INR r / INR n.

(** The cosine and sine components of harmonic [r]. *)
Definition cosine_part (data : list R) (r : nat) : R :=
  sigma (fun j => nth j data 0 * cos (angle (List.length data) j r)) (List.length data).
Definition sine_part (data : list R) (r : nat) : R :=
  sigma (fun j => nth j data 0 * sin (angle (List.length data) j r)) (List.length data).

(** Samples of a sinusoid of [h] cycles per period on top of an offset. *)
Definition sinusoid (n h : nat) (offset amplitude phase : R) : list R :=
  map (fun j => offset + amplitude * cos (angle n j h + phase)) (seq 0 n).

(** The samples seen from a later instant. *)
Definition later (s : nat) (data : list R) : list R := skipn s data ++ firstn s data.

Definition mean (data : list R) : R := sigma (fun j => nth j data 0) (List.length data) / INR (List.length data).
Definition mean_square (data : list R) : R :=
  sigma (fun j => nth j data 0 * nth j data 0) (List.length data) / INR (List.length data).

(** Half the difference between even and odd samples' sums, per sample: what the
    samples hold at half the sampling frequency. *)
Definition alternating (data : list R) : R := cosine_part data (Nat.div2 (List.length data)) / INR (List.length data).

(** * Lemmas *)

Lemma sigma_ext : forall f g n, (forall j, (j < n)%nat -> f j = g j) -> sigma f n = sigma g n.
Proof.
  intros f g n H. induction n as [|n IH]; [reflexivity|]. cbn [sigma].
  rewrite IH by (intros; apply H; lia). rewrite H by lia. reflexivity.
Qed.
Lemma sigma_add : forall f g n, sigma (fun j => f j + g j) n = sigma f n + sigma g n.
Proof. intros f g n. induction n as [|n IH]; cbn [sigma]; [ring|]. rewrite IH. ring. Qed.
Lemma sigma_scale : forall c f n, sigma (fun j => c * f j) n = c * sigma f n.
Proof. intros c f n. induction n as [|n IH]; cbn [sigma]; [ring|]. rewrite IH. ring. Qed.
Lemma sigma_split : forall f n m, sigma f (n + m) = sigma f n + sigma (fun j => f (n + j)%nat) m.
Proof.
  intros f n m. induction m as [|m IH]; cbn [sigma].
  - rewrite Nat.add_0_r. ring.
  - rewrite Nat.add_succ_r. cbn [sigma]. rewrite IH. ring.
Qed.
Lemma sigma_first : forall f n, sigma f (S n) = f 0%nat + sigma (fun j => f (S j)) n.
Proof. intros f n. replace (S n) with (1 + n)%nat by lia. rewrite sigma_split. cbn [sigma Nat.add]. ring. Qed.
Lemma sigma_parity : forall f k,
  sigma f (k + k) = sigma (fun r => f (2 * r)%nat) k + sigma (fun r => f (2 * r + 1)%nat) k.
Proof.
  intros f k. induction k as [|k IH]; [cbn; ring|].
  replace (S k + S k)%nat with (S (S (k + k))) by lia. cbn [sigma]. rewrite IH.
  replace (2 * k)%nat with (k + k)%nat by lia. replace (k + k + 1)%nat with (S (k + k)) by lia. ring.
Qed.
Lemma sigma_rev : forall n f, sigma f n = sigma (fun j => f (n - 1 - j)%nat) n.
Proof.
  induction n as [|n IH]; intros f; [reflexivity|].
  rewrite sigma_first. cbn [sigma]. rewrite (IH (fun j => f (S j))).
  replace (S n - 1 - n)%nat with 0%nat by lia. rewrite Rplus_comm. f_equal.
  apply sigma_ext. intros j J. f_equal. lia.
Qed.
Lemma sigma_nonneg : forall f n, (forall j, (j < n)%nat -> 0 <= f j) -> 0 <= sigma f n.
Proof.
  intros f n H. induction n as [|n IH]; cbn [sigma]; [lra|].
  assert (0 <= sigma f n) by (apply IH; intros; apply H; lia). specialize (H n ltac:(lia)). lra.
Qed.
Lemma sigma_le : forall f g n, (forall j, (j < n)%nat -> f j <= g j) -> sigma f n <= sigma g n.
Proof.
  intros f g n H. induction n as [|n IH]; cbn [sigma]; [lra|].
  assert (sigma f n <= sigma g n) by (apply IH; intros; apply H; lia). specialize (H n ltac:(lia)). lra.
Qed.

(** The square of the absolute value. *)
Definition N2 (z : complex) : R := re z * re z + im z * im z.

Lemma N2_mul : forall x y, N2 (x * y)%C = N2 x * N2 y.
Proof. intros [a b] [c d]. unfold N2. cbn. ring. Qed.
Lemma N2_pow : forall w n, N2 w = 1 -> N2 (w ^ n)%C = 1.
Proof.
  intros w n W. induction n as [|n IH]; [unfold N2; cbn; ring|]. cbn [Cpow]. rewrite N2_mul, W, IH. ring.
Qed.
Lemma N2_parallelogram : forall x y, N2 (x + y)%C + N2 (x - y)%C = 2 * (N2 x + N2 y).
Proof. intros [a b] [c d]. unfold N2. cbn. ring. Qed.
Lemma N2_nonneg : forall z, 0 <= N2 z.
Proof. intros z. unfold N2. nra. Qed.
Lemma N2_cis : forall t, N2 (cis t) = 1.
Proof. intros t. unfold N2, cis. cbn. pose proof (sin2_cos2 t) as H. unfold Rsqr in H. lra. Qed.
Lemma Cabs_N2 : forall z, Cabs z = sqrt (N2 z).
Proof. reflexivity. Qed.

(** Every stage doubles the energy. *)
Lemma energy : forall p w y, N2 w = 1 -> p = 0%nat \/ (w ^ (2 ^ (p - 1)) = - Cone)%C ->
  sigma (fun r => N2 (D (2 ^ p) w y r)) (2 ^ p) = INR (2 ^ p) * sigma (fun j => N2 (y j)) (2 ^ p).
Proof.
  induction p as [|p IH]; intros w y W H.
  - cbn [Nat.pow sigma]. unfold D. cbn [Csum Nat.mul Cpow]. change (INR 1) with 1.
    replace (Czero + y 0%nat * Cone)%C with (y 0%nat) by (apply Ceq; cbn; ring). ring.
  - destruct H as [H|H]; [discriminate|]. replace (S p - 1)%nat with p in H by lia.
    replace (2 ^ S p)%nat with (2 ^ p + 2 ^ p)%nat by (rewrite Nat.pow_succ_r'; lia).
    set (k := (2 ^ p)%nat) in *.
    rewrite sigma_parity.
    rewrite (sigma_ext _ (fun r => N2 (D k (w * w)%C (fun j => (y j + y (j + k)%nat)%C) r)))
      by (intros r _; rewrite D_even by exact H; reflexivity).
    rewrite (sigma_ext (fun r => N2 (D (k + k) w y (2 * r + 1)))
      (fun r => N2 (D k (w * w)%C (fun j => ((y j - y (j + k)%nat) * w ^ j)%C) r)))
      by (intros r _; rewrite D_odd by exact H; reflexivity).
    assert (W2 : N2 (w * w)%C = 1) by (rewrite N2_mul, W; ring).
    assert (H2 : p = 0%nat \/ ((w * w) ^ (2 ^ (p - 1)) = - Cone)%C).
    { destruct p as [|p]; [left; reflexivity|right]. unfold k in H. cbn [Nat.sub] in *.
      rewrite Nat.sub_0_r. rewrite <- Cpow_2, <- Cpow_mul, <- Nat.pow_succ_r'. exact H. }
    unfold k at 1 2 5 6. rewrite !(IH (w * w)%C) by assumption. fold k.
    rewrite <- Rmult_plus_distr_l, <- sigma_add.
    rewrite (sigma_ext _ (fun j => 2 * (N2 (y j) + N2 (y (k + j)%nat)))).
    + rewrite sigma_scale, sigma_add, sigma_split, plus_INR. ring.
    + intros j _. rewrite N2_mul, (N2_pow w j W), Rmult_1_r, N2_parallelogram.
      rewrite (Nat.add_comm j k). reflexivity.
Qed.

(** The transform of a constant. *)
Lemma D_constant : forall p w c d, p = 0%nat \/ (w ^ (2 ^ (p - 1)) = - Cone)%C ->
  D (2 ^ p) w (fun _ => c) d =
  if Nat.eqb (d mod 2 ^ p) 0 then (mkC (INR (2 ^ p)) 0 * c)%C else Czero.
Proof.
  induction p as [|p IH]; intros w c d H.
  - change (2 ^ 0)%nat with 1%nat. rewrite Nat.mod_1_r. cbn [Nat.eqb]. change (INR 1) with 1.
    unfold D. cbn [Csum Nat.mul Cpow]. apply Ceq; cbn; ring.
  - destruct H as [H|H]; [discriminate|]. replace (S p - 1)%nat with p in H by lia.
    replace (2 ^ S p)%nat with (2 ^ p + 2 ^ p)%nat by (rewrite Nat.pow_succ_r'; lia).
    set (k := (2 ^ p)%nat) in *.
    assert (K : k <> 0%nat) by (apply Nat.pow_nonzero; lia).
    assert (H2 : p = 0%nat \/ ((w * w) ^ (2 ^ (p - 1)) = - Cone)%C).
    { destruct p as [|p]; [left; reflexivity|right]. unfold k in H. cbn [Nat.sub] in *.
      rewrite Nat.sub_0_r. rewrite <- Cpow_2, <- Cpow_mul, <- Nat.pow_succ_r'. exact H. }
    destruct (Nat.Even_or_Odd d) as [[r ->]|[r ->]].
    + rewrite D_even by exact H. unfold k at 1. rewrite (IH (w * w)%C) by exact H2. fold k.
      replace (k + k)%nat with (2 * k)%nat by lia. rewrite Nat.mul_mod_distr_l by lia.
      destruct (Nat.eqb_spec (r mod k) 0) as [E|E].
      * rewrite E, Nat.mul_0_r. cbn [Nat.eqb]. rewrite mult_INR. change (INR 2) with (1 + 1). apply Ceq; cbn; ring.
      * destruct (Nat.eqb_spec (2 * (r mod k)) 0); [lia|reflexivity].
    + rewrite D_odd by exact H.
      rewrite (D_ext k _ _ (fun _ => Czero)) by (intros; apply Ceq; cbn; ring).
      rewrite (IH (w * w)%C) by exact H2.
      destruct (Nat.eqb_spec ((2 * r + 1) mod (k + k)) 0) as [E|E].
      * exfalso. apply Nat.mod_divide in E; [|lia]. destruct E as [q E]. lia.
      * destruct (Nat.eqb (r mod k) 0); [|reflexivity]. apply Ceq; cbn; ring.
Qed.

Section Transform.
Variable m : nat.
Hypothesis m1 : (1 <= m)%nat.
Let n := (2 ^ m)%nat.
Let w := cis (2 * PI / INR n).

Lemma n_pos : 0 < INR n.
Proof. apply lt_0_INR. unfold n. pose proof (Nat.pow_nonzero 2 m). lia. Qed.
Lemma n_half : n = (2 * 2 ^ (m - 1))%nat.
Proof. unfold n. rewrite <- Nat.pow_succ_r'. f_equal. lia. Qed.
Lemma w_half : m = 0%nat \/ (w ^ (2 ^ (m - 1)) = - Cone)%C.
Proof.
  right. unfold w. rewrite cis_pow, <- cis_PI. f_equal. pose proof n_pos as P. rewrite n_half in P |- *.
  rewrite mult_INR in *. change (INR 2) with 2 in *. field. apply INR_pow2.
Qed.
Lemma w_pow : forall j r, (w ^ (j * r) = cis (angle n j r))%C.
Proof.
  intros j r. unfold w. rewrite cis_pow. f_equal. unfold angle. rewrite mult_INR. pose proof n_pos. field. lra.
Qed.
Lemma w_n : (w ^ n = Cone)%C.
Proof.
  unfold w. rewrite cis_pow. replace (INR n * (2 * PI / INR n)) with (2 * PI) by (pose proof n_pos; field; lra).
  unfold cis. rewrite cos_2PI, sin_2PI. apply Ceq; cbn; ring.
Qed.

(** Real and imaginary parts of the transform of real samples. *)
Lemma D_parts : forall (x : nat -> R) r,
  D n w (fun j => mkC (x j) 0) r =
  mkC (sigma (fun j => x j * cos (angle n j r)) n) (- sigma (fun j => x j * sin (angle n j r)) n).
Proof.
  intros x r. unfold D. rewrite (Csum_ext _ (fun j => mkC (x j * cos (angle n j r)) (- (x j * sin (angle n j r))))).
  - assert (G : forall (f g : nat -> R) k, Csum (fun j => mkC (f j) (- g j)) k = mkC (sigma f k) (- sigma g k)).
    { intros f g k. induction k as [|k IH]; cbn [Csum sigma]; [apply Ceq; cbn; ring|].
      rewrite IH. apply Ceq; cbn; ring. }
    apply G.
  - intros j _. rewrite w_pow. apply Ceq; cbn; ring.
Qed.

(** Harmonics above half the sampling frequency mirror those below. *)
Lemma mirror : forall (x : nat -> R) r, (r <= n)%nat ->
  N2 (D n w (fun j => mkC (x j) 0) (n - r)) = N2 (D n w (fun j => mkC (x j) 0) r).
Proof.
  intros x r R. rewrite !D_parts. unfold N2. cbn [re im].
  assert (C : forall j, cos (angle n j (n - r)) = cos (angle n j r) /\ sin (angle n j (n - r)) = - sin (angle n j r)).
  { intros j.
    assert (E : angle n j (n - r) = - angle n j r + 2 * INR j * PI).
    { unfold angle. rewrite minus_INR by exact R. pose proof n_pos. field. lra. }
    rewrite E, cos_period, sin_period, cos_neg, sin_neg. split; reflexivity. }
  rewrite (sigma_ext (fun j => x j * cos (angle n j (n - r))) (fun j => x j * cos (angle n j r)))
    by (intros j _; rewrite (proj1 (C j)); reflexivity).
  rewrite (sigma_ext (fun j => x j * sin (angle n j (n - r))) (fun j => (-1) * (x j * sin (angle n j r))))
    by (intros j _; rewrite (proj2 (C j)); ring).
  rewrite sigma_scale. ring.
Qed.

Lemma power_split : forall (f : nat -> R) k, n = (2 * k)%nat ->
  (forall r, (r <= n)%nat -> f (n - r)%nat = f r) ->
  sigma f n = f 0%nat + f k + 2 * sigma (fun i => f (S i)) (k - 1).
Proof.
  intros f k N F. assert (K : (1 <= k)%nat).
  { pose proof (Nat.pow_nonzero 2 m). unfold n in N. lia. }
  rewrite N. replace (2 * k)%nat with (S (k - 1) + S (k - 1))%nat by lia.
  rewrite sigma_split, sigma_first.
  rewrite (sigma_ext (fun j => f (S (k - 1) + j)%nat) (fun j => f (k + j)%nat))
    by (intros j _; f_equal; lia).
  rewrite (sigma_first (fun j => f (k + j)%nat)), Nat.add_0_r.
  rewrite (sigma_rev (k - 1) (fun j => f (k + S j)%nat)).
  rewrite (sigma_ext (fun j => f (k + S (k - 1 - 1 - j))%nat) (fun j => f (S j))).
  - ring.
  - intros j J. rewrite <- (F (S j)) by lia. f_equal. lia.
Qed.
End Transform.

(** * C65 The transform is the discrete Fourier transform *)

(** For every accepted length, the component of harmonic [r] is the correlation of
    the samples with its cosine and sine. *)
Theorem C65_transform : forall m data, (1 <= m)%nat -> (m <= 31)%nat -> List.length data = (2 ^ m)%nat ->
  exists X, fft (List.length data) (fun j => mkC (nth j data 0) 0) = Ok X /\
    forall r, (r < List.length data)%nat -> re (X r) = cosine_part data r /\ im (X r) = - sine_part data r.
Proof.
  intros m data M1 M2 L. rewrite L.
  destruct (fft_spec m (fun j => mkC (nth j data 0) 0) M1 M2) as [X [E H]].
  exists X. split; [exact E|]. intros r R. rewrite (H r R), (D_parts m M1).
  unfold cosine_part, sine_part. rewrite L. split; reflexivity.
Qed.

(** The energy of the samples is that of the transform, shared by its length. *)
Theorem C65_energy : forall m data X, (1 <= m)%nat -> (m <= 31)%nat -> List.length data = (2 ^ m)%nat ->
  fft (List.length data) (fun j => mkC (nth j data 0) 0) = Ok X ->
  sigma (fun r => re (X r) * re (X r) + im (X r) * im (X r)) (List.length data) =
  INR (List.length data) * sigma (fun j => nth j data 0 * nth j data 0) (List.length data).
Proof.
  intros m data X M1 M2 L E. rewrite L in *.
  destruct (fft_spec m (fun j => mkC (nth j data 0) 0) M1 M2) as [Y [E' H]].
  rewrite E in E'. injection E' as <-.
  rewrite (sigma_ext _ (fun r => N2 (D (2 ^ m) (cis (2 * PI / INR (2 ^ m))) (fun j => mkC (nth j data 0) 0) r)))
    by (intros r R; rewrite <- (H r R); reflexivity).
  rewrite (energy m _ _ (N2_cis _) (w_half m M1)). f_equal. apply sigma_ext. intros j _. unfold N2. cbn. ring.
Qed.

(** A length that is not a power of two is refused before any transform. *)
Theorem C65_other_lengths_refused : forall data timed f t thr samples,
  data <> [] -> (forall k, List.length data <> 2 ^ k)%nat ->
  calculate_harmonics_data data timed f t thr samples = Throw "Data vector size is not a power of 2".
Proof.
  intros data timed f t thr samples NE NP. unfold calculate_harmonics_data.
  destruct (Nat.ltb_spec 0 (List.length data)) as [P|P]; [|destruct data; [congruence|cbn in P; lia]].
  destruct (power_of_2 (List.length data)) eqn:E; [exfalso|reflexivity].
  unfold power_of_2 in E. apply N.eqb_eq in E.
  set (a := List.length data) in *. set (l := Nat.log2 a).
  destruct (Nat.log2_spec a P) as [B1 B2]. fold l in B1, B2. rewrite Nat.pow_succ_r' in B2.
  assert (GT : (2 ^ l < a)%nat) by (specialize (NP l); lia).
  assert (BIT : N.testbit (N.land (N.of_nat a) (N.of_nat a - 1)) (N.of_nat l) = true).
  { rewrite N.land_spec. replace (N.of_nat a - 1)%N with (N.of_nat (a - 1)) by lia. rewrite !testbit_of_nat.
    assert (T : forall u, (u < 2 ^ l)%nat -> Nat.testbit (u + 2 ^ l) l = true).
    { intros u U. rewrite testbit_add_pow by exact U. rewrite Nat.eqb_refl. reflexivity. }
    replace a with ((a - 2 ^ l) + 2 ^ l)%nat at 1 by lia. rewrite T by lia.
    replace (a - 1)%nat with ((a - 1 - 2 ^ l) + 2 ^ l)%nat by lia. rewrite T by lia. reflexivity. }
  rewrite E, N.bits_0 in BIT. discriminate.
Qed.

(** * C66 The harmonics of a waveform *)

Lemma power_of_2_pow : forall m, power_of_2 (2 ^ m) = true.
Proof.
  intros m. unfold power_of_2. apply N.eqb_eq. apply N.bits_inj. intros i. rewrite N.land_spec, N.bits_0.
  replace (N.of_nat (2 ^ m) - 1)%N with (N.of_nat (2 ^ m - 1)) by lia.
  rewrite <- (N2Nat.id i), !testbit_of_nat. set (j := N.to_nat i).
  pose proof (Nat.pow_nonzero 2 m) as P.
  destruct (Nat.eq_dec j m) as [->|NJ].
  - rewrite (testbit_high m (2 ^ m - 1) m) by lia. apply andb_false_r.
  - rewrite Nat.pow2_bits_false by lia. reflexivity.
Qed.

Lemma half_pow : forall m, (1 <= m)%nat -> Nat.div2 (2 ^ m) = (2 ^ (m - 1))%nat.
Proof. intros m M. rewrite (n_half m M), Nat.div2_double. reflexivity. Qed.

Lemma untrimmed : forall m data timed f thr samples, (1 <= m)%nat -> (m <= 31)%nat -> List.length data = (2 ^ m)%nat ->
  exists X, calculate_harmonics_data data timed f false thr samples =
      Ok (read_harmonics (List.length data) X f) /\
    (forall r, (r < List.length data)%nat -> re (X r) = cosine_part data r /\ im (X r) = - sine_part data r) /\
    (forall r, (r < List.length data)%nat -> X r = D (2 ^ m) (cis (2 * PI / INR (2 ^ m))) (fun j => mkC (nth j data 0) 0) r).
Proof.
  intros m data timed f thr samples M1 M2 L.
  destruct (C65_transform m data M1 M2 L) as [X [E H]]. exists X. split.
  - unfold calculate_harmonics_data. rewrite L, power_of_2_pow, andb_false_r. rewrite <- L, E. cbn [bind].
    rewrite andb_false_r. reflexivity.
  - split; [exact H|]. rewrite L in *.
    destruct (fft_spec m (fun j => mkC (nth j data 0) 0) M1 M2) as [Y [E' H']].
    rewrite E in E'. injection E' as <-. exact H'.
Qed.

Definition nth_amplitude (h : harmonics) (i : nat) : R := nth i (h_amplitudes h) 0.

Lemma sqrt_scale : forall c a b, 0 <= c -> sqrt ((c * a) * (c * a) + (c * b) * (c * b)) = c * sqrt (a * a + b * b).
Proof.
  intros c a b C. replace ((c * a) * (c * a) + (c * b) * (c * b)) with ((c * c) * (a * a + b * b)) by ring.
  rewrite sqrt_mult by nra. rewrite sqrt_square by exact C. reflexivity.
Qed.

Lemma read_first : forall n X f, (0 < n)%nat ->
  nth_amplitude (read_harmonics n X f) 0 = / INR n * sqrt (re (X 0%nat) * re (X 0%nat) + im (X 0%nat) * im (X 0%nat)).
Proof.
  intros n X f N. assert (P : 0 < INR n) by (apply lt_0_INR; lia).
  unfold nth_amplitude, read_harmonics, Cabs. cbn [h_amplitudes nth re im].
  rewrite <- sqrt_scale by (left; apply Rinv_0_lt_compat; exact P).
  f_equal. field. lra.
Qed.

Lemma read_other : forall n X f i, (0 < n)%nat -> (0 < i)%nat -> (i < Nat.div2 n)%nat ->
  nth_amplitude (read_harmonics n X f) i = 2 / INR n * sqrt (re (X i) * re (X i) + im (X i) * im (X i)).
Proof.
  intros n X f i N I1 I2. assert (P : 0 < INR n) by (apply lt_0_INR; lia).
  unfold nth_amplitude, read_harmonics. cbn [h_amplitudes]. destruct i as [|i]; [lia|]. cbn [nth].
  set (g := fun i => Cabs (mkC (2 * re (X i) / INR n) (2 * im (X i) / INR n))).
  rewrite (nth_indep _ 0 (g 0%nat)) by (rewrite map_length, seq_length; lia).
  rewrite map_nth, seq_nth by lia. unfold g, Cabs. cbn [re im Nat.add].
  rewrite <- sqrt_scale.
  - f_equal. field. lra.
  - apply Rmult_le_pos; [lra|left; apply Rinv_0_lt_compat; exact P].
Qed.

(** One entry per harmonic below half the sampling frequency; the first amplitude is
    the absolute mean, the others are twice the correlation with the harmonic. *)
Theorem C66_harmonics : forall m data timed f thr samples h, (1 <= m)%nat -> (m <= 31)%nat ->
  List.length data = (2 ^ m)%nat ->
  calculate_harmonics_data data timed f false thr samples = Ok h ->
  List.length (h_amplitudes h) = (2 ^ (m - 1))%nat /\ List.length (h_frequencies h) = (2 ^ (m - 1))%nat /\
  (forall i, (i < 2 ^ (m - 1))%nat -> nth i (h_frequencies h) 0 = f * INR i) /\
  nth 0 (h_amplitudes h) 0 = Rabs (mean data) /\
  forall i, (0 < i)%nat -> (i < 2 ^ (m - 1))%nat ->
    nth i (h_amplitudes h) 0 =
    2 / INR (List.length data) * sqrt (Rsqr (cosine_part data i) + Rsqr (sine_part data i)).
Proof.
  intros m data timed f thr samples h M1 M2 L H.
  destruct (untrimmed m data timed f thr samples M1 M2 L) as [X [E [P _]]].
  rewrite H in E. injection E as ->.
  assert (NN : (0 < List.length data)%nat) by (rewrite L; pose proof (Nat.pow_nonzero 2 m); lia).
  assert (HH : Nat.div2 (List.length data) = (2 ^ (m - 1))%nat) by (rewrite L; apply half_pow; exact M1).
  assert (KP : (1 <= 2 ^ (m - 1))%nat) by (pose proof (Nat.pow_nonzero 2 (m - 1)); lia).
  assert (INRP : 0 < INR (List.length data)) by (apply lt_0_INR; exact NN).
  split; [unfold read_harmonics; cbn [h_amplitudes List.length]; rewrite map_length, seq_length, HH; lia|].
  split; [unfold read_harmonics; cbn [h_frequencies]; rewrite map_length, seq_length; exact HH|].
  split.
  { intros i I. unfold read_harmonics. cbn [h_frequencies].
    rewrite (nth_indep _ 0 ((fun i => f * INR i) 0%nat)) by (rewrite map_length, seq_length; lia).
    rewrite (map_nth (fun i => f * INR i)), seq_nth by lia. reflexivity. }
  split.
  - fold (nth_amplitude (read_harmonics (List.length data) X f) 0). rewrite read_first by exact NN.
    destruct (P 0%nat NN) as [P1 P2]. rewrite P1, P2.
    assert (C0 : cosine_part data 0 = sigma (fun j => nth j data 0) (List.length data)).
    { unfold cosine_part. apply sigma_ext. intros j _. unfold angle. change (INR 0) with 0.
      replace (2 * PI * INR j * 0 / INR (List.length data)) with 0 by (field; lra). rewrite cos_0. ring. }
    assert (S0 : sine_part data 0 = 0).
    { unfold sine_part. rewrite (sigma_ext _ (fun _ => 0 * 0)).
      - rewrite sigma_scale. ring.
      - intros j _. unfold angle. change (INR 0) with 0.
        replace (2 * PI * INR j * 0 / INR (List.length data)) with 0 by (field; lra). rewrite sin_0. ring. }
    rewrite C0, S0. unfold mean. set (s := sigma _ _).
    replace (s * s + - 0 * - 0) with (Rsqr s) by (unfold Rsqr; ring). rewrite sqrt_Rsqr_abs.
    unfold Rdiv. rewrite Rabs_mult, (Rabs_pos_eq (/ INR (List.length data))).
    + ring.
    + left. apply Rinv_0_lt_compat. exact INRP.
  - intros i I1 I2. fold (nth_amplitude (read_harmonics (List.length data) X f) i).
    rewrite read_other by (rewrite ?HH; lia). destruct (P i) as [P1 P2].
    { rewrite L, (n_half m M1). lia. }
    rewrite P1, P2. unfold Rsqr. f_equal. f_equal. ring.
Qed.

(** The powers of the harmonics add up to the mean square of the samples, but for
    what they hold at half the sampling frequency, which is not reported. *)
Theorem C66_power : forall m data timed f thr samples h, (1 <= m)%nat -> (m <= 31)%nat ->
  List.length data = (2 ^ m)%nat ->
  calculate_harmonics_data data timed f false thr samples = Ok h ->
  mean_square data = Rsqr (nth 0 (h_amplitudes h) 0)
    + sigma (fun i => Rsqr (nth (S i) (h_amplitudes h) 0) / 2) (2 ^ (m - 1) - 1)
    + Rsqr (alternating data).
Proof.
  intros m data timed f thr samples h M1 M2 L H.
  destruct (untrimmed m data timed f thr samples M1 M2 L) as [X [E [P PD]]].
  rewrite H in E. injection E as ->.
  assert (NN : (0 < List.length data)%nat) by (rewrite L; pose proof (Nat.pow_nonzero 2 m); lia).
  assert (HH : Nat.div2 (List.length data) = (2 ^ (m - 1))%nat) by (rewrite L; apply half_pow; exact M1).
  assert (KP : (1 <= 2 ^ (m - 1))%nat) by (pose proof (Nat.pow_nonzero 2 (m - 1)); lia).
  assert (NP : 0 < INR (List.length data)) by (apply lt_0_INR; exact NN).
  set (w := cis (2 * PI / INR (2 ^ m))) in *. set (x := fun j => mkC (nth j data 0) 0) in *.
  set (F := fun r => N2 (D (2 ^ m) w x r)).
  pose proof (energy m w x (N2_cis _) (w_half m M1)) as EN. fold F in EN.
  pose proof (power_split m M1 F (2 ^ (m - 1)) (n_half m M1)) as PS.
  rewrite PS in EN by (intros r R; apply (mirror m M1); exact R).
  assert (MS : sigma (fun j => nth j data 0 * nth j data 0) (List.length data) = sigma (fun j => N2 (x j)) (2 ^ m)).
  { rewrite L. apply sigma_ext. intros j _. unfold x, N2. cbn. ring. }
  assert (A0 : Rsqr (nth 0 (h_amplitudes (read_harmonics (List.length data) X f)) 0)
               = F 0%nat / (INR (List.length data) * INR (List.length data))).
  { fold (nth_amplitude (read_harmonics (List.length data) X f) 0). rewrite read_first by exact NN.
    unfold Rsqr. replace (/ INR (List.length data) * sqrt (re (X 0%nat) * re (X 0%nat) + im (X 0%nat) * im (X 0%nat)) *
      (/ INR (List.length data) * sqrt (re (X 0%nat) * re (X 0%nat) + im (X 0%nat) * im (X 0%nat))))
      with (sqrt (re (X 0%nat) * re (X 0%nat) + im (X 0%nat) * im (X 0%nat)) *
            sqrt (re (X 0%nat) * re (X 0%nat) + im (X 0%nat) * im (X 0%nat)) /
            (INR (List.length data) * INR (List.length data))) by (field; lra).
    rewrite sqrt_sqrt by nra. fold (N2 (X 0%nat)). rewrite (PD 0%nat NN). reflexivity. }
  assert (AI : forall i, (i < 2 ^ (m - 1) - 1)%nat ->
      Rsqr (nth (S i) (h_amplitudes (read_harmonics (List.length data) X f)) 0) / 2 =
      2 / (INR (List.length data) * INR (List.length data)) * F (S i)).
  { intros i I. fold (nth_amplitude (read_harmonics (List.length data) X f) (S i)).
    rewrite read_other by (rewrite ?HH; lia). unfold Rsqr. set (s := sqrt _).
    assert (SS : s * s = F (S i)).
    { unfold s. rewrite sqrt_sqrt by nra. fold (N2 (X (S i))). rewrite PD; [reflexivity|].
      rewrite L, (n_half m M1). lia. }
    rewrite <- SS. field. lra. }
  rewrite A0, (sigma_ext _ _ _ AI), sigma_scale.
  assert (AL : Rsqr (alternating data) = F (2 ^ (m - 1))%nat / (INR (List.length data) * INR (List.length data))).
  { unfold alternating. rewrite HH.
    assert (KL : (2 ^ (m - 1) < List.length data)%nat) by (rewrite L, (n_half m M1); lia).
    unfold F. rewrite <- (PD _ KL). unfold N2. destruct (P _ KL) as [P1 P2]. rewrite P1, P2.
    assert (S0 : sine_part data (2 ^ (m - 1)) = 0).
    { unfold sine_part. rewrite (sigma_ext _ (fun _ => 0 * 0)); [rewrite sigma_scale; ring|].
      intros j _. replace (angle (List.length data) j (2 ^ (m - 1))) with (INR j * PI).
      - replace (sin (INR j * PI)) with 0; [ring|]. symmetry. apply sin_eq_0_1. exists (Z.of_nat j).
        rewrite <- INR_IZR_INZ. reflexivity.
      - unfold angle. rewrite L, (n_half m M1), mult_INR. change (INR 2) with 2. field. apply INR_pow2. }
    rewrite S0. unfold Rsqr. field. lra. }
  rewrite AL. unfold mean_square. rewrite MS.
  assert (EQ : sigma (fun j => N2 (x j)) (2 ^ m) =
    (F 0%nat + F (2 ^ (m - 1))%nat + 2 * sigma (fun i => F (S i)) (2 ^ (m - 1) - 1)) / INR (2 ^ m)).
  { rewrite EN. field. apply INR_pow2. }
  rewrite EQ, <- L. field. lra.
Qed.

(** Hence the harmonics never hold more power than the samples. *)
Theorem C66_no_power_invented : forall m data timed f thr samples h, (1 <= m)%nat -> (m <= 31)%nat ->
  List.length data = (2 ^ m)%nat ->
  calculate_harmonics_data data timed f false thr samples = Ok h ->
  Rsqr (nth 0 (h_amplitudes h) 0) + sigma (fun i => Rsqr (nth (S i) (h_amplitudes h) 0) / 2) (2 ^ (m - 1) - 1)
  <= mean_square data.
Proof.
  intros m data timed f thr samples h M1 M2 L H.
  rewrite (C66_power m data timed f thr samples h M1 M2 L H). pose proof (Rle_0_sqr (alternating data)). lra.
Qed.

(** * Sinusoids, shifts and scale *)

Lemma D_add : forall n w x y r, D n w (fun j => (x j + y j)%C) r = (D n w x r + D n w y r)%C.
Proof.
  intros n w x y r. unfold D. rewrite <- Csum_add. apply Csum_ext. intros j _. apply Ceq; cbn; ring.
Qed.
Lemma D_mul : forall n w c x r, D n w (fun j => (c * x j)%C) r = (c * D n w x r)%C.
Proof.
  intros n w c x r. unfold D. rewrite <- Csum_scale. apply Csum_ext. intros j _. apply Ceq; cbn; ring.
Qed.

(** A rotating component turns the frequency by its own. *)
Lemma D_turn : forall n w s r, D n w (fun j => (w ^ (j * s))%C) r = D n w (fun _ => Cone) (r + s).
Proof.
  intros n w s r. unfold D. apply Csum_ext. intros j _.
  rewrite Nat.mul_add_distr_l, Cpow_add. apply Ceq; cbn; ring.
Qed.

Lemma sinusoid_length : forall n h o a p, List.length (sinusoid n h o a p) = n.
Proof. intros. unfold sinusoid. rewrite map_length, seq_length. reflexivity. Qed.

Lemma sinusoid_nth : forall n h o a p j, (j < n)%nat ->
  nth j (sinusoid n h o a p) 0 = o + a * cos (angle n j h + p).
Proof.
  intros n h o a p j J. unfold sinusoid. set (g := fun j => o + a * cos (angle n j h + p)).
  rewrite (nth_indep _ 0 (g 0%nat)) by (rewrite map_length, seq_length; lia).
  rewrite map_nth, seq_nth by exact J. reflexivity.
Qed.

Lemma sinusoid_parts : forall m h o a p j, (1 <= m)%nat -> (h <= 2 ^ m)%nat ->
  mkC (o + a * cos (angle (2 ^ m) j h + p)) 0 =
  (mkC o 0 + mkC (a / 2 * cos p) (a / 2 * sin p) * cis (2 * PI / INR (2 ^ m)) ^ (j * (2 ^ m - h))
     + mkC (a / 2 * cos p) (- (a / 2 * sin p)) * cis (2 * PI / INR (2 ^ m)) ^ (j * h))%C.
Proof.
  intros m h o a p j M H. rewrite !(w_pow m M).
  assert (E : angle (2 ^ m) j (2 ^ m - h) = - angle (2 ^ m) j h + 2 * INR j * PI).
  { unfold angle. rewrite minus_INR by exact H. field. apply INR_pow2. }
  rewrite E. unfold cis. rewrite cos_period, sin_period, cos_neg, sin_neg, cos_plus.
  apply Ceq; cbn; field.
Qed.

(** A sinusoid of [h] cycles is found in harmonic [h] with its amplitude whatever its
    phase, its offset in the direct component, and nothing anywhere else. *)
Theorem C66_sinusoid : forall m h o a p timed f thr samples H, (1 <= m)%nat -> (m <= 31)%nat ->
  (0 < h)%nat -> (h < 2 ^ (m - 1))%nat -> 0 <= a ->
  calculate_harmonics_data (sinusoid (2 ^ m) h o a p) timed f false thr samples = Ok H ->
  nth 0 (h_amplitudes H) 0 = Rabs o /\ nth h (h_amplitudes H) 0 = a /\
  forall i, (0 < i)%nat -> (i < 2 ^ (m - 1))%nat -> i <> h -> nth i (h_amplitudes H) 0 = 0.
Proof.
  intros m h o a p timed f thr samples H M1 M2 H1 H2 A E.
  set (data := sinusoid (2 ^ m) h o a p) in *.
  assert (L : List.length data = (2 ^ m)%nat) by apply sinusoid_length.
  destruct (untrimmed m data timed f thr samples M1 M2 L) as [X [E' [_ PD]]].
  rewrite E in E'. injection E' as ->.
  assert (NN : (0 < List.length data)%nat) by (rewrite L; pose proof (Nat.pow_nonzero 2 m); lia).
  assert (HH : Nat.div2 (List.length data) = (2 ^ (m - 1))%nat) by (rewrite L; apply half_pow; exact M1).
  assert (NP : 0 < INR (List.length data)) by (apply lt_0_INR; exact NN).
  pose proof (n_half m M1) as NH.
  set (w := cis (2 * PI / INR (2 ^ m))) in *.
  assert (G : forall r, (r < 2 ^ (m - 1))%nat -> X r =
    if Nat.eqb r 0 then mkC (INR (2 ^ m) * o) 0
    else if Nat.eqb r h then mkC (INR (2 ^ m) * (a / 2 * cos p)) (INR (2 ^ m) * (a / 2 * sin p))
    else Czero).
  { intros r R. rewrite PD by lia.
    rewrite (D_ext _ w _ (fun j => ((mkC o 0 * Cone + mkC (a / 2 * cos p) (a / 2 * sin p) * w ^ (j * (2 ^ m - h)))
      + mkC (a / 2 * cos p) (- (a / 2 * sin p)) * w ^ (j * h))%C)).
    2:{ intros j J. unfold data. rewrite sinusoid_nth by exact J.
        rewrite (sinusoid_parts m h o a p j M1) by lia. fold w. apply Ceq; cbn; ring. }
    rewrite D_add, D_add, !D_mul, !D_turn. rewrite !(D_constant m w Cone) by (apply w_half; exact M1).
    assert (MZ : (r mod 2 ^ m = r)%nat) by (apply Nat.mod_small; lia).
    assert (MH : ((r + h) mod 2 ^ m = r + h)%nat) by (apply Nat.mod_small; lia).
    rewrite MZ, MH.
    assert (MN : Nat.eqb ((r + (2 ^ m - h)) mod 2 ^ m) 0 = Nat.eqb r h).
    { destruct (Nat.eqb_spec r h) as [->|N].
      - replace (h + (2 ^ m - h))%nat with (2 ^ m)%nat by lia. rewrite Nat.mod_same by lia. reflexivity.
      - apply Nat.eqb_neq. intros Z. apply Nat.mod_divide in Z; [|lia]. destruct Z as [q Z].
        assert (q = 1%nat) by nia. subst q. lia. }
    rewrite MN. destruct (Nat.eqb_spec (r + h) 0) as [B|_]; [lia|].
    destruct (Nat.eqb_spec r 0) as [->|N0].
    - destruct (Nat.eqb_spec 0 h) as [B|_]; [lia|]. apply Ceq; cbn; ring.
    - destruct (Nat.eqb_spec r h) as [->|N]; apply Ceq; cbn; ring. }
  split; [|split].
  - fold (nth_amplitude (read_harmonics (List.length data) X f) 0). rewrite read_first by exact NN.
    rewrite (G 0%nat) by lia. cbn [Nat.eqb re im]. rewrite <- L.
    replace (INR (List.length data) * o * (INR (List.length data) * o) + 0 * 0)
      with (Rsqr (INR (List.length data) * o)) by (unfold Rsqr; ring).
    rewrite sqrt_Rsqr_abs, Rabs_mult, (Rabs_pos_eq (INR _)) by lra. field. lra.
  - fold (nth_amplitude (read_harmonics (List.length data) X f) h).
    rewrite read_other by (rewrite ?HH; lia). rewrite (G h) by lia.
    destruct (Nat.eqb_spec h 0) as [B|_]; [lia|]. rewrite Nat.eqb_refl. cbn [re im]. rewrite <- L.
    replace (INR (List.length data) * (a / 2 * cos p) * (INR (List.length data) * (a / 2 * cos p)) +
             INR (List.length data) * (a / 2 * sin p) * (INR (List.length data) * (a / 2 * sin p)))
      with (Rsqr (INR (List.length data) * a / 2) * (Rsqr (sin p) + Rsqr (cos p))) by (unfold Rsqr; field).
    rewrite sin2_cos2, Rmult_1_r, sqrt_Rsqr by nra. field. lra.
  - intros i I1 I2 NI. fold (nth_amplitude (read_harmonics (List.length data) X f) i).
    rewrite read_other by (rewrite ?HH; lia). rewrite (G i) by lia.
    destruct (Nat.eqb_spec i 0) as [B|_]; [lia|]. destruct (Nat.eqb_spec i h) as [B|_]; [contradiction|].
    cbn [re im Czero]. replace (0 * 0 + 0 * 0) with 0 by ring. rewrite sqrt_0. ring.
Qed.

(** Samples scaled by [k] have amplitudes scaled by its absolute value. *)
Theorem C66_scale : forall m data k timed f thr samples h h', (1 <= m)%nat -> (m <= 31)%nat ->
  List.length data = (2 ^ m)%nat ->
  calculate_harmonics_data data timed f false thr samples = Ok h ->
  calculate_harmonics_data (map (Rmult k) data) timed f false thr samples = Ok h' ->
  h_frequencies h' = h_frequencies h /\
  forall i, (i < 2 ^ (m - 1))%nat -> nth i (h_amplitudes h') 0 = Rabs k * nth i (h_amplitudes h) 0.
Proof.
  intros m data k timed f thr samples h h' M1 M2 L H H'.
  assert (L' : List.length (map (Rmult k) data) = (2 ^ m)%nat) by (rewrite map_length; exact L).
  destruct (untrimmed m data timed f thr samples M1 M2 L) as [X [E [_ PD]]].
  destruct (untrimmed m _ timed f thr samples M1 M2 L') as [X' [E' [_ PD']]].
  rewrite H in E. injection E as ->. rewrite H' in E'. injection E' as ->.
  rewrite map_length in *.
  assert (NN : (0 < List.length data)%nat) by (rewrite L; pose proof (Nat.pow_nonzero 2 m); lia).
  assert (HH : Nat.div2 (List.length data) = (2 ^ (m - 1))%nat) by (rewrite L; apply half_pow; exact M1).
  split; [reflexivity|].
  assert (XE : forall r, (r < List.length data)%nat -> X' r = (mkC k 0 * X r)%C).
  { intros r R. rewrite PD, PD' by exact R. rewrite <- D_mul. apply D_ext. intros j J.
    rewrite (nth_indep _ 0 (k * 0)) by (rewrite map_length; lia). rewrite (map_nth (Rmult k)).
    apply Ceq; cbn; ring. }
  assert (SQ : forall r, (r < List.length data)%nat ->
     sqrt (re (X' r) * re (X' r) + im (X' r) * im (X' r)) = Rabs k * sqrt (re (X r) * re (X r) + im (X r) * im (X r))).
  { intros r R. rewrite XE by exact R. cbn [re im Cmul].
    replace ((k * re (X r) - 0 * im (X r)) * (k * re (X r) - 0 * im (X r)) +
             (k * im (X r) + 0 * re (X r)) * (k * im (X r) + 0 * re (X r)))
      with (Rsqr k * (re (X r) * re (X r) + im (X r) * im (X r))) by (unfold Rsqr; ring).
    rewrite sqrt_mult by (try apply Rle_0_sqr; nra). rewrite sqrt_Rsqr_abs. reflexivity. }
  pose proof (n_half m M1) as NH.
  intros i I. destruct i as [|i].
  - fold (nth_amplitude (read_harmonics (List.length data) X' f) 0).
    fold (nth_amplitude (read_harmonics (List.length data) X f) 0).
    rewrite !read_first by exact NN. rewrite SQ by exact NN. ring.
  - fold (nth_amplitude (read_harmonics (List.length data) X' f) (S i)).
    fold (nth_amplitude (read_harmonics (List.length data) X f) (S i)).
    rewrite !read_other by (rewrite ?HH; lia). rewrite SQ by (rewrite L; lia). ring.
Qed.

Lemma later_length : forall s data, List.length (later s data) = List.length data.
Proof.
  intros s data. unfold later. rewrite app_length, Nat.add_comm, <- app_length, firstn_skipn. reflexivity.
Qed.

Lemma later_nth : forall s data j, (s <= List.length data)%nat -> (j < List.length data)%nat ->
  nth j (later s data) 0 =
  if Nat.ltb (j + s) (List.length data) then nth (j + s) data 0 else nth (j + s - List.length data) data 0.
Proof.
  intros s data j S J. unfold later.
  assert (SL : List.length (skipn s data) = (List.length data - s)%nat) by apply skipn_length.
  destruct (Nat.ltb_spec (j + s) (List.length data)) as [B|B].
  - rewrite app_nth1 by lia. rewrite <- (firstn_skipn s data) at 2.
    rewrite app_nth2; rewrite firstn_length_le by exact S; [|lia]. f_equal. lia.
  - rewrite app_nth2 by lia. rewrite SL.
    replace (j - (List.length data - s))%nat with (j + s - List.length data)%nat by lia.
    generalize (j + s - List.length data)%nat (ltac:(lia) : (j + s - List.length data < s)%nat). clear.
    intros i I. rewrite <- (firstn_skipn s data) at 2. destruct (Nat.lt_ge_cases i (List.length (firstn s data))) as [B|B].
    + rewrite app_nth1 by exact B. reflexivity.
    + rewrite firstn_length in B. rewrite firstn_skipn. rewrite firstn_all2 by lia. reflexivity.
Qed.

(** The amplitudes do not depend on the instant the period is counted from. *)
Theorem C66_time_shift : forall m data s timed f thr samples h h', (1 <= m)%nat -> (m <= 31)%nat ->
  List.length data = (2 ^ m)%nat -> (s <= List.length data)%nat ->
  calculate_harmonics_data data timed f false thr samples = Ok h ->
  calculate_harmonics_data (later s data) timed f false thr samples = Ok h' ->
  h_frequencies h' = h_frequencies h /\
  forall i, (i < 2 ^ (m - 1))%nat -> nth i (h_amplitudes h') 0 = nth i (h_amplitudes h) 0.
Proof.
  intros m data s timed f thr samples h h' M1 M2 L S H H'.
  assert (L' : List.length (later s data) = (2 ^ m)%nat) by (rewrite later_length; exact L).
  destruct (untrimmed m data timed f thr samples M1 M2 L) as [X [E [_ PD]]].
  destruct (untrimmed m _ timed f thr samples M1 M2 L') as [X' [E' [_ PD']]].
  rewrite H in E. injection E as ->. rewrite H' in E'. injection E' as ->.
  rewrite later_length in *.
  assert (NN : (0 < List.length data)%nat) by (rewrite L; pose proof (Nat.pow_nonzero 2 m); lia).
  assert (HH : Nat.div2 (List.length data) = (2 ^ (m - 1))%nat) by (rewrite L; apply half_pow; exact M1).
  split; [reflexivity|].
  set (w := cis (2 * PI / INR (2 ^ m))) in *.
  assert (WN : (w ^ (2 ^ m) = Cone)%C) by (apply w_n; exact M1).
  assert (XE : forall r, (r < List.length data)%nat -> (w ^ (s * r) * X' r)%C = X r).
  { intros r R. rewrite PD, PD' by exact R. rewrite <- D_mul. unfold D.
    rewrite (Csum_ext _ (fun j => (mkC (nth j (later s data) 0) 0 * w ^ ((j + s) * r))%C)).
    2:{ intros j _. rewrite Nat.mul_add_distr_r, Cpow_add. apply Ceq; cbn; ring. }
    set (n := (2 ^ m)%nat) in *.
    assert (S1 : forall g, Csum g n = (Csum g (n - s) + Csum (fun j => g (n - s + j)%nat) s)%C).
    { intros g. rewrite <- Csum_split. f_equal. lia. }
    assert (S2 : forall g, Csum g n = (Csum g s + Csum (fun j => g (s + j)%nat) (n - s))%C).
    { intros g. rewrite <- Csum_split. f_equal. lia. }
    rewrite S1. rewrite (S2 (fun j => (mkC (nth j data 0) 0 * w ^ (j * r))%C)).
    rewrite (Csum_ext (fun j => mkC (nth j (later s data) 0) 0 * w ^ ((j + s) * r))%C
      (fun j => mkC (nth (s + j) data 0) 0 * w ^ ((s + j) * r))%C (n - s)).
    2:{ intros j J. rewrite later_nth by lia. destruct (Nat.ltb_spec (j + s) (List.length data)) as [B|B]; [|lia].
        rewrite (Nat.add_comm j s). reflexivity. }
    rewrite (Csum_ext (fun j => mkC (nth (n - s + j) (later s data) 0) 0 * w ^ ((n - s + j + s) * r))%C
      (fun j => mkC (nth j data 0) 0 * w ^ (j * r))%C s).
    2:{ intros j J. rewrite later_nth by lia. destruct (Nat.ltb_spec (n - s + j + s) (List.length data)) as [B|B]; [lia|].
        replace (n - s + j + s - List.length data)%nat with j by lia.
        replace ((n - s + j + s) * r)%nat with (n * r + j * r)%nat by nia.
        rewrite Cpow_add, (Cpow_mul w n r), WN, Cpow_one. apply Ceq; cbn; ring. }
    apply Ceq; cbn; ring. }
  assert (SQ : forall r, (r < List.length data)%nat ->
     sqrt (re (X' r) * re (X' r) + im (X' r) * im (X' r)) = sqrt (re (X r) * re (X r) + im (X r) * im (X r))).
  { intros r R. f_equal. fold (N2 (X' r)) (N2 (X r)). rewrite <- XE by exact R.
    rewrite N2_mul, N2_pow by apply N2_cis. ring. }
  pose proof (n_half m M1) as NH.
  intros i I. destruct i as [|i].
  - fold (nth_amplitude (read_harmonics (List.length data) X' f) 0).
    fold (nth_amplitude (read_harmonics (List.length data) X f) 0).
    rewrite !read_first by exact NN. rewrite SQ by exact NN. ring.
  - fold (nth_amplitude (read_harmonics (List.length data) X' f) (Datatypes.S i)).
    fold (nth_amplitude (read_harmonics (List.length data) X f) (Datatypes.S i)).
    rewrite !read_other by (rewrite ?HH; lia). rewrite SQ by (rewrite L; lia). ring.
Qed.

(** Half the sampling frequency is lost: alternating samples show no harmonic at all. *)
Theorem C66_half_sampling_refuted : forall f thr timed samples h,
  calculate_harmonics_data [1; -1; 1; -1] timed f false thr samples = Ok h ->
  (forall i, (i < 2)%nat -> nth i (h_amplitudes h) 0 = 0) /\ mean_square [1; -1; 1; -1] = 1.
Proof.
  intros f thr timed samples h H.
  assert (MS : mean_square [1; -1; 1; -1] = 1).
  { unfold mean_square. cbn [sigma List.length nth]. change (INR 4) with (((1 + 1) + 1) + 1). field. }
  split; [|exact MS].
  pose proof (C66_power 2 [1; -1; 1; -1] timed f thr samples h ltac:(lia) ltac:(lia) eq_refl H) as P.
  rewrite MS in P.
  assert (AL : alternating [1; -1; 1; -1] = 1).
  { unfold alternating, cosine_part, angle. cbn [sigma List.length nth Nat.div2].
    change (INR 4) with (((1 + 1) + 1) + 1). change (INR 3) with ((1 + 1) + 1).
    change (INR 2) with (1 + 1). change (INR 1) with 1. change (INR 0) with 0.
    replace (2 * PI * 0 * (1 + 1) / (1 + 1 + 1 + 1)) with 0 by field.
    replace (2 * PI * 1 * (1 + 1) / (1 + 1 + 1 + 1)) with PI by field.
    replace (2 * PI * (1 + 1) * (1 + 1) / (1 + 1 + 1 + 1)) with (2 * PI) by field.
    replace (2 * PI * (1 + 1 + 1) * (1 + 1) / (1 + 1 + 1 + 1)) with (PI + 2 * INR 1 * PI) by (change (INR 1) with 1; field).
    rewrite cos_period, cos_0, cos_PI, cos_2PI. field. }
  rewrite AL in P. cbn [sigma Nat.pow Nat.sub Nat.mul Nat.add] in P.
  pose proof (Rle_0_sqr (nth 0 (h_amplitudes h) 0)). pose proof (Rle_0_sqr (nth 1 (h_amplitudes h) 0)).
  assert (Z0 : Rsqr (nth 0 (h_amplitudes h) 0) = 0) by (unfold Rsqr in *; lra).
  assert (Z1 : Rsqr (nth 1 (h_amplitudes h) 0) = 0) by (unfold Rsqr in *; lra).
  intros i I. destruct i as [|[|i]]; [apply Rsqr_0_uniq; exact Z0|apply Rsqr_0_uniq; exact Z1|lia].
Qed.

(** Not vacuous: eight samples are analysed. *)
Example C66_witness : exists h, calculate_harmonics_data [0; 1; 2; 3; 4; 3; 2; 1] true 100 false 0 128 = Ok h /\
  List.length (h_amplitudes h) = 4%nat /\ nth 0 (h_amplitudes h) 0 = 2.
Proof.
  destruct (untrimmed 3 [0; 1; 2; 3; 4; 3; 2; 1] true 100 0 128 ltac:(lia) ltac:(lia) eq_refl) as [X [E _]].
  eexists. split; [exact E|].
  destruct (C66_harmonics 3 [0; 1; 2; 3; 4; 3; 2; 1] true 100 0 128 _ ltac:(lia) ltac:(lia) eq_refl E) as [A [_ [_ [B _]]]].
  split; [exact A|]. rewrite B. unfold mean. cbn [sigma List.length nth].
  replace (INR 8) with 8 by (cbn; ring). rewrite Rabs_pos_eq; lra.
Qed.

Print Assumptions C65_transform.
Print Assumptions C65_energy.
Print Assumptions C65_other_lengths_refused.
Print Assumptions C66_harmonics.
Print Assumptions C66_power.
Print Assumptions C66_sinusoid.
Print Assumptions C66_scale.
Print Assumptions C66_time_shift.
