(** * Core losses: coefficients and the Steinmetz law (C125, C126) *)
From Coq Require Import Reals List Lra Lia ZArith String Permutation.
From Verif Require Import Base SizingModel SizingProofs CoreLossModel CoreLossProofs.
Import ListNotations.
Local Open Scope R_scope.

(** ** C125: the coefficients are those of the range of the frequency *)

(** [holds d f]: the range has both bounds and the frequency lies in it.
    [bounded d]: the range has both bounds. *)

(** A material whose ranges all have bounds, in order, below 100 MHz. *)
Definition sound_range (d : steinmetz) : Prop :=
  exists a b, minimum_frequency d = Some a /\ maximum_frequency d = Some b /\ a <= b /\ a < 100000000 /\ 0 < b.

(** Whatever is answered: the first range that holds the frequency; or, when none
    does, the lowest range below all of them or the highest one above all. *)
Theorem C125_found : forall ranges f d,
  coefficients ranges f = Ok d ->
  In d ranges /\
  ((exists before after, ranges = before ++ d :: after /\ holds d f /\
      forall x, In x before -> ~ holds x f)
   \/ ((forall x, In x ranges -> ~ holds x f) /\
       ((exists a, minimum_frequency d = Some a /\ f < a /\
           forall x a', In x ranges -> minimum_frequency x = Some a' -> a <= a')
        \/ (exists b, maximum_frequency d = Some b /\ b < f /\
           forall x b', In x ranges -> maximum_frequency x = Some b' -> b' <= b)))).
Proof.
  intros ranges f d E. destruct (lookup_inside _ _ _ _ _ _ _ E) as [(be & af & -> & H & F)|F].
  - split; [apply in_or_app; right; left; reflexivity|]. left. exists be, af. repeat split; [exact H|].
    intros x X. apply (proj1 (Forall_forall _ _) F x X).
  - destruct (lookup_outside ranges f [] 100000000 0 None None) as (low & high & lo & hi & L & H & E').
    + split; [intros ? ? []|reflexivity].
    + split; [intros ? ? []|reflexivity].
    + exact F.
    + unfold coefficients in E. rewrite E' in E. simpl in L, H.
      assert (N : forall x, In x ranges -> ~ holds x f)
        by (intros x X; apply (proj1 (Forall_forall _ _) F x X)).
      destruct (Rlt_dec f low) as [B|B]; destruct lo as [x|].
      * injection E as <-. destruct L as [L [I M]]. split; [exact I|]. right. split; [exact N|].
        left. exists low. auto.
      * destruct (Rlt_dec high f) as [A|A]; [|discriminate]. destruct hi as [x|]; [|discriminate].
        injection E as <-. destruct H as [H [I M]]. split; [exact I|]. right. split; [exact N|].
        right. exists high. auto.
      * destruct (Rlt_dec high f) as [A|A]; [|discriminate]. destruct hi as [y|]; [|discriminate].
        injection E as <-. destruct H as [H [I M]]. split; [exact I|]. right. split; [exact N|].
        right. exists high. auto.
      * destruct (Rlt_dec high f) as [A|A]; [|discriminate]. destruct hi as [y|]; [|discriminate].
        injection E as <-. destruct H as [H [I M]]. split; [exact I|]. right. split; [exact N|].
        right. exists high. auto.
Qed.

Lemma sound_bounded : forall ranges, Forall sound_range ranges -> Forall bounded ranges.
Proof.
  intros ranges F. eapply Forall_impl; [|exact F]. intros d (a & b & A & B & _). exists a, b. auto.
Qed.

(** Refused exactly when the frequency lies in a gap between two ranges. *)
Theorem C125_refused_in_gaps : forall ranges f,
  Forall sound_range ranges -> ranges <> [] ->
  ((forall d, coefficients ranges f <> Ok d) <->
   (forall x, In x ranges -> ~ holds x f) /\
   (exists x a, In x ranges /\ minimum_frequency x = Some a /\ a <= f) /\
   (exists y b, In y ranges /\ maximum_frequency y = Some b /\ f <= b)).
Proof.
  intros ranges f S NE. destruct (first_holding ranges f (sound_bounded _ S)) as [(be & d & af & -> & H & F)|F].
  - split.
    + intros R. exfalso. apply (R d). apply lookup_first; assumption.
    + intros [N _]. exfalso. apply (N d); [apply in_or_app; right; left; reflexivity|exact H].
  - assert (N : forall x, In x ranges -> ~ holds x f)
      by (intros x X; apply (proj1 (Forall_forall _ _) F x X)).
    destruct (lookup_outside ranges f [] 100000000 0 None None) as (low & high & lo & hi & L & H & E).
    { split; [intros ? ? []|reflexivity]. }
    { split; [intros ? ? []|reflexivity]. }
    { exact F. }
    simpl in L, H.
    destruct ranges as [|r0 rest]; [contradiction|].
    pose proof (proj1 (Forall_forall _ _) S r0 (or_introl eq_refl)) as (a0 & b0 & A0 & B0 & AB0 & LA0 & PB0).
    destruct lo as [dl|].
    2:{ destruct L as [L ->]. pose proof (L r0 a0 (or_introl eq_refl) A0). lra. }
    destruct hi as [dh|].
    2:{ destruct H as [H ->]. pose proof (H r0 b0 (or_introl eq_refl) B0). lra. }
    destruct L as [L [IL ML]]. destruct H as [H [IH MH]].
    unfold coefficients. rewrite E. split.
    + intros R. destruct (Rlt_dec f low) as [B|B]; [exfalso; apply (R dl); reflexivity|].
      destruct (Rlt_dec high f) as [A|A]; [exfalso; apply (R dh); reflexivity|].
      split; [exact N|]. split.
      * exists dl, low. repeat split; auto. lra.
      * exists dh, high. repeat split; auto. lra.
    + intros [_ [(x & a & X & MA & LA) (y & b & Y & MB & LB)]] d.
      pose proof (L x a X MA). pose proof (H y b Y MB).
      destruct (Rlt_dec f low) as [B|B]; [lra|]. destruct (Rlt_dec high f) as [A|A]; [lra|]. discriminate.
Qed.

(** A frequency held by some range is answered with a range that holds it. *)
Theorem C125_inside : forall ranges f x,
  Forall bounded ranges -> In x ranges -> holds x f ->
  exists d, coefficients ranges f = Ok d /\ In d ranges /\ holds d f.
Proof.
  intros ranges f x B X H. destruct (first_holding ranges f B) as [(be & d & af & -> & H' & F)|F].
  - exists d. repeat split; [apply lookup_first; assumption|apply in_or_app; right; left; reflexivity|exact H'].
  - exfalso. exact (proj2 (proj1 (Forall_forall _ _) F x X) H).
Qed.

(** Ranges that do not overlap can be listed in any order. *)
Theorem C125_order : forall ranges ranges' f d,
  Permutation ranges ranges' -> Forall bounded ranges -> holds d f ->
  (forall x, In x ranges -> holds x f -> x = d) ->
  coefficients ranges f = Ok d -> coefficients ranges' f = Ok d.
Proof.
  intros ranges ranges' f d P B H U E.
  assert (I : In d ranges) by (apply (C125_found _ _ _ E)).
  destruct (C125_inside ranges' f d) as (d' & E' & I' & H').
  - apply Forall_forall. intros x X. apply (proj1 (Forall_forall _ _) B).
    apply Permutation_in with ranges'; [apply Permutation_sym; exact P|exact X].
  - apply Permutation_in with ranges; assumption.
  - exact H.
  - rewrite E'. f_equal. apply U; [|exact H'].
    apply Permutation_in with ranges'; [apply Permutation_sym; exact P|exact I'].
Qed.

Definition range (k a b : R) : steinmetz :=
  {| k_ := k; alpha_ := 3 / 2; beta_ := 5 / 2; ct0 := None; ct1 := None; ct2 := None;
     minimum_frequency := Some a; maximum_frequency := Some b |}.

Lemma range_sound : forall k a b, a <= b -> a < 100000000 -> 0 < b -> sound_range (range k a b).
Proof. intros k a b H L P. exists a, b. repeat split; assumption. Qed.

(** A material of two ranges: below, inside and above all three are answered. *)
Example C125_witness : exists ranges, Forall sound_range ranges /\
  coefficients ranges 1 = Ok (range 1 1000 100000) /\
  coefficients ranges 50000 = Ok (range 1 1000 100000) /\
  coefficients ranges 300000 = Ok (range 2 200000 500000) /\
  coefficients ranges 1000000 = Ok (range 2 200000 500000).
Proof.
  exists [range 1 1000 100000; range 2 200000 500000].
  split; [repeat constructor; apply range_sound; lra|].
  unfold coefficients, lookup, range; cbn [minimum_frequency maximum_frequency].
  repeat split;
    repeat (match goal with
            | |- context [Rle_dec ?a ?b] => destruct (Rle_dec a b); try lra
            | |- context [Rlt_dec ?a ?b] => destruct (Rlt_dec a b); try lra
            end); reflexivity.
Qed.

(** Not every frequency between the lowest and the highest one of a material is
    answered: between two ranges the losses are refused, although they are
    extrapolated outside all of them. *)
Theorem C125_gap_refuted : exists ranges f,
  Forall sound_range ranges /\
  (exists x y a b, In x ranges /\ In y ranges /\ minimum_frequency x = Some a /\
     maximum_frequency y = Some b /\ a < f < b) /\
  forall d, coefficients ranges f <> Ok d.
Proof.
  exists [range 1 1000 100000; range 2 200000 500000], 150000.
  assert (S : Forall sound_range [range 1 1000 100000; range 2 200000 500000])
    by (repeat constructor; apply range_sound; lra).
  split; [exact S|]. split.
  - exists (range 1 1000 100000), (range 2 200000 500000), 1000, 500000.
    repeat split; [left; reflexivity|right; left; reflexivity|lra|lra].
  - apply C125_refused_in_gaps; [exact S|discriminate|]. split; [|split].
    + intros x [<-|[<-|[]]] (a & b & A & B & H); injection A as <-; injection B as <-; lra.
    + exists (range 1 1000 100000), 1000. repeat split; [left; reflexivity|lra].
    + exists (range 2 200000 500000), 500000. repeat split; [right; left; reflexivity|lra].
Qed.

(** Where two ranges touch the answer depends on the order they are listed in. *)
Theorem C125_order_refuted : exists ranges ranges' f,
  Forall sound_range ranges /\ Permutation ranges ranges' /\
  coefficients ranges f <> coefficients ranges' f.
Proof.
  exists [range 1 1000 100000; range 2 100000 500000], [range 2 100000 500000; range 1 1000 100000], 100000.
  split; [repeat constructor; apply range_sound; lra|]. split; [apply perm_swap|].
  unfold coefficients.
  pose proof (lookup_first [] (range 1 1000 100000) [range 2 100000 500000] 100000 100000000 0 None None) as A.
  pose proof (lookup_first [] (range 2 100000 500000) [range 1 1000 100000] 100000 100000000 0 None None) as B.
  simpl app in A, B. rewrite A, B; [|constructor|exists 100000, 500000; repeat split; lra
                                    |constructor|exists 1000, 100000; repeat split; lra].
  intros E. injection E. lra.
Qed.

(** ** C126: the Steinmetz losses *)

(** A datum with a positive coefficient and a positive exponent of the flux
    density, at a positive switching frequency. *)
Definition usable (d : steinmetz) : Prop := 0 < k_ d /\ 0 < beta_ d.

Lemma amplitude_law_some : forall beta main ac, 0 < beta -> 0 <= main -> 0 <= ac ->
  amplitude_law beta main ac = Some (if Rlt_dec 2 beta then pw main (beta - 2) * ac ^ 2 else pw ac beta).
Proof.
  intros beta main ac B M A. unfold amplitude_law. destruct (Rlt_dec 2 beta) as [L|L].
  - rewrite !cpow_pw by lra. simpl. f_equal. f_equal.
    destruct A as [A| <-]; [|rewrite pw_0; ring].
    rewrite pw_pos_eq by assumption. replace 2 with (INR 2) by (simpl; ring).
    rewrite Rpower_pow by assumption. simpl. ring.
  - rewrite cpow_pw by assumption. reflexivity.
Qed.

Lemma law_nonneg : forall beta main ac, 0 <= (if Rlt_dec 2 beta then pw main (beta - 2) * ac ^ 2 else pw ac beta).
Proof.
  intros beta main ac. destruct (Rlt_dec 2 beta).
  - apply Rmult_le_pos; [apply pw_nonneg|]. apply pow2_ge_0.
  - apply pw_nonneg.
Qed.

(** The closed form used by the proofs below. *)
Lemma steinmetz_form : forall loaded ranges e t f d,
  switching_frequency e = Ok f -> datum loaded ranges f = Ok d -> 0 < f -> usable d ->
  steinmetz_losses loaded ranges e t =
  Ok (Some (k_ d * Rpower f (alpha_ d) *
            (if Rlt_dec 2 (beta_ d) then pw (Rabs (peak e - offset e)) (beta_ d - 2) * (Rabs (peak_at e f - offset e)) ^ 2
             else pw (Rabs (peak_at e f - offset e)) (beta_ d)) * temperature_factor d t)).
Proof.
  intros loaded ranges e t f d SF D F [K B]. unfold steinmetz_losses. rewrite SF. cbn [bind].
  rewrite D. cbn [bind]. rewrite cpow_pos by assumption.
  rewrite amplitude_law_some by (try assumption; apply Rabs_pos). reflexivity.
Qed.

(** Losses are finite and not negative, and zero exactly without AC flux density. *)
Theorem C126_nonnegative : forall loaded ranges e t f d,
  switching_frequency e = Ok f -> datum loaded ranges f = Ok d -> 0 < f -> usable d ->
  exists v, steinmetz_losses loaded ranges e t = Ok (Some v) /\ 0 <= v.
Proof.
  intros loaded ranges e t f d SF D F U. pose proof U as [K B].
  rewrite (steinmetz_form _ _ _ _ _ _ SF D F U). eexists. split; [reflexivity|].
  apply Rmult_le_pos; [|left; apply temperature_factor_pos].
  apply Rmult_le_pos; [|apply law_nonneg].
  apply Rmult_le_pos; [lra|left; apply Rpower_pos].
Qed.

Theorem C126_zero : forall loaded ranges e t f d,
  switching_frequency e = Ok f -> datum loaded ranges f = Ok d -> 0 < f -> usable d ->
  harmonics e = None ->
  (steinmetz_losses loaded ranges e t = Ok (Some 0) <-> peak e = offset e).
Proof.
  intros loaded ranges e t f d SF D F U HN. pose proof U as [K B].
  rewrite (steinmetz_form _ _ _ _ _ _ SF D F U).
  assert (P : peak_at e f = peak e) by (unfold peak_at, harmonic_at; rewrite HN; reflexivity).
  rewrite P. split.
  - intros E. injection E as E. destruct (Req_dec (peak e - offset e) 0) as [Z|NZ]; [lra|exfalso].
    assert (A : Rabs (peak e - offset e) <> 0) by (apply Rabs_no_R0; assumption).
    assert (L : 0 < (if Rlt_dec 2 (beta_ d) then pw (Rabs (peak e - offset e)) (beta_ d - 2) * (Rabs (peak e - offset e)) ^ 2
             else pw (Rabs (peak e - offset e)) (beta_ d))).
    { destruct (Rlt_dec 2 (beta_ d)).
      - apply Rmult_lt_0_compat; [apply pw_positive; assumption|]. apply pow_lt.
        destruct (Rabs_pos (peak e - offset e)) as [Q|Q]; [exact Q|congruence].
      - apply pw_positive; assumption. }
    pose proof (temperature_factor_pos d t). pose proof (Rpower_pos f (alpha_ d)).
    assert (0 < k_ d * Rpower f (alpha_ d)) by (apply Rmult_lt_0_compat; lra).
    assert (G : forall a b c, 0 < a -> 0 < b -> 0 < c -> a * b * c <> 0).
    { intros a b c Ha Hb Hc. apply Rgt_not_eq. apply Rmult_lt_0_compat; [|assumption].
      apply Rmult_lt_0_compat; assumption. }
    eapply G; [| | |exact E]; assumption.
  - intros E. replace (peak e - offset e) with 0 by lra. rewrite Rabs_R0. do 2 f_equal.
    destruct (Rlt_dec 2 (beta_ d)); rewrite ?pw_0; ring.
Qed.

(** More AC flux density, at the same frequency and temperature, never loses less;
    without harmonics, strictly more. *)
Theorem C126_monotone : forall loaded ranges e e' t f d v v',
  switching_frequency e = Ok f -> switching_frequency e' = Ok f ->
  datum loaded ranges f = Ok d -> 0 < f -> usable d ->
  Rabs (peak e - offset e) <= Rabs (peak e' - offset e') ->
  Rabs (peak_at e f - offset e) <= Rabs (peak_at e' f - offset e') ->
  steinmetz_losses loaded ranges e t = Ok (Some v) ->
  steinmetz_losses loaded ranges e' t = Ok (Some v') ->
  v <= v'.
Proof.
  intros loaded ranges e e' t f d v v' SF SF' D F U M A E E'. pose proof U as [K B].
  rewrite (steinmetz_form _ _ _ _ _ _ SF D F U) in E. rewrite (steinmetz_form _ _ _ _ _ _ SF' D F U) in E'.
  injection E as <-. injection E' as <-.
  apply Rmult_le_compat_r; [left; apply temperature_factor_pos|].
  apply Rmult_le_compat_l; [apply Rmult_le_pos; [lra|left; apply Rpower_pos]|].
  pose proof (Rabs_pos (peak e - offset e)). pose proof (Rabs_pos (peak_at e f - offset e)).
  destruct (Rlt_dec 2 (beta_ d)).
  - apply Rmult_le_compat; [apply pw_nonneg|apply (pow2_ge_0 (Rabs (peak_at e f - offset e)))| |apply (pow_incr _ _ 2); lra].
    apply pw_mono; lra.
  - apply pw_mono; lra.
Qed.

(** The temperature enters only through the quadratic of the datum, as long as it
    is positive at both temperatures. *)
Theorem C126_temperature : forall loaded ranges e f d c0 c1 c2 t t' v v',
  switching_frequency e = Ok f -> datum loaded ranges f = Ok d -> 0 < f -> usable d ->
  ct0 d = Some c0 -> ct1 d = Some c1 -> ct2 d = Some c2 ->
  0 < c2 * t ^ 2 - c1 * t + c0 -> 0 < c2 * t' ^ 2 - c1 * t' + c0 ->
  steinmetz_losses loaded ranges e t = Ok (Some v) ->
  steinmetz_losses loaded ranges e t' = Ok (Some v') ->
  v * (c2 * t' ^ 2 - c1 * t' + c0) = v' * (c2 * t ^ 2 - c1 * t + c0).
Proof.
  intros loaded ranges e f d c0 c1 c2 t t' v v' SF D F U C0 C1 C2 P P' E E'.
  rewrite (steinmetz_form _ _ _ _ _ _ SF D F U) in E. rewrite (steinmetz_form _ _ _ _ _ _ SF D F U) in E'.
  injection E as <-. injection E' as <-.
  assert (T : forall x, 0 < c2 * x ^ 2 - c1 * x + c0 -> temperature_factor d x = c2 * x ^ 2 - c1 * x + c0).
  { intros x X. unfold temperature_factor. rewrite C0, C1, C2. cbv zeta.
    destruct (Rlt_dec 0 (c2 * x ^ 2 - c1 * x + c0)); [reflexivity|contradiction]. }
  rewrite (T t P), (T t' P'). ring.
Qed.

(** Without a datum at the frequency the losses are refused, whatever the rest. *)
Theorem C126_refused : forall ranges e t f w,
  switching_frequency e = Ok f -> coefficients ranges f = Throw w ->
  steinmetz_losses None ranges e t = Throw w.
Proof.
  intros ranges e t f w SF C. unfold steinmetz_losses. rewrite SF. cbn [bind datum]. rewrite C. reflexivity.
Qed.

Definition plain (f p o : R) (s : list (R * R)) : excitation :=
  {| frequency := f; current_points := 0; current_harmonics := None;
     peak := p; offset := o; peak_to_peak := 2 * (p - o); harmonics := None; samples := s |}.

Lemma plain_switching : forall f p o s, switching_frequency (plain f p o s) = Ok f.
Proof. intros f p o s. unfold switching_frequency. simpl. destruct (Rlt_dec f 400); reflexivity. Qed.

(** A datum of exponents one and two at 1 kHz: exact losses. *)
Definition simple : steinmetz :=
  {| k_ := 3; alpha_ := 1; beta_ := 2; ct0 := Some 2; ct1 := Some (1 / 100); ct2 := Some 0;
     minimum_frequency := Some 1; maximum_frequency := Some 100000 |}.

Lemma simple_losses : forall f p o s t, 1 <= f <= 100000 -> 0 <= p - o -> 0 < 2 - 1 / 100 * t ->
  steinmetz_losses None [simple] (plain f p o s) t = Ok (Some (3 * f * (p - o) ^ 2 * (2 - 1 / 100 * t))).
Proof.
  intros f p o s t F P T. assert (D : datum None [simple] f = Ok simple).
  { apply (lookup_first [] simple []); [constructor|]. exists 1, 100000. repeat split; lra. }
  rewrite (steinmetz_form _ _ _ _ f simple (plain_switching _ _ _ _) D); [|lra|split; simpl; lra].
  do 2 f_equal. unfold peak_at, harmonic_at. simpl.
  rewrite (Rabs_pos_eq _ P). destruct (Rlt_dec 2 2) as [L|_]; [lra|].
  rewrite Rpower_1 by lra. unfold temperature_factor. simpl.
  destruct (Rlt_dec 0 (0 * (t * (t * 1)) - 1 / 100 * t + 2)) as [_|N]; [|exfalso; apply N; lra].
  assert (Q : pw (p - o) 2 = (p - o) ^ 2).
  { destruct P as [P| <-]; [|rewrite pw_0; ring]. rewrite pw_pos_eq by assumption.
    replace 2 with (INR 2) at 1 by (simpl; ring). apply Rpower_pow; assumption. }
  rewrite Q. ring.
Qed.

Example C126_witness : exists e, switching_frequency e = Ok 1000 /\ usable simple /\
  datum None [simple] 1000 = Ok simple /\ harmonics e = None /\
  steinmetz_losses None [simple] e 100 = Ok (Some (3 * 1000 * (1 / 10) ^ 2)) /\
  steinmetz_losses None [simple] e 50 = Ok (Some (3 * 1000 * (1 / 10) ^ 2 * (3 / 2))).
Proof.
  exists (plain 1000 (1 / 10) 0 []). split; [apply plain_switching|].
  split; [split; simpl; lra|]. split.
  { apply (lookup_first [] simple []); [constructor|]. exists 1, 100000. repeat split; lra. }
  split; [reflexivity|]. rewrite !simple_losses by lra.
  split; do 2 f_equal; field.
Qed.

(** The mirror image of a waveform (its processed peak is the largest magnitude,
    which does not change, its offset changes sign) does not lose the same when it
    is biased. *)
Theorem C126_mirror_refuted : exists e e' v v',
  (* the waveform between 0.1 and 0.3 T, and its mirror image *)
  samples e' = map (fun s => (fst s, - snd s)) (samples e) /\
  offset e' = - offset e /\ peak e' = peak e /\ peak_to_peak e' = peak_to_peak e /\ frequency e' = frequency e /\
  (forall s, In s (samples e) -> Rabs (snd s) <= peak e) /\ (exists s, In s (samples e) /\ Rabs (snd s) = peak e) /\
  steinmetz_losses None [simple] e 100 = Ok (Some v) /\
  steinmetz_losses None [simple] e' 100 = Ok (Some v') /\ v' = 25 * v /\ v <> 0.
Proof.
  set (s := [(0, 1 / 10); (1 / 2000, 3 / 10); (1 / 1000, 1 / 10)]).
  set (e := {| frequency := 1000; current_points := 0; current_harmonics := None; peak := 3 / 10;
               offset := 2 / 10; peak_to_peak := 2 / 10; harmonics := None; samples := s |}).
  set (e' := {| frequency := 1000; current_points := 0; current_harmonics := None; peak := 3 / 10;
               offset := - (2 / 10); peak_to_peak := 2 / 10; harmonics := None;
               samples := map (fun s => (fst s, - snd s)) s |}).
  exists e, e', (3 * 1000 * (1 / 10) ^ 2), (3 * 1000 * (5 / 10) ^ 2).
  repeat (split; [reflexivity|]). split.
  { intros x [<-|[<-|[<-|[]]]]; simpl; rewrite Rabs_pos_eq; lra. }
  split. { exists (1 / 2000, 3 / 10). split; [right; left; reflexivity|]. simpl. apply Rabs_pos_eq. lra. }
  split; [|split].
  - transitivity (steinmetz_losses None [simple] (plain 1000 (3 / 10) (2 / 10) s) 100); [reflexivity|].
    rewrite simple_losses by lra. do 2 f_equal. field.
  - transitivity (steinmetz_losses None [simple] (plain 1000 (3 / 10) (- (2 / 10)) (samples e')) 100); [reflexivity|].
    rewrite simple_losses by lra. do 2 f_equal. field.
  - split; lra.
Qed.

(** Where the quadratic of the temperature is not positive it is left out: losses
    that had fallen to almost nothing jump back to the uncorrected value. *)
Theorem C126_temperature_refuted : exists e t t' v v',
  t < t' /\ 2 - 1 / 100 * t' < 2 - 1 / 100 * t /\
  steinmetz_losses None [simple] e t = Ok (Some v) /\
  steinmetz_losses None [simple] e t' = Ok (Some v') /\ 0 < v /\ v' = 1000000 * v.
Proof.
  exists (plain 1000 (1 / 10) 0 []), (200 - 1 / 10000), 201, (3 * 1000 * (1 / 10) ^ 2 * (1 / 1000000)),
    (3 * 1000 * (1 / 10) ^ 2).
  split; [lra|]. split; [lra|]. split; [|split; [|lra]].
  - rewrite simple_losses by lra. do 2 f_equal. field.
  - assert (D : datum None [simple] 1000 = Ok simple).
    { apply (lookup_first [] simple []); [constructor|]. exists 1, 100000. repeat split; lra. }
    rewrite (steinmetz_form _ _ _ _ 1000 simple (plain_switching _ _ _ _) D); [|lra|split; simpl; lra].
    do 2 f_equal. unfold peak_at, harmonic_at. simpl. rewrite Rabs_pos_eq by lra.
    destruct (Rlt_dec 2 2) as [L|_]; [lra|]. rewrite Rpower_1 by lra.
    unfold temperature_factor. simpl.
    destruct (Rlt_dec 0 (0 * (201 * (201 * 1)) - 1 / 100 * 201 + 2)) as [X|_]; [exfalso; lra|].
    rewrite pw_pos_eq by lra. replace 2 with (INR 2) at 1 by (simpl; ring). rewrite Rpower_pow by lra. field.
Qed.

Print Assumptions C125_found.
Print Assumptions C125_refused_in_gaps.
Print Assumptions C126_nonnegative.
Print Assumptions C126_mirror_refuted.
