(** C67, C68: trimming the harmonics, and the figures computed from them. *)
From Coq Require Import Reals List Arith NArith Bool String Lia Lra Psatz Sorted.
From Verif Require Import Base FftModel FftProofs FftProperties.
Import ListNotations.
Open Scope R_scope.

(** * Vocabulary *)

(** How much harmonic [i] counts: its amplitude times the root of its frequency. *)
Definition importance (amplitudes frequencies : list R) (i : nat) : R :=
  nth i amplitudes 0 * sqrt (nth i frequencies 0).

(** The entries of a list at the given places. *)
Definition entries (places : list nat) (l : list R) : list R := map (fun i => nth i l 0) places.

(** Whatever is not zero has a frequency between [lo] and [hi]. *)
Definition energy_within (lo hi : R) (amplitudes frequencies : list R) : Prop :=
  forall i, (i < List.length amplitudes)%nat -> nth i amplitudes 0 <> 0 ->
    lo <= nth i frequencies 0 /\ nth i frequencies 0 <= hi.

(** * Trimming *)

Lemma heaviest_fold : forall h l m, 0 <= m ->
  (m <= fold_left (fun m i => Rmax (weight_of h i) m) l m) /\
  (forall i, In i l -> weight_of h i <= fold_left (fun m i => Rmax (weight_of h i) m) l m) /\
  (fold_left (fun m i => Rmax (weight_of h i) m) l m = m \/
   exists i, In i l /\ fold_left (fun m i => Rmax (weight_of h i) m) l m = weight_of h i).
Proof.
  intros h l. induction l as [|a l IH]; intros m M; cbn [fold_left].
  - split; [lra|]. split; [intros i []|]. left. reflexivity.
  - assert (M' : 0 <= Rmax (weight_of h a) m) by (pose proof (Rmax_r (weight_of h a) m); lra).
    destruct (IH _ M') as [A [B C]]. pose proof (Rmax_r (weight_of h a) m). pose proof (Rmax_l (weight_of h a) m).
    split; [lra|]. split.
    + intros i [->|I]; [lra|]. apply B. exact I.
    + destruct C as [C|[i [I C]]].
      * rewrite C. unfold Rmax. destruct (Rle_dec (weight_of h a) m); [left; reflexivity|].
        right. exists a. split; [left; reflexivity|reflexivity].
      * right. exists i. split; [right; exact I|exact C].
Qed.

Lemma filter_sorted : forall (p : nat -> bool) l, StronglySorted lt l -> StronglySorted lt (filter p l).
Proof.
  intros p l S. induction S as [|a l S IH F]; [constructor|]. cbn [filter]. destruct (p a); [|exact IH].
  constructor; [exact IH|]. apply Forall_forall. intros x X. apply filter_In in X. destruct X as [X _].
  rewrite Forall_forall in F. apply F. exact X.
Qed.
Lemma seq_sorted : forall n a, StronglySorted lt (seq a n).
Proof.
  induction n as [|n IH]; intros a; [constructor|]. cbn [seq]. constructor; [apply IH|].
  apply Forall_forall. intros x X. apply in_seq in X. lia.
Qed.

(** Trimming keeps, in order, the direct component, the fundamental and exactly the
    harmonics that count for at least [threshold] times as much as every other. *)
Theorem C67_what_is_kept : forall h thr h', (2 <= List.length (h_amplitudes h))%nat ->
  List.length (h_frequencies h) = List.length (h_amplitudes h) ->
  (forall a, In a (h_amplitudes h) -> 0 <= a) -> 0 <= thr ->
  trim h thr = Ok h' ->
  exists kept, StronglySorted lt kept /\
    h_amplitudes h' = entries kept (h_amplitudes h) /\ h_frequencies h' = entries kept (h_frequencies h) /\
    forall i, In i kept <-> (i < List.length (h_amplitudes h))%nat /\
      (i = 0%nat \/ i = 1%nat \/
       forall j, (1 <= j)%nat -> (j < List.length (h_amplitudes h))%nat ->
         thr * importance (h_amplitudes h) (h_frequencies h) j <= importance (h_amplitudes h) (h_frequencies h) i).
Proof.
  intros h thr h' L LF NN T H. unfold trim in H.
  destruct (h_amplitudes h) as [|a0 [|a1 al]] eqn:EA; [cbn in L; lia|cbn in L; lia|].
  destruct (h_frequencies h) as [|f0 [|f1 fl]] eqn:EF; [cbn in LF; lia|cbn in LF; lia|].
  injection H as <-. cbn [h_amplitudes h_frequencies].
  set (kept := filter _ (get_main_harmonic_indexes h thr)).
  exists (0%nat :: 1%nat :: kept).
  assert (KI : forall i, In i kept <-> (2 <= i)%nat /\ (i < List.length (a0 :: a1 :: al))%nat /\
     heaviest h * thr <= weight_of h i).
  { intros i. unfold kept, get_main_harmonic_indexes. rewrite !filter_In, in_seq, EA.
    destruct (Rlt_dec (weight_of h i) (heaviest h * thr)) as [B|B].
    - split; [intros [[_ X] _]; discriminate|]. intros [_ [_ X]]. lra.
    - split.
      + intros [[I _] N]. apply negb_true_iff, orb_false_iff in N. destruct N as [N0 N1].
        apply Nat.eqb_neq in N0, N1. repeat split; try lia. lra.
      + intros [I1 [I2 _]]. split; [split; [lia|reflexivity]|].
        apply negb_true_iff, orb_false_iff. split; apply Nat.eqb_neq; lia. }
  assert (KS : StronglySorted lt kept) by (apply filter_sorted, filter_sorted, seq_sorted).
  split; [|split; [|split]].
  - constructor; [constructor; [exact KS|]|]; apply Forall_forall; intros x X.
    + apply KI in X. lia.
    + destruct X as [<-|X]; [lia|]. apply KI in X. lia.
  - reflexivity.
  - reflexivity.
  - pose proof (heaviest_fold h (seq 1 (List.length (h_amplitudes h) - 1)) 0 (Rle_refl 0)) as [P0 [PU PA]].
    fold (heaviest h) in P0, PU, PA. rewrite EA in PU, PA.
    assert (WI : forall i, weight_of h i = importance (a0 :: a1 :: al) (f0 :: f1 :: fl) i).
    { intros i. unfold weight_of, importance. rewrite EA, EF. reflexivity. }
    assert (WN : forall i, (i < List.length (a0 :: a1 :: al))%nat -> 0 <= weight_of h i).
    { intros i I. unfold weight_of. apply Rmult_le_pos; [|apply sqrt_pos]. rewrite EA. apply NN. apply nth_In. exact I. }
    intros i. cbn [In]. rewrite KI. split.
    + intros [<-|[<-|[I1 [I2 I3]]]].
      * split; [cbn; lia|]. left. reflexivity.
      * split; [cbn; lia|]. right. left. reflexivity.
      * split; [exact I2|]. right. right. intros j J1 J2. rewrite <- !WI.
        assert (weight_of h j <= heaviest h) by (apply PU, in_seq; lia). nra.
    + intros [I [->|[->|A]]]; [left; reflexivity|right; left; reflexivity|].
      destruct (Nat.eq_dec i 0) as [->|N0]; [left; reflexivity|].
      destruct (Nat.eq_dec i 1) as [->|N1]; [right; left; reflexivity|].
      right. right. split; [lia|]. split; [exact I|].
      destruct PA as [Z|[j [J Z]]].
      * rewrite Z. pose proof (WN i I). lra.
      * apply in_seq in J. rewrite Z, Rmult_comm, !WI. apply A; lia.
Qed.

(** Nothing is trimmed unless it is asked for and the waveform has times and more
    points than usual. *)
Theorem C67_only_when_asked : forall data timed f ask thr samples,
  ask = false \/ timed = false \/ (List.length data <= samples)%nat ->
  calculate_harmonics_data data timed f ask thr samples = calculate_harmonics_data data timed f false thr samples.
Proof.
  intros data timed f ask thr samples H. unfold calculate_harmonics_data.
  assert (E : (timed && (samples <? List.length data)%nat && ask)%bool = false).
  { destruct H as [->|[->|H]]; [apply andb_false_r|reflexivity|].
    destruct (Nat.ltb_spec samples (List.length data)); [lia|]. rewrite andb_false_r. reflexivity. }
  rewrite E, andb_false_r. reflexivity.
Qed.

(** The harmonics of data with trimming are those without, trimmed. *)
Theorem C67_trimmed_of_full : forall m data f thr samples full h', (1 <= m)%nat -> (m <= 31)%nat ->
  List.length data = (2 ^ m)%nat -> (samples < List.length data)%nat -> 0 <= thr ->
  calculate_harmonics_data data true f false thr samples = Ok full ->
  calculate_harmonics_data data true f true thr samples = Ok h' ->
  (2 <= m)%nat /\
  exists kept, StronglySorted lt kept /\
    h_amplitudes h' = entries kept (h_amplitudes full) /\ h_frequencies h' = entries kept (h_frequencies full) /\
    forall i, In i kept <-> (i < 2 ^ (m - 1))%nat /\
      (i = 0%nat \/ i = 1%nat \/
       forall j, (1 <= j)%nat -> (j < 2 ^ (m - 1))%nat ->
         thr * importance (h_amplitudes full) (h_frequencies full) j
           <= importance (h_amplitudes full) (h_frequencies full) i).
Proof.
  intros m data f thr samples full h' M1 M2 L SL T F H.
  destruct (C66_harmonics m data true f thr samples full M1 M2 L F) as [LA [LF [_ [A0 AI]]]].
  assert (TR : trim full thr = Ok h').
  { unfold calculate_harmonics_data in F, H.
    destruct ((0 <? List.length data)%nat && negb (power_of_2 (List.length data)))%bool; [discriminate|].
    destruct (fft (List.length data) (fun j => mkC (nth j data 0) 0)) as [X| | |]; try discriminate.
    cbn [bind] in F, H. rewrite andb_false_r in F. injection F as <-.
    destruct (Nat.ltb_spec samples (List.length data)); [|lia]. exact H. }
  assert (M : (2 <= m)%nat).
  { destruct (Nat.le_gt_cases 2 m) as [B|B]; [exact B|]. assert (m = 1%nat) by lia. subst m.
    cbn in LA. unfold trim in TR. destruct (h_amplitudes full) as [|a [|b l]]; discriminate. }
  split; [exact M|].
  destruct (C67_what_is_kept full thr h') as [kept [K1 [K2 [K3 K4]]]]; try assumption.
  - rewrite LA. replace (m - 1)%nat with (S (m - 2)) by lia. cbn [Nat.pow].
    pose proof (Nat.pow_nonzero 2 (m - 2)). lia.
  - rewrite LA, LF. reflexivity.
  - intros a IA. apply (In_nth _ _ 0) in IA. destruct IA as [i [I <-]]. rewrite LA in I.
    destruct i as [|i].
    + rewrite A0. apply Rabs_pos.
    + rewrite AI by lia. apply Rmult_le_pos; [|apply sqrt_pos].
      apply Rlt_le, Rdiv_lt_0_compat; [lra|]. apply lt_0_INR. rewrite L. pose proof (Nat.pow_nonzero 2 m). lia.
  - exists kept. rewrite <- LA. repeat split; try assumption; apply K4; assumption.
Qed.

(** A threshold of zero trims nothing. *)
Corollary C67_zero_threshold : forall h h', (2 <= List.length (h_amplitudes h))%nat ->
  List.length (h_frequencies h) = List.length (h_amplitudes h) ->
  (forall a, In a (h_amplitudes h) -> 0 <= a) ->
  trim h 0 = Ok h' -> h' = h.
Proof.
  intros h h' L LF NN H. pose proof H as H0. unfold trim in H0.
  destruct (h_amplitudes h) as [|a0 [|a1 al]] eqn:EA; [cbn in L; lia|cbn in L; lia|].
  destruct (h_frequencies h) as [|f0 [|f1 fl]] eqn:EF; [cbn in LF; lia|cbn in LF; lia|].
  injection H0 as <-.
  assert (K : filter (fun i => negb ((i =? 0) || (i =? 1))%nat) (get_main_harmonic_indexes h 0) = seq 2 (List.length al)).
  { unfold get_main_harmonic_indexes. rewrite EA. cbn [List.length Nat.sub].
    assert (TT : forall l : list nat, filter (fun _ => true) l = l) by (induction l as [|x l IH]; cbn; [reflexivity|f_equal; exact IH]).
    assert (ALL : filter (fun i => if Rlt_dec (weight_of h i) (heaviest h * 0) then false else true) (seq 1 (S (List.length al)))
                  = seq 1 (S (List.length al))).
    { rewrite <- (TT (seq 1 (S (List.length al)))) at 2. apply filter_ext_in.
      intros i I. apply in_seq in I. destruct (Rlt_dec (weight_of h i) (heaviest h * 0)) as [B|B]; [|reflexivity].
      exfalso. rewrite Rmult_0_r in B. unfold weight_of in B. rewrite EA in B.
      assert (0 <= nth i (a0 :: a1 :: al) 0) by (apply NN, nth_In; cbn; lia).
      pose proof (sqrt_pos (nth i (h_frequencies h) 0)). nra. }
    rewrite ALL. cbn [seq filter Nat.eqb orb negb].
    rewrite <- (TT (seq 2 (List.length al))) at 2. apply filter_ext_in.
    intros i I. apply in_seq in I. destruct i as [|[|i]]; [lia|lia|reflexivity]. }
  rewrite K.
  assert (TAIL : forall (x y : R) l n, List.length l = n -> map (fun i => nth i (x :: y :: l) 0) (seq 2 n) = l).
  { intros x y l n <-.
    apply (nth_ext _ _ 0 0); [rewrite map_length, seq_length; reflexivity|].
    intros i I. rewrite map_length, seq_length in I.
    rewrite (nth_indep _ 0 ((fun i => nth i (x :: y :: l) 0) 0%nat)) by (rewrite map_length, seq_length; exact I).
    rewrite (map_nth (fun i => nth i (x :: y :: l) 0)), seq_nth by exact I. reflexivity. }
  change (mkHarmonics (a0 :: a1 :: map (fun i => nth i (a0 :: a1 :: al) 0) (seq 2 (List.length al)))
                      (f0 :: f1 :: map (fun i => nth i (f0 :: f1 :: fl) 0) (seq 2 (List.length al))) = h).
  rewrite !TAIL by (cbn in LF; lia). destruct h as [A F]. cbn in *. congruence.
Qed.

(** Two samples have no fundamental to keep: reading it is out of range. *)
Theorem C67_two_samples_refuted : forall x y f thr,
  exists msg, calculate_harmonics_data [x; y] true f true thr 1 = UB msg.
Proof.
  intros x y f thr. destruct (untrimmed 1 [x; y] true f thr 1 ltac:(lia) ltac:(lia) eq_refl) as [X [E _]].
  unfold calculate_harmonics_data in *. cbn [List.length] in *.
  destruct ((0 <? 2)%nat && negb (power_of_2 2))%bool; [discriminate|].
  destruct (fft 2 (fun j => mkC (nth j [x; y] 0) 0)) as [Y| | |]; try discriminate.
  eexists. cbn. reflexivity.
Qed.

Example C67_witness : exists h', trim (mkHarmonics [5; 4; 1; 2] [0; 1; 1; 1]) (1 / 2) = Ok h' /\ h_amplitudes h' = [5; 4; 2].
Proof.
  eexists. split; [reflexivity|]. cbn [h_amplitudes].
  unfold get_main_harmonic_indexes, heaviest, weight_of. cbn [h_amplitudes h_frequencies List.length Nat.sub seq fold_left nth filter].
  rewrite sqrt_1.
  replace (Rmax (2 * 1) (Rmax (1 * 1) (Rmax (4 * 1) 0))) with 4.
  2:{ rewrite (Rmax_left (4 * 1)) by lra. rewrite (Rmax_right (1 * 1)) by lra. rewrite Rmax_right by lra. lra. }
  destruct (Rlt_dec (4 * 1) (4 * (1 / 2))); [lra|]. destruct (Rlt_dec (1 * 1) (4 * (1 / 2))); [|lra].
  destruct (Rlt_dec (2 * 1) (4 * (1 / 2))); [lra|]. reflexivity.
Qed.

(** * Figures *)

Lemma Rsum_cons : forall x l, Rsum (x :: l) = x + Rsum l.
Proof. reflexivity. Qed.
Lemma Rsum_app : forall a b, Rsum (a ++ b) = Rsum a + Rsum b.
Proof.
  induction a as [|x a IH]; intros b; [unfold Rsum at 2; cbn [fold_right app]; ring|].
  cbn [app]. rewrite !Rsum_cons, IH. ring.
Qed.
Lemma Rsum_nonneg : forall l, (forall x, In x l -> 0 <= x) -> 0 <= Rsum l.
Proof.
  induction l as [|x l IH]; intros H; [apply Rle_refl|]. rewrite Rsum_cons.
  assert (0 <= Rsum l) by (apply IH; intros; apply H; right; assumption).
  specialize (H x (or_introl eq_refl)). lra.
Qed.
Lemma Rsum_le : forall (A : Type) (f g : A -> R) l, (forall x, In x l -> f x <= g x) -> Rsum (map f l) <= Rsum (map g l).
Proof.
  intros A f g. induction l as [|x l IH]; intros H; [apply Rle_refl|]. cbn [map]. rewrite !Rsum_cons.
  assert (Rsum (map f l) <= Rsum (map g l)) by (apply IH; intros; apply H; right; assumption).
  specialize (H x (or_introl eq_refl)). lra.
Qed.
Lemma Rsum_scale : forall (A : Type) (f : A -> R) c l, Rsum (map (fun x => c * f x) l) = c * Rsum (map f l).
Proof.
  intros A f c. induction l as [|x l IH]; [unfold Rsum; cbn [map fold_right]; ring|].
  cbn [map]. rewrite !Rsum_cons, IH. ring.
Qed.
Lemma Rsum_ext : forall (A : Type) (f g : A -> R) l, (forall x, In x l -> f x = g x) -> Rsum (map f l) = Rsum (map g l).
Proof. intros A f g l H. f_equal. apply map_ext_in. exact H. Qed.
Lemma Rsum_sigma : forall (g : R -> R) l, Rsum (map g l) = sigma (fun j => g (nth j l 0)) (List.length l).
Proof.
  intros g l. induction l as [|x l IH]; [reflexivity|]. cbn [List.length]. rewrite sigma_first. cbn [map nth].
  unfold Rsum in *. cbn [fold_right]. rewrite IH. reflexivity.
Qed.

Lemma combine_skipn : forall (A B : Type) n (a : list A) (b : list B),
  skipn n (combine a b) = combine (skipn n a) (skipn n b).
Proof.
  intros A B n. induction n as [|n IH]; intros a b; [reflexivity|].
  destruct a as [|x a]; [reflexivity|]. destruct b as [|y b]; [cbn; destruct (skipn n a); reflexivity|]. cbn. apply IH.
Qed.

Lemma in_combine_nth : forall (a b : list R) p, List.length b = List.length a -> In p (combine a b) ->
  exists i, (i < List.length a)%nat /\ p = (nth i a 0, nth i b 0).
Proof.
  intros a b p L H. apply (In_nth _ _ (0, 0)) in H. destruct H as [i [I E]].
  rewrite combine_length, L, Nat.min_id in I. exists i. split; [exact I|].
  rewrite combine_nth in E by (symmetry; exact L). symmetry. exact E.
Qed.

Lemma weighted_mean : forall (l : list (R * R)) lo hi, 0 <= lo ->
  (forall p, In p l -> fst p <> 0 -> lo <= snd p /\ snd p <= hi) ->
  lo * lo * Rsum (map (fun p => fst p * fst p) l) <= Rsum (map (fun p => (fst p * fst p) * (snd p * snd p)) l) /\
  Rsum (map (fun p => (fst p * fst p) * (snd p * snd p)) l) <= hi * hi * Rsum (map (fun p => fst p * fst p) l).
Proof.
  intros l lo hi LO H. rewrite <- !Rsum_scale. split; apply Rsum_le; intros [a f] I; cbn [fst snd].
  - destruct (Req_dec a 0) as [->|N]; [lra|]. destruct (H _ I N) as [B C]. cbn in B, C.
    assert (0 <= a * a) by nra. assert (lo * lo <= f * f) by nra. nra.
  - destruct (Req_dec a 0) as [->|N]; [lra|]. destruct (H _ I N) as [B C]. cbn in B, C.
    assert (0 <= a * a) by nra. assert (f * f <= hi * hi) by nra. nra.
Qed.

(** The effective frequency lies among the frequencies that carry something. *)
Theorem C68_effective_frequency_within : forall first h lo hi,
  List.length (h_frequencies h) = List.length (h_amplitudes h) -> 0 <= lo ->
  energy_within lo hi (skipn first (h_amplitudes h)) (skipn first (h_frequencies h)) ->
  (exists a, In a (skipn first (h_amplitudes h)) /\ a <> 0) ->
  lo <= effective_frequency first h /\ effective_frequency first h <= hi.
Proof.
  intros first h lo hi L LO W [a [IA NA]]. unfold effective_frequency. rewrite combine_skipn.
  assert (L' : List.length (skipn first (h_frequencies h)) = List.length (skipn first (h_amplitudes h)))
    by (rewrite !skipn_length, L; reflexivity).
  set (A := skipn first (h_amplitudes h)) in *. set (F := skipn first (h_frequencies h)) in *.
  assert (W' : forall p, In p (combine A F) -> fst p <> 0 -> lo <= snd p /\ snd p <= hi).
  { intros p I N. destruct (in_combine_nth _ _ _ L' I) as [i [B ->]]. cbn in *. apply W; assumption. }
  destruct (weighted_mean (combine A F) lo hi LO W') as [B1 B2].
  assert (POS : 0 < Rsum (map (fun p : R * R => fst p * fst p) (combine A F))).
  { apply (In_nth _ _ 0) in IA. destruct IA as [i [I E]].
    assert (IP : In (a, nth i F 0) (combine A F)).
    { rewrite <- E. rewrite <- (combine_nth A F i 0 0) by (symmetry; exact L'). apply nth_In.
      rewrite combine_length, L', Nat.min_id. exact I. }
    apply in_split in IP. destruct IP as [u [v ->]]. rewrite map_app, Rsum_app. cbn [map fst].
    assert (0 <= Rsum (map (fun p : R * R => fst p * fst p) u))
      by (apply Rsum_nonneg; intros x X; apply in_map_iff in X; destruct X as [q [<- _]]; nra).
    assert (0 <= Rsum (map (fun p : R * R => fst p * fst p) v))
      by (apply Rsum_nonneg; intros x X; apply in_map_iff in X; destruct X as [q [<- _]]; nra).
    assert (0 < a * a) by nra. unfold Rsum in *. cbn [fold_right]. lra. }
  destruct (Rlt_dec 0 _) as [_|C]; [|contradiction].
  set (d := Rsum (map (fun p : R * R => fst p * fst p) (combine A F))) in *.
  set (n := Rsum (map (fun p : R * R => fst p * fst p * (snd p * snd p)) (combine A F))) in *.
  assert (HI : 0 <= hi).
  { destruct (In_nth _ _ 0 IA) as [i [I E]]. rewrite <- E in NA. destruct (W i I NA). lra. }
  split.
  - rewrite <- (sqrt_Rsqr lo LO). apply sqrt_le_1_alt. unfold Rsqr.
    apply (Rmult_le_reg_r d); [exact POS|]. replace (n / d * d) with n by (field; lra). exact B1.
  - rewrite <- (sqrt_Rsqr hi HI). apply sqrt_le_1_alt. unfold Rsqr.
    apply (Rmult_le_reg_r d); [exact POS|]. replace (n / d * d) with n by (field; lra). exact B2.
Qed.

(** Leaving the direct component out never lowers it. *)
Theorem C68_ac_not_below : forall h, List.length (h_frequencies h) = List.length (h_amplitudes h) ->
  nth 0 (h_frequencies h) 0 = 0 ->
  effective_frequency 0 h <= effective_frequency 1 h.
Proof.
  intros h L Z. unfold effective_frequency. rewrite !combine_skipn. cbn [skipn].
  destruct (h_amplitudes h) as [|a A] eqn:EA; destruct (h_frequencies h) as [|f F] eqn:EF; try (cbn in L; lia).
  - cbn. lra.
  - cbn in Z. subst f. cbn [skipn combine map fst snd].
    assert (N : 0 <= Rsum (map (fun p : R * R => fst p * fst p * (snd p * snd p)) (combine A F)))
      by (apply Rsum_nonneg; intros x X; apply in_map_iff in X; destruct X as [q [<- _]];
          assert (0 <= fst q * fst q) by nra; assert (0 <= snd q * snd q) by nra; nra).
    assert (NZ : 0 <= Rsum (map (fun p : R * R => fst p * fst p) (combine A F)))
      by (apply Rsum_nonneg; intros x X; apply in_map_iff in X; destruct X as [q [<- _]]; nra).
    unfold Rsum in *. cbn [fold_right].
    set (n := fold_right Rplus 0 (map (fun p : R * R => fst p * fst p * (snd p * snd p)) (combine A F))) in *.
    set (d := fold_right Rplus 0 (map (fun p : R * R => fst p * fst p) (combine A F))) in *.
    destruct (Rlt_dec 0 d) as [D|D].
    + destruct (Rlt_dec 0 (a * a + d)) as [D'|D']; [|nra]. apply sqrt_le_1_alt.
      assert (0 <= a * a) by nra. apply (Rmult_le_reg_r ((a * a + d) * d)); [nra|].
      replace ((a * a * (0 * 0) + n) / (a * a + d) * ((a * a + d) * d)) with (n * d) by (field; lra).
      replace (n / d * ((a * a + d) * d)) with (n * (a * a + d)) by (field; lra). nra.
    + assert (d = 0) by lra.
      assert (n = 0).
      { destruct (weighted_mean (combine A F) 0 0 (Rle_refl 0)) as [_ B].
        - intros p I NP. exfalso. apply in_split in I. destruct I as [u [v E]].
          unfold d in H. rewrite E, map_app in H. change (Rsum (map (fun p : R * R => fst p * fst p) u ++ map (fun p : R * R => fst p * fst p) (p :: v)) = 0) in H.
          rewrite Rsum_app in H. cbn [map] in H.
          assert (0 <= Rsum (map (fun p : R * R => fst p * fst p) u))
            by (apply Rsum_nonneg; intros x X; apply in_map_iff in X; destruct X as [q [<- _]]; nra).
          assert (0 <= Rsum (map (fun p : R * R => fst p * fst p) v))
            by (apply Rsum_nonneg; intros x X; apply in_map_iff in X; destruct X as [q [<- _]]; nra).
          assert (0 < fst p * fst p) by nra. unfold Rsum in *. cbn [fold_right] in H. lra.
        - unfold Rsum in B. fold n d in B. lra. }
      rewrite H0. destruct (Rlt_dec 0 (a * a + d)); [|lra].
      replace ((a * a * (0 * 0) + 0) / (a * a + d)) with 0 by (field; lra). rewrite sqrt_0. lra.
Qed.

(** Sums of two equal lists weigh against each other: the mean of squares is at
    least the square of the mean. *)
Lemma sum_square : forall l, Rsqr (Rsum l) <= INR (List.length l) * Rsum (map (fun x => x * x) l).
Proof.
  induction l as [|x l IH]; [cbn; unfold Rsqr; lra|]. cbn [List.length map]. rewrite S_INR.
  unfold Rsum in *. cbn [fold_right]. set (s := fold_right Rplus 0 l) in *.
  set (q := fold_right Rplus 0 (map (fun x => x * x) l)) in *. set (n := INR (List.length l)) in *.
  assert (0 <= n) by apply pos_INR. unfold Rsqr in *.
  assert (CR : 2 * x * s <= n * (x * x) + q).
  { destruct (Req_dec n 0) as [Z|NZ].
    - assert (l = []) by (destruct l; [reflexivity|]; unfold n in Z; cbn [List.length] in Z; rewrite S_INR in Z; pose proof (pos_INR (List.length l)); lra).
      unfold s, q. subst l. cbn [map fold_right]. pose proof (Rle_0_sqr x) as SX. unfold Rsqr in SX.
      assert (0 <= n * (x * x)) by (apply Rmult_le_pos; assumption). lra.
    - assert (0 < n) by lra. apply (Rmult_le_reg_l n); [assumption|].
      pose proof (Rle_0_sqr (n * x - s)). unfold Rsqr in H1. nra. }
  nra.
Qed.

(** Average, effective value and peak come in this order. *)
Theorem C68_average_rms_peak : forall data peak, data <> [] ->
  (forall x, In x data -> Rabs x <= peak) ->
  Rabs (average_of data) <= rms_of data /\ rms_of data <= peak.
Proof.
  intros data peak NE H. unfold average_of, rms_of.
  assert (NP : 0 < INR (List.length data)) by (apply lt_0_INR; destruct data; [contradiction|cbn; lia]).
  set (n := INR (List.length data)) in *. split.
  - rewrite <- sqrt_Rsqr_abs. apply sqrt_le_1_alt. pose proof (sum_square data) as S. fold n in S. unfold Rsqr in *.
    apply (Rmult_le_reg_r (n * n)); [nra|].
    replace (Rsum data / n * (Rsum data / n) * (n * n)) with (Rsum data * Rsum data) by (field; lra).
    replace (Rsum (map (fun x => x * x) data) / n * (n * n)) with (n * Rsum (map (fun x => x * x) data)) by (field; lra).
    exact S.
  - assert (PP : 0 <= peak).
    { destruct data as [|x l]; [contradiction|]. specialize (H x (or_introl eq_refl)). pose proof (Rabs_pos x). lra. }
    rewrite <- (sqrt_Rsqr peak PP). apply sqrt_le_1_alt.
    apply (Rmult_le_reg_r n); [exact NP|]. replace (Rsum (map (fun x => x * x) data) / n * n) with (Rsum (map (fun x => x * x) data)) by (field; lra).
    assert (B : Rsum (map (fun x => x * x) data) <= Rsum (map (fun _ => Rsqr peak) data)).
    { apply Rsum_le. intros x X. specialize (H x X).
      replace (x * x) with (Rsqr (Rabs x)) by (rewrite <- Rsqr_abs; reflexivity).
      apply Rsqr_incr_1; [exact H|apply Rabs_pos|exact PP]. }
    replace (Rsqr peak * n) with (Rsum (map (fun _ : R => Rsqr peak) data)); [exact B|].
    unfold n. clear. induction data as [|x l IH]; [cbn; ring|]. cbn [List.length map]. rewrite S_INR.
    unfold Rsum in *. cbn [fold_right]. rewrite IH. ring.
Qed.

(** The effective value squared is the power in the harmonics, plus what the samples
    hold at half the sampling frequency. *)
Theorem C68_rms_from_harmonics : forall m data timed f thr samples h, (1 <= m)%nat -> (m <= 31)%nat ->
  List.length data = (2 ^ m)%nat ->
  calculate_harmonics_data data timed f false thr samples = Ok h ->
  Rsqr (rms_of data) = Rsqr (nth 0 (h_amplitudes h) 0)
    + sigma (fun i => Rsqr (nth (S i) (h_amplitudes h) 0) / 2) (2 ^ (m - 1) - 1)
    + Rsqr (alternating data).
Proof.
  intros m data timed f thr samples h M1 M2 L H. rewrite <- (C66_power m data timed f thr samples h M1 M2 L H).
  unfold rms_of, mean_square. rewrite Rsqr_sqrt; [rewrite Rsum_sigma; reflexivity|].
  assert (0 < INR (List.length data)) by (apply lt_0_INR; rewrite L; pose proof (Nat.pow_nonzero 2 m); lia).
  apply Rmult_le_pos; [|left; apply Rinv_0_lt_compat; assumption].
  apply Rsum_nonneg. intros x X. apply in_map_iff in X. destruct X as [y [<- _]]. nra.
Qed.

(** The distortion is a ratio: never negative, and the power above the fundamental
    is its square times that of the fundamental. *)
Theorem C68_distortion : forall h, 0 <= thd_of h /\
  (0 < nth 1 (h_amplitudes h) 0 ->
   Rsqr (thd_of h) * Rsqr (nth 1 (h_amplitudes h) 0) = Rsum (map Rsqr (skipn 2 (h_amplitudes h)))).
Proof.
  intros h. unfold thd_of.
  assert (N : 0 <= Rsum (map (fun a => a * a) (skipn 2 (h_amplitudes h))))
    by (apply Rsum_nonneg; intros x X; apply in_map_iff in X; destruct X as [q [<- _]]; nra).
  destruct (Rlt_dec 0 (nth 1 (h_amplitudes h) 0)) as [P|P].
  - split.
    + apply Rmult_le_pos; [apply sqrt_pos|left; apply Rinv_0_lt_compat; exact P].
    + intros _. unfold Rdiv. rewrite Rsqr_mult, Rsqr_sqrt by exact N.
      change (map Rsqr (skipn 2 (h_amplitudes h))) with (map (fun a => a * a) (skipn 2 (h_amplitudes h))). unfold Rsqr. field. lra.
  - split; [lra|]. intros B. contradiction.
Qed.

(** Everything but the size: figures of scaled harmonics. *)
Theorem C68_scale : forall first A F k, 0 < k -> List.length F = List.length A ->
  effective_frequency first (mkHarmonics (map (Rmult k) A) F) = effective_frequency first (mkHarmonics A F) /\
  thd_of (mkHarmonics (map (Rmult k) A) F) = thd_of (mkHarmonics A F).
Proof.
  intros first A F k K L. split.
  - unfold effective_frequency. cbn [h_amplitudes h_frequencies].
    assert (E : combine (map (Rmult k) A) F = map (fun p => (k * fst p, snd p)) (combine A F)).
    { clear. revert F. induction A as [|a A IH]; intros F; [reflexivity|]. destruct F as [|f F]; [reflexivity|].
      cbn. f_equal. apply IH. }
    rewrite E, skipn_map, !map_map. cbn [fst snd].
    set (l := skipn first (combine A F)).
    rewrite (Rsum_ext _ (fun p : R * R => k * fst p * (k * fst p) * (snd p * snd p)) (fun p => (k * k) * (fst p * fst p * (snd p * snd p)))) by (intros; ring).
    rewrite (Rsum_ext _ (fun p : R * R => k * fst p * (k * fst p)) (fun p => (k * k) * (fst p * fst p))) by (intros; ring).
    rewrite !Rsum_scale. set (d := Rsum (map (fun p : R * R => fst p * fst p) l)).
    assert (KK : 0 < k * k) by nra.
    destruct (Rlt_dec 0 (k * k * d)) as [B|B]; destruct (Rlt_dec 0 d) as [C|C].
    + f_equal. field. split; lra.
    + exfalso. apply C. apply (Rmult_lt_reg_l (k * k)); [exact KK|]. lra.
    + exfalso. apply B. apply Rmult_lt_0_compat; assumption.
    + reflexivity.
  - unfold thd_of. cbn [h_amplitudes].
    assert (N1 : nth 1 (map (Rmult k) A) 0 = k * nth 1 A 0).
    { rewrite <- (map_nth (Rmult k)). apply f_equal. ring. }
    rewrite N1, skipn_map, map_map.
    rewrite (Rsum_ext _ (fun x => k * x * (k * x)) (fun x => (k * k) * (x * x))) by (intros; ring).
    rewrite Rsum_scale. set (s := Rsum (map (fun x => x * x) (skipn 2 A))).
    assert (S : 0 <= s) by (apply Rsum_nonneg; intros x X; apply in_map_iff in X; destruct X as [q [<- _]]; nra).
    destruct (Rlt_dec 0 (k * nth 1 A 0)) as [B|B]; destruct (Rlt_dec 0 (nth 1 A 0)) as [C|C].
    + rewrite sqrt_mult by nra. rewrite sqrt_square by lra. field. split; lra.
    + exfalso. apply C. apply (Rmult_lt_reg_l k); [exact K|]. lra.
    + exfalso. apply B. apply Rmult_lt_0_compat; assumption.
    + reflexivity.
Qed.

(** A sinusoid of [n] cycles in a period: effective value, both effective
    frequencies and distortion are the textbook ones. *)
Theorem C68_sinusoid : forall m n o a p timed f thr samples h, (2 <= m)%nat -> (m <= 31)%nat ->
  (0 < n)%nat -> (n < 2 ^ (m - 1))%nat -> 0 < a -> 0 <= f ->
  calculate_harmonics_data (sinusoid (2 ^ m) n o a p) timed f false thr samples = Ok h ->
  effective_frequency 1 h = f * INR n /\ thd_of h = 0.
Proof.
  intros m n o a p timed f thr samples h M1 M2 N1 N2 A F H.
  destruct (C66_sinusoid m n o a p timed f thr samples h ltac:(lia) M2 N1 N2 ltac:(lra) H) as [H0 [HN HO]].
  destruct (C66_harmonics m (sinusoid (2 ^ m) n o a p) timed f thr samples h ltac:(lia) M2 (sinusoid_length _ _ _ _ _) H) as [LA [LF [FR _]]].
  split.
  - assert (W : f * INR n <= effective_frequency 1 h /\ effective_frequency 1 h <= f * INR n); [|lra].
    apply C68_effective_frequency_within.
    + lia.
    + apply Rmult_le_pos; [exact F|apply pos_INR].
    + intros i I NZ. rewrite skipn_length, LA in I.
      assert (SK : forall l, nth i (skipn 1 l) 0 = nth (S i) l 0) by (intros [|x l]; [destruct i; reflexivity|reflexivity]).
      rewrite SK in *. destruct (Nat.eq_dec (S i) n) as [E|NE].
      * rewrite E, FR by lia. lra.
      * exfalso. apply NZ, HO; lia.
    + exists a. split; [|lra]. rewrite <- HN.
      replace (nth n (h_amplitudes h) 0) with (nth (n - 1) (skipn 1 (h_amplitudes h)) 0).
      * apply nth_In. rewrite skipn_length, LA. lia.
      * destruct (h_amplitudes h) as [|x l]; [destruct n as [|[|n]]; reflexivity|].
        replace n with (S (n - 1)) at 2 by lia. reflexivity.
  - unfold thd_of. destruct (Rlt_dec 0 (nth 1 (h_amplitudes h) 0)) as [P|P]; [|reflexivity].
    assert (n = 1%nat).
    { destruct (Nat.eq_dec n 1) as [E|NE]; [exact E|]. exfalso.
      assert (1 < 2 ^ (m - 1))%nat by lia. rewrite HO in P by lia. lra. }
    subst n.
    assert (Z : Rsum (map (fun a => a * a) (skipn 2 (h_amplitudes h))) = 0).
    { rewrite Rsum_sigma. rewrite (sigma_ext _ (fun _ => 0 * 0)).
      - rewrite sigma_scale. ring.
      - intros j J. rewrite skipn_length, LA in J.
        assert (SK : forall l, nth j (skipn 2 l) 0 = nth (S (S j)) l 0).
        { intros [|x [|y l]]; [destruct j; reflexivity|destruct j; reflexivity|reflexivity]. }
        rewrite SK, HO by lia. ring. }
    rewrite Z, sqrt_0. field. lra.
Qed.

Theorem C68_sinusoid_rms : forall m n o a p, (2 <= m)%nat -> (m <= 31)%nat ->
  (0 < n)%nat -> (n < 2 ^ (m - 1))%nat -> 0 <= a ->
  Rsqr (rms_of (sinusoid (2 ^ m) n o a p)) = Rsqr o + Rsqr a / 2.
Proof.
  intros m n o a p M1 M2 N1 N2 A. set (data := sinusoid (2 ^ m) n o a p).
  assert (L : List.length data = (2 ^ m)%nat) by apply sinusoid_length.
  destruct (untrimmed m data true 1 0 128 ltac:(lia) M2 L) as [X [E [PX PD]]].
  rewrite (C68_rms_from_harmonics m data true 1 0 128 _ ltac:(lia) M2 L E).
  destruct (C66_sinusoid m n o a p true 1 0 128 _ ltac:(lia) M2 N1 N2 A E) as [H0 [HN HO]].
  rewrite H0, <- Rsqr_abs.
  assert (AL : alternating data = 0).
  { unfold alternating. rewrite L, half_pow by lia.
    assert (NH := n_half m ltac:(lia)).
    rewrite <- (proj1 (PX (2 ^ (m - 1))%nat ltac:(rewrite L; lia))). rewrite PD by (rewrite L; lia).
    set (w := cis (2 * PI / INR (2 ^ m))).
    rewrite (D_ext _ w _ (fun j => ((mkC o 0 * Cone + mkC (a / 2 * cos p) (a / 2 * sin p) * w ^ (j * (2 ^ m - n)))
      + mkC (a / 2 * cos p) (- (a / 2 * sin p)) * w ^ (j * n))%C)).
    2:{ intros j J. unfold data. rewrite sinusoid_nth by exact J.
        rewrite (sinusoid_parts m n o a p j) by lia. fold w. apply Ceq; cbn; ring. }
    rewrite D_add, D_add, !D_mul, !D_turn. rewrite !(D_constant m w Cone) by (apply w_half; lia).
    assert (Z1 : Nat.eqb (2 ^ (m - 1) mod 2 ^ m) 0 = false) by (apply Nat.eqb_neq; rewrite Nat.mod_small; lia).
    assert (Z2 : Nat.eqb ((2 ^ (m - 1) + n) mod 2 ^ m) 0 = false) by (apply Nat.eqb_neq; rewrite Nat.mod_small; lia).
    assert (Z3 : Nat.eqb ((2 ^ (m - 1) + (2 ^ m - n)) mod 2 ^ m) 0 = false).
    { apply Nat.eqb_neq. intros Z. apply Nat.mod_divide in Z; [|lia]. destruct Z as [q Z].
      assert (q = 1%nat) by nia. subst q. lia. }
    rewrite Z1, Z2, Z3. cbn. field. apply INR_pow2. }
  rewrite AL.
  rewrite (sigma_ext _ (fun i => (Rsqr a / 2) * (if Nat.eqb i (n - 1) then 1 else 0))).
  2:{ intros i I. destruct (Nat.eqb_spec i (n - 1)) as [->|NE].
      - replace (S (n - 1)) with n by lia. rewrite HN. ring.
      - rewrite HO by lia. unfold Rsqr. field. }
  rewrite sigma_scale.
  assert (ONE : forall k q, (k < q)%nat -> sigma (fun i => if Nat.eqb i k then 1 else 0) q = 1).
  { intros k q Q. induction q as [|q IH]; [lia|]. cbn [sigma]. destruct (Nat.eqb_spec q k) as [->|NE].
    - rewrite (sigma_ext _ (fun _ => 0 * 0)); [rewrite sigma_scale; ring|].
      intros j J. destruct (Nat.eqb_spec j k); [lia|]. ring.
    - rewrite IH by lia. ring. }
  rewrite ONE by lia. unfold Rsqr. ring.
Qed.

(** A waveform without fundamental is reported as undistorted, whatever else it holds. *)
Theorem C68_missing_fundamental_refuted : thd_of (mkHarmonics [0; 0; 7] [0; 1; 2]) = 0.
Proof. unfold thd_of. cbn. destruct (Rlt_dec 0 0); [lra|reflexivity]. Qed.

Example C68_witness : List.length (sinusoid (2 ^ 3) 2 1 5 0) = 8%nat /\ (2 < 2 ^ (3 - 1))%nat /\
  exists h, calculate_harmonics_data (sinusoid (2 ^ 3) 2 1 5 0) true 100 false 0 128 = Ok h /\ effective_frequency 1 h = 100 * INR 2.
Proof.
  split; [reflexivity|]. split; [cbn; lia|].
  destruct (untrimmed 3 (sinusoid (2 ^ 3) 2 1 5 0) true 100 0 128 ltac:(lia) ltac:(lia) eq_refl) as [X [E _]].
  eexists. split; [exact E|].
  apply (C68_sinusoid 3 2 1 5 0 true 100 0 128); try lia; try lra; try exact E. cbn; lia.
Qed.

Print Assumptions C67_what_is_kept.
Print Assumptions C67_trimmed_of_full.
Print Assumptions C68_effective_frequency_within.
Print Assumptions C68_ac_not_below.
Print Assumptions C68_average_rms_peak.
Print Assumptions C68_rms_from_harmonics.
Print Assumptions C68_sinusoid.
Print Assumptions C68_sinusoid_rms.
