(** Which harmonics pruning keeps (C97 of one signal, C98 of an operating point). *)
From Coq Require Import ZArith QArith List String Bool Lia Sorted Lra Lqa.
From Verif Require Import Base QAux HarmonicModel HarmonicProofs.
Import ListNotations.
Open Scope outcome_scope.
Open Scope string_scope.
Open Scope list_scope.
Open Scope Q_scope.

(** Vocabulary ([HarmonicProofs]): [line h k a f], the harmonic of index k has
    amplitude a and frequency f; [heavy root thr h k], k is at least 1 and a times
    the root of f is not negative and at least thr times that of every other harmonic
    but the first. *)

(** ** C97: one signal *)

(** the first harmonic (DC) and the heavy ones stay, in order and as they were; all
    else in the signal stays too *)
Theorem C97_signal : forall root thr s s', 0 <= thr -> prune_signal root thr None s = Ok s' ->
  exists h h' ks, s_harmonics s = Some h /\ s' = mkSignal (Some h') (s_derived s) (s_rest s) /\
    StronglySorted lt (0%nat :: ks) /\ (forall k, In k ks <-> heavy root thr h k) /\
    List.length (amplitudes h') = S (List.length ks) /\
    List.length (frequencies h') = S (List.length ks) /\
    forall i k, nth_error (0%nat :: ks) i = Some k -> exists a f, line h k a f /\ line h' i a f.
Proof.
  intros root thr s s' T H. unfold prune_signal in H. destruct (s_harmonics s) as [h|] eqn:Eh; [|discriminate].
  step H. step H. step H. injection H as <-. rename x into ks, x0 into l, x1 into r.
  destruct (main_indexes_ok root thr h ks T E) as (_ & S & M). destruct (lines_ok h l E0) as (_ & _ & L).
  apply lines_at_ok in E1. exists h, (of_lines r), ks. split; [reflexivity|]. split; [reflexivity|].
  split.
  { constructor; [exact S|]. apply Forall_forall. intros k I. apply M in I as (a & f & K & _). lia. }
  split; [exact M|]. unfold of_lines. cbn [amplitudes frequencies]. rewrite !map_length.
  rewrite <- (Forall2_length _ _ _ _ _ E1). split; [reflexivity|]. split; [reflexivity|].
  intros i k Hk. destruct (forall2_nth_l _ _ _ _ _ _ _ E1 Hk) as (x & Hx & Hl).
  exists (fst x), (snd x). split; [now apply L|]. unfold line. cbn [amplitudes frequencies].
  split; now apply map_nth_error.
Qed.

(** up to a threshold of one the heaviest harmonic is never dropped *)
Theorem C97_heaviest_kept : forall root thr s s' h j a f, 0 <= thr <= 1 ->
  prune_signal root thr None s = Ok s' -> s_harmonics s = Some h ->
  (1 <= j)%nat -> line h j a f -> 0 <= a * root f ->
  (forall j' a' f', (1 <= j')%nat -> line h j' a' f' -> a' * root f' <= a * root f) ->
  exists h' i, s_harmonics s' = Some h' /\ (1 <= i)%nat /\ line h' i a f.
Proof.
  intros root thr s s' h j a f [T0 T1] H Eh J Hl P Mx.
  destruct (C97_signal root thr s s' T0 H) as (h0 & h' & ks & E0 & -> & S & M & _ & _ & R).
  rewrite Eh in E0. injection E0 as <-.
  assert (I : In j ks).
  { apply M. exists a, f. split; [exact J|]. split; [exact Hl|]. split; [exact P|].
    intros j' a' f' J' Hl'. specialize (Mx j' a' f' J' Hl').
    destruct (Qlt_le_dec (a' * root f') 0) as [N|N].
    - assert (thr * (a' * root f') <= 0); [|lra].
      assert (thr * (a' * root f') <= thr * 0); [|lra].
      rewrite !(Qmult_comm thr). apply Qmult_le_compat_r; lra.
    - assert (thr * (a' * root f') <= 1 * (a' * root f')) by (apply Qmult_le_compat_r; lra). lra. }
  apply In_nth_error in I as (i & Hi). destruct (R (Datatypes.S i) j Hi) as (a' & f' & A & B).
  exists h', (Datatypes.S i). split; [reflexivity|]. split; [lia|].
  destruct A as [A1 A2]. destruct Hl as [L1 L2]. rewrite L1 in A1. rewrite L2 in A2. congruence.
Qed.

(** nothing is kept that was not there: every harmonic of the result is one of the
    signal *)
Lemma result_lines : forall root thr s h s' h' i a f, 0 <= thr -> prune_signal root thr None s = Ok s' ->
  s_harmonics s = Some h -> s_harmonics s' = Some h' -> line h' i a f ->
  exists k, line h k a f /\ ((1 <= i)%nat -> heavy root thr h k).
Proof.
  intros root thr s h s' h' i a f T H Eh Eh' Hl.
  destruct (C97_signal root thr s s' T H) as (h0 & h1 & ks & E0 & -> & S & M & La & _ & R).
  rewrite Eh in E0. injection E0 as <-. cbn in Eh'. injection Eh' as ->.
  assert (Hi : (i < List.length (0%nat :: ks))%nat).
  { cbn. rewrite <- La. apply nth_error_Some. destruct Hl as [L1 _]. congruence. }
  destruct (nth_error (0%nat :: ks) i) as [k|] eqn:Ek; [|apply nth_error_None in Ek; lia].
  destruct (R i k Ek) as (a' & f' & A & B). destruct Hl as [L1 L2]. destruct B as [B1 B2].
  rewrite L1 in B1. rewrite L2 in B2. injection B1 as ->. injection B2 as ->.
  exists k. split; [exact A|]. intros I. destruct i as [|i]; [lia|]. cbn in Ek. apply M. eapply nth_error_In; eauto.
Qed.

(** pruning again changes nothing *)
Theorem C97_idempotent : forall root thr s s', 0 <= thr -> prune_signal root thr None s = Ok s' ->
  prune_signal root thr None s' = Ok s'.
Proof.
  intros root thr s s' T H. destruct (C97_signal root thr s s' T H) as (h & h' & ks & Eh & Es & S & M & La & Lf & R).
  assert (El : lines h' = Ok (combine (amplitudes h') (frequencies h'))).
  { unfold lines. rewrite La, Lf, Nat.ltb_irrefl. reflexivity. }
  set (l := combine (amplitudes h') (frequencies h')) in *.
  assert (Ll : List.length l = Datatypes.S (List.length ks)) by (unfold l; rewrite combine_length, La, Lf; lia).
  destruct (lines_ok h' l El) as (_ & _ & L).
  assert (Hv : forall i, heavy root thr h' i <-> (1 <= i < Datatypes.S (List.length ks))%nat).
  { intros i. split; [intros Hi; pose proof (heavy_length _ _ _ _ Hi); destruct Hi as (? & ? & ? & _); lia|].
    intros [I1 I2]. destruct (nth_error l i) as [x|] eqn:Ex; [|apply nth_error_None in Ex; lia].
    apply L in Ex. destruct (result_lines root thr s h s' h' i (fst x) (snd x) T H Eh) as (k & Hk & Hh);
      [now rewrite Es|exact Ex|]. destruct (Hh I1) as (a & f & _ & [H1 H2] & P & Q').
    destruct Hk as [K1 K2]. rewrite K1 in H1. rewrite K2 in H2. injection H1 as <-. injection H2 as <-.
    exists (fst x), (snd x). split; [exact I1|]. split; [exact Ex|]. split; [exact P|].
    intros j a' f' J Hl'. destruct (result_lines root thr s h s' h' j a' f' T H Eh) as (k' & Hk' & Hh');
      [now rewrite Es|exact Hl'|]. apply (Q' k'); [|exact Hk']. destruct (Hh' J) as (? & ? & ? & _). assumption. }
  assert (Ek : kept root (heaviest root l * thr) (tl l) 1 = seq 1 (List.length ks)).
  { apply sorted_unique.
    - apply kept_sorted.
    - clear. generalize 1%nat. induction (List.length ks) as [|n IH]; intros b; cbn; constructor; auto.
      apply Forall_forall. intros k I. apply in_seq in I. lia.
    - intros k. rewrite (limit_heavy root thr h' l k T El), Hv, in_seq. cbn [Nat.add]. lia. }
  rewrite Es at 1. unfold prune_signal. cbn [s_harmonics]. unfold main_indexes, reference_weight. rewrite El.
  cbn [bind]. rewrite Ek.
  assert (A : forall (l : list (Q * Q)) pre, lines_at (pre ++ l) (seq (List.length pre) (List.length l)) = Ok l).
  { clear. induction l as [|x l IH]; intros pre; cbn [List.length seq lines_at]; [reflexivity|].
    unfold line_at. rewrite nth_error_app2, Nat.sub_diag by lia. cbn [nth_error bind].
    specialize (IH (pre ++ [x])). rewrite <- app_assoc, app_length in IH. cbn in IH.
    rewrite Nat.add_1_r in IH. cbn. now rewrite IH. }
  specialize (A l []). rewrite Ll in A. cbn [List.length seq app] in A. rewrite A. cbn [bind]. rewrite Es. unfold with_harmonics. cbn [s_derived s_rest].
  do 3 f_equal. unfold of_lines, l. clear -La Lf. destruct h' as [as' fs]. cbn [amplitudes frequencies] in *.
  assert (E : List.length as' = List.length fs) by congruence. clear La Lf. f_equal.
  - revert fs E. induction as' as [|a as' IH]; intros [|f fs] E; cbn in *; try discriminate; [reflexivity|]. f_equal. auto.
  - revert as' E. induction fs as [|f fs IH]; intros [|a as'] E; cbn in *; try discriminate; [reflexivity|]. f_equal. auto.
Qed.

(** a signal with harmonics, as many frequencies as amplitudes, is pruned; one
    without harmonics is refused *)
Theorem C97_accepted : forall root thr s, 0 <= thr ->
  (s_harmonics s = None -> exists m, prune_signal root thr None s = Throw m) /\
  (forall h, s_harmonics s = Some h -> amplitudes h <> [] ->
     (List.length (amplitudes h) <= List.length (frequencies h))%nat ->
     exists s', prune_signal root thr None s = Ok s').
Proof.
  intros root thr s T. unfold prune_signal. split; [intros ->; eauto|].
  intros h -> N L. unfold main_indexes, reference_weight.
  assert (El : lines h = Ok (combine (amplitudes h) (frequencies h))).
  { unfold lines. destruct (Nat.ltb_spec (List.length (frequencies h)) (List.length (amplitudes h))); [lia|reflexivity]. }
  rewrite El. cbn [bind]. set (l := combine (amplitudes h) (frequencies h)) in *.
  assert (Ll : List.length l = List.length (amplitudes h)) by (unfold l; rewrite combine_length; lia).
  destruct (lines_at_intro l (0%nat :: kept root (heaviest root l * thr) (tl l) 1)) as (r & Er).
  { intros k [<-|I].
    - rewrite Ll. clear -N. destruct (amplitudes h); [congruence|]. cbn. lia.
    - apply (limit_heavy root thr h l k T El) in I. apply heavy_length in I. lia. }
  rewrite Er. cbn [bind]. eauto.
Qed.

(** the current, the voltage and the magnetizing current of an excitation are pruned
    each by itself, and the rest stays *)
Theorem C97_excitation : forall root thr x y, prune_excitation root thr None x = Ok y ->
  x_frequency y = x_frequency x /\ x_rest y = x_rest x /\
  (x_current x = None -> x_current y = None) /\
  (forall s, x_current x = Some s -> exists s', x_current y = Some s' /\ prune_signal root thr None s = Ok s') /\
  (x_voltage x = None -> x_voltage y = None) /\
  (forall s, x_voltage x = Some s -> exists s', x_voltage y = Some s' /\ prune_signal root thr None s = Ok s') /\
  (x_magnetizing x = None -> x_magnetizing y = None) /\
  (forall s, x_magnetizing x = Some s -> exists s', x_magnetizing y = Some s' /\ prune_signal root thr None s = Ok s').
Proof.
  intros root thr x y H. unfold prune_excitation in H. step H. step H. step H. injection H as <-.
  cbn [x_frequency x_rest x_current x_voltage x_magnetizing].
  assert (A : forall o r, on_signal (prune_signal root thr None) o = Ok r ->
    (o = None -> r = None) /\ (forall s, o = Some s -> exists s', r = Some s' /\ prune_signal root thr None s = Ok s')).
  { intros [s|] r Hr; unfold on_signal in Hr.
    - step Hr. injection Hr as <-. split; [discriminate|]. intros s' Es. injection Es as <-. eauto.
    - injection Hr as <-. split; [reflexivity|discriminate]. }
  destruct (A _ _ E) as [A1 A2]. destruct (A _ _ E0) as [B1 B2]. destruct (A _ _ E1) as [C1 C2]. auto 10.
Qed.

(** harmonics without a single line are read out of range *)
Theorem C97_no_lines_refuted : exists root thr s h m,
  s_harmonics s = Some h /\ prune_signal root thr None s = UB m.
Proof.
  exists (fun x => x), (1 # 20), (mkSignal (Some (mkHarmonics [] [])) None ""). eexists _, _.
  split; reflexivity.
Qed.

(** ** C98: an operating point *)

Inductive kind := Current | Voltage | Magnetizing.
Definition signal_of (k : kind) (x : excitation) : option signal :=
  match k with Current => x_current x | Voltage => x_voltage x | Magnetizing => x_magnetizing x end.
(** the harmonics an excitation has for that kind of signal *)
Definition has (k : kind) (x : excitation) (h : harmonics) : Prop :=
  exists s, signal_of k x = Some s /\ s_harmonics s = Some h.

Lemma prune_signals_length : forall root thr main ss r, prune_signals root thr main ss = Ok r ->
  List.length r = List.length ss.
Proof.
  intros root thr main ss r H. unfold prune_signals in H. destruct (all_harmonics ss); [|now injection H as <-].
  step H. apply prune_each_ok in H. symmetry. exact (Forall2_length _ _ _ _ _ H).
Qed.

Lemma rebuild_nth : forall xs c v m i y,
  List.length c = List.length xs -> List.length v = List.length xs -> List.length m = List.length xs ->
  nth_error (rebuild xs c v m) i = Some y <->
  exists x a b d, nth_error xs i = Some x /\ nth_error c i = Some a /\ nth_error v i = Some b /\
    nth_error m i = Some d /\ y = mkExcitation (x_frequency x) a b d (x_rest x).
Proof.
  induction xs as [|x xs IH]; intros [|c1 c] [|v1 v] [|m1 m] i y Lc Lv Lm; try discriminate; cbn [rebuild].
  - destruct i; (split; [discriminate|intros (? & ? & ? & ? & ? & _); discriminate]).
  - injection Lc as Lc. injection Lv as Lv. injection Lm as Lm. destruct i as [|i]; cbn [nth_error].
    + split; [intros [= <-]; exists x, c1, v1, m1; auto|].
      intros (x' & a & b & d & [= <-] & [= <-] & [= <-] & [= <-] & ->). reflexivity.
    + now apply IH.
Qed.

Definition pruned_list (k : kind) (root : Q -> Q) (thr : Q) (xs : list excitation) :=
  prune_signals root thr None (map (signal_of k) xs).

Lemma operating_point_parts : forall root thr xs ys, prune_operating_point root thr None xs = Ok ys ->
  List.length ys = List.length xs /\
  forall k, exists r, pruned_list k root thr xs = Ok r /\
    forall i x y, nth_error xs i = Some x -> nth_error ys i = Some y ->
      x_frequency y = x_frequency x /\ x_rest y = x_rest x /\ nth_error r i = Some (signal_of k y).
Proof.
  intros root thr xs ys H. unfold prune_operating_point in H. step H. step H. step H. injection H as <-.
  pose proof (prune_signals_length _ _ _ _ _ E) as Lc. pose proof (prune_signals_length _ _ _ _ _ E0) as Lm.
  pose proof (prune_signals_length _ _ _ _ _ E1) as Lv. rewrite map_length in Lc, Lm, Lv.
  split.
  - clear -Lc Lm Lv. revert x x0 x1 Lc Lm Lv. induction xs as [|e xs IH]; intros [|c c'] [|m m'] [|v v'] Lc Lm Lv; try discriminate; cbn; auto.
  - intros k.
    assert (G : forall i e y, nth_error xs i = Some e -> nth_error (rebuild xs x x1 x0) i = Some y ->
      x_frequency y = x_frequency e /\ x_rest y = x_rest e /\ nth_error x i = Some (x_current y) /\
      nth_error x1 i = Some (x_voltage y) /\ nth_error x0 i = Some (x_magnetizing y)).
    { intros i e y He Hy. apply (proj1 (rebuild_nth xs x x1 x0 i y Lc Lv Lm)) in Hy.
      destruct Hy as (e' & a & b & d & He' & Ha & Hb & Hd & ->). rewrite He in He'. injection He' as <-. cbn. auto. }
    destruct k; [exists x|exists x1|exists x0]; (split; [assumption|]); intros i e y He Hy;
      destruct (G i e y He Hy) as (? & ? & ? & ? & ?); auto.
Qed.

(** what pruning leaves alone: the number of windings, frequencies, all the other
    fields, and every signal of a kind that some winding does not have *)
Theorem C98_untouched : forall root thr xs ys i x y, prune_operating_point root thr None xs = Ok ys ->
  List.length ys = List.length xs /\
  (nth_error xs i = Some x -> nth_error ys i = Some y ->
   x_frequency y = x_frequency x /\ x_rest y = x_rest x /\
   forall k, (exists z, In z xs /\ forall h, ~ has k z h) -> signal_of k y = signal_of k x).
Proof.
  intros root thr xs ys i x y H. destruct (operating_point_parts root thr xs ys H) as [L P].
  split; [exact L|]. intros Hx Hy. destruct (P Current) as (r0 & _ & P0). destruct (P0 i x y Hx Hy) as (A & B & _).
  split; [exact A|]. split; [exact B|]. intros k (z & Iz & Nz). destruct (P k) as (r & Er & Pr).
  destruct (Pr i x y Hx Hy) as (_ & _ & Ey). unfold pruned_list, prune_signals in Er.
  assert (N : all_harmonics (map (signal_of k) xs) = None).
  { apply all_harmonics_none. exists (signal_of k z). split; [now apply in_map|]. intros s Es.
    destruct (s_harmonics s) as [h|] eqn:Eh; [|reflexivity]. exfalso. apply (Nz h). exists s. auto. }
  rewrite N in Er. injection Er as <-. rewrite (map_nth_error _ _ _ Hx) in Ey. congruence.
Qed.

(** when every winding has the signal with harmonics, the ones kept are the first
    and those heavy in some winding; every winding ends up with one line for each,
    in order: its own, or a line without amplitude at the frequency the harmonic has
    in a winding that has it *)
Theorem C98_lines : forall root thr xs ys k, 0 <= thr -> prune_operating_point root thr None xs = Ok ys ->
  (forall x, In x xs -> exists h, has k x h) ->
  exists ks, StronglySorted lt ks /\
    (forall j, In j ks <-> exists x h, In x xs /\ has k x h /\ heavy root thr h j) /\
    forall i x y, nth_error xs i = Some x -> nth_error ys i = Some y ->
      exists s h h', signal_of k x = Some s /\ s_harmonics s = Some h /\
        signal_of k y = Some (mkSignal (Some h') (s_derived s) (s_rest s)) /\
        List.length (amplitudes h') = S (List.length ks) /\
        List.length (frequencies h') = S (List.length ks) /\
        (exists a f, line h 0 a f /\ line h' 0 a f) /\
        forall n j, nth_error ks n = Some j ->
          (forall a f, line h j a f -> line h' (S n) a f) /\
          ((List.length (amplitudes h) <= j)%nat ->
             exists z hz a f, In z xs /\ has k z hz /\ line hz j a f /\ line h' (S n) 0 f).
Proof.
  intros root thr xs ys k T H A. destruct (operating_point_parts root thr xs ys H) as [L P].
  destruct (P k) as (r & Er & Pr). unfold pruned_list, prune_signals in Er.
  destruct (all_harmonics (map (signal_of k) xs)) as [hs|] eqn:Eh.
  2:{ exfalso. apply all_harmonics_none in Eh as (s & Is & F). apply in_map_iff in Is as (x & <- & Ix).
      destruct (A x Ix) as (h & s & Es & Hs). rewrite (F s Es) in Hs. discriminate. }
  apply all_harmonics_ok in Eh. step Er. rename x into keep.
  destruct (collect_ok root thr hs [] keep T E) as (N & In1 & In2); [constructor|].
  assert (HS : forall h, In h hs <-> exists x, In x xs /\ has k x h).
  { intros h. split.
    - intros I. apply In_nth_error in I as (n & Hn). destruct (forall2_nth _ _ _ _ _ _ _ Eh Hn) as (s & Hs & x & -> & Ex).
      rewrite nth_error_map in Hs. destruct (nth_error xs n) as [e|] eqn:En; [|discriminate]. cbn in Hs.
      injection Hs as Hs. exists e. split; [eapply nth_error_In; eauto|]. exists x. auto.
    - intros (x & Ix & s & Es & Hh). apply In_nth_error in Ix as (n & Hn).
      pose proof (map_nth_error (signal_of k) _ _ Hn) as Hm. rewrite Es in Hm.
      destruct (forall2_nth_l _ _ _ _ _ _ _ Eh Hm) as (h' & Hh' & x' & [= <-] & Ex'). rewrite Hh in Ex'.
      injection Ex' as <-. eapply nth_error_In; eauto. }
  exists (map fst (sorted_pairs keep)). split; [now apply sorted_sorted|]. split.
  { intros j. rewrite in_map_iff. split.
    - intros ([j' f] & <- & I). apply (proj1 (sorted_in _ _)) in I. cbn [fst].
      assert (Ij : In j' (map fst keep)) by (apply in_map_iff; exists (j', f); split; [reflexivity|exact I]).
      apply In1 in Ij as [[]|(h & Ih & Hh)].
      apply HS in Ih as (x & Ix & Hx). exists x, h. auto.
    - intros (x & h & Ix & Hx & Hh). assert (I : In j (map fst keep)).
      { apply In1. right. exists h. split; [|exact Hh]. apply HS. eauto. }
      apply in_map_iff in I as (p & Ep & Ip). exists p. split; [exact Ep|]. now apply sorted_in. }
  intros i x y Hx Hy. destruct (Pr i x y Hx Hy) as (_ & _ & Ey). apply prune_each_ok in Er.
  destruct (forall2_nth _ _ _ _ _ _ _ Er Ey) as (s0 & Hs0 & s & h & h' & -> & Es & Et & PT & _ & _).
  rewrite (map_nth_error _ _ _ Hx) in Hs0. injection Hs0 as Hs0.
  exists s, h, h'. split; [exact Hs0|]. split; [exact Es|]. split; [congruence|].
  destruct PT as (P1 & P2 & P3 & P4). rewrite map_length. do 3 (split; [assumption|]).
  intros n j Hj. rewrite nth_error_map in Hj. destruct (nth_error (sorted_pairs keep) n) as [[j' f]|] eqn:En; [|discriminate].
  cbn in Hj. injection Hj as ->. destruct (P4 n j f En) as [B1 B2]. split; [exact B1|].
  intros G. apply nth_error_In in En. apply (proj1 (sorted_in _ _)) in En. destruct (In2 j f En) as [[]|(hz & a & Iz & Lz)].
  apply HS in Iz as (z & Iz & Hz). exists z, hz, a, f. auto.
Qed.

(** so all windings have as many lines *)
Theorem C98_aligned : forall root thr xs ys k y1 y2 h1 h2, 0 <= thr ->
  prune_operating_point root thr None xs = Ok ys ->
  (forall x, In x xs -> exists h, has k x h) ->
  In y1 ys -> In y2 ys -> has k y1 h1 -> has k y2 h2 ->
  List.length (amplitudes h1) = List.length (amplitudes h2) /\
  List.length (frequencies h1) = List.length (amplitudes h1) /\
  List.length (frequencies h2) = List.length (amplitudes h2).
Proof.
  intros root thr xs ys k y1 y2 h1 h2 T H A I1 I2 (s1 & E1 & F1) (s2 & E2 & F2).
  destruct (C98_lines root thr xs ys k T H A) as (ks & _ & _ & R).
  destruct (operating_point_parts root thr xs ys H) as [L _].
  assert (G : forall y, In y ys -> exists i x, nth_error xs i = Some x /\ nth_error ys i = Some y).
  { intros y I. apply In_nth_error in I as (i & Hi). assert (i < List.length ys)%nat by (apply nth_error_Some; congruence).
    destruct (nth_error xs i) as [x|] eqn:Ex; [exists i, x; auto|]. apply nth_error_None in Ex. lia. }
  destruct (G y1 I1) as (i1 & x1 & X1 & Y1). destruct (G y2 I2) as (i2 & x2 & X2 & Y2).
  destruct (R _ _ _ X1 Y1) as (? & ? & h1' & _ & _ & S1 & A1 & B1 & _).
  destruct (R _ _ _ X2 Y2) as (? & ? & h2' & _ & _ & S2 & A2 & B2 & _).
  rewrite E1 in S1. injection S1 as ->. cbn in F1. injection F1 as ->.
  rewrite E2 in S2. injection S2 as ->. cbn in F2. injection F2 as ->. lia.
Qed.

(** and, if a harmonic has the same frequency in all the windings that have it, the
    same frequencies *)
Theorem C98_same_frequencies : forall root thr xs ys k y1 y2 h1 h2, 0 <= thr ->
  prune_operating_point root thr None xs = Ok ys ->
  (forall x, In x xs -> exists h, has k x h) ->
  (forall x1 x2 g1 g2 j a1 f1 a2 f2, In x1 xs -> In x2 xs -> has k x1 g1 -> has k x2 g2 ->
     line g1 j a1 f1 -> line g2 j a2 f2 -> f1 = f2) ->
  In y1 ys -> In y2 ys -> has k y1 h1 -> has k y2 h2 -> frequencies h1 = frequencies h2.
Proof.
  intros root thr xs ys k y1 y2 h1 h2 T H A Gr I1 I2 (s1 & E1 & F1) (s2 & E2 & F2).
  destruct (C98_lines root thr xs ys k T H A) as (ks & _ & Kin & R).
  destruct (operating_point_parts root thr xs ys H) as [L P].
  assert (G : forall y, In y ys -> exists i x, nth_error xs i = Some x /\ nth_error ys i = Some y).
  { intros y I. apply In_nth_error in I as (i & Hi). assert (i < List.length ys)%nat by (apply nth_error_Some; congruence).
    destruct (nth_error xs i) as [x|] eqn:Ex; [exists i, x; auto|]. apply nth_error_None in Ex. lia. }
  destruct (G y1 I1) as (i1 & x1 & X1 & Y1). destruct (G y2 I2) as (i2 & x2 & X2 & Y2).
  assert (W : forall i x y s h, nth_error xs i = Some x -> nth_error ys i = Some y -> signal_of k y = Some s ->
    s_harmonics s = Some h -> List.length (frequencies h) = S (List.length ks) /\
    forall n j, nth_error (0%nat :: ks) n = Some j -> exists z g a f, In z xs /\ has k z g /\ line g j a f /\
      nth_error (frequencies h) n = Some f).
  { intros i x y s h Hx Hy Es Eh. destruct (R i x y Hx Hy) as (sx & hx & h' & Ex & Ehx & Ey & _ & Lf & (a0 & f0 & Z0 & Z1) & K).
    rewrite Es in Ey. injection Ey as ->. cbn in Eh. injection Eh as ->. split; [exact Lf|].
    assert (Ix : In x xs) by (eapply nth_error_In; eauto). assert (Hh : has k x hx) by (exists sx; auto).
    intros [|n] j Hj.
    - cbn in Hj. injection Hj as <-. exists x, hx, a0, f0. do 3 (split; [assumption|]). apply Z1.
    - cbn in Hj. destruct (K n j Hj) as [K1 K2]. destruct (Nat.le_gt_cases (List.length (amplitudes hx)) j) as [Le|Gt].
      + destruct (K2 Le) as (z & hz & a & f & Iz & Hz & Lz & Lh). exists z, hz, a, f. do 3 (split; [assumption|]). apply Lh.
      + destruct (nth_error (amplitudes hx) j) as [a|] eqn:Ea; [|apply nth_error_None in Ea; lia].
        destruct (nth_error (frequencies hx) j) as [f|] eqn:Ef.
        * destruct (K1 a f (conj Ea Ef)) as [_ Lh]. exists x, hx, a, f. split; [exact Ix|]. split; [exact Hh|]. split; [split; assumption|exact Lh].
        * exfalso. destruct (P k) as (r & Er & Pr). unfold pruned_list, prune_signals in Er.
          destruct (Pr i x y Hx Hy) as (_ & _ & Er').
          destruct (all_harmonics (map (signal_of k) xs)) as [hs|] eqn:Ea'.
          2:{ apply all_harmonics_none in Ea' as (s' & Is & F). apply in_map_iff in Is as (x' & <- & Ix').
              destruct (A x' Ix') as (h0 & s0 & Es0 & Hs0). rewrite (F s0 Es0) in Hs0. discriminate. }
          step Er. apply prune_each_ok in Er. destruct (forall2_nth _ _ _ _ _ _ _ Er Er') as (s0 & Hs0 & s & h1' & h2' & -> & Es' & _ & _ & (l & El) & _).
          rewrite (map_nth_error _ _ _ Hx) in Hs0. injection Hs0 as Hs0. rewrite Ex in Hs0. injection Hs0 as <-.
          rewrite Ehx in Es'. injection Es' as <-. destruct (lines_ok hx l El) as (Le & _ & _).
          apply nth_error_None in Ef. lia. }
  destruct (W _ _ _ _ _ X1 Y1 E1 F1) as [L1 W1]. destruct (W _ _ _ _ _ X2 Y2 E2 F2) as [L2 W2].
  assert (Ext : forall l l' : list Q, List.length l = List.length l' ->
    (forall n a b, nth_error l n = Some a -> nth_error l' n = Some b -> a = b) -> l = l').
  { clear. induction l as [|a l IH]; intros [|b l'] Ln G; try discriminate; [reflexivity|]. f_equal.
    - apply (G 0%nat); reflexivity.
    - apply IH; [now injection Ln|]. intros n a' b' Ha Hb. apply (G (S n)); assumption. }
  apply Ext; [congruence|]. intros n a b Ha Hb.
  assert (Hn : (n < List.length (0%nat :: ks))%nat).
  { cbn. rewrite <- L1. apply nth_error_Some. congruence. }
  destruct (nth_error (0%nat :: ks) n) as [j|] eqn:Ej; [|apply nth_error_None in Ej; lia].
  destruct (W1 n j Ej) as (z1 & g1 & b1 & f1 & Z1 & G1 & N1 & O1). destruct (W2 n j Ej) as (z2 & g2 & b2 & f2 & Z2 & G2 & N2 & O2).
  pose proof (Gr _ _ _ _ _ _ _ _ _ Z1 Z2 G1 G2 N1 N2). congruence.
Qed.

(** pruning goes through whenever every winding that must be pruned has at least one
    line and as many frequencies as amplitudes *)
Theorem C98_accepted : forall root thr xs, 0 <= thr ->
  (forall k x h, In x xs -> has k x h -> amplitudes h <> [] /\
     (List.length (amplitudes h) <= List.length (frequencies h))%nat) ->
  exists ys, prune_operating_point root thr None xs = Ok ys.
Proof.
  intros root thr xs T W.
  assert (G : forall k, exists r, pruned_list k root thr xs = Ok r).
  { intros k. unfold pruned_list, prune_signals. destruct (all_harmonics (map (signal_of k) xs)) as [hs|] eqn:Eh; [|eauto].
    apply all_harmonics_ok in Eh.
    assert (HS : forall s, In s (map (signal_of k) xs) -> exists x h, s = Some x /\ s_harmonics x = Some h /\
      lines h = Ok (combine (amplitudes h) (frequencies h)) /\ combine (amplitudes h) (frequencies h) <> []).
    { intros s I. apply In_nth_error in I as (n & Hn). destruct (forall2_nth_l _ _ _ _ _ _ _ Eh Hn) as (h & _ & x & -> & Ex).
      exists x, h. split; [reflexivity|]. split; [exact Ex|].
      apply nth_error_In in Hn. apply in_map_iff in Hn as (e & Ee & Ie).
      destruct (W k e h Ie) as [N L]; [exists x; auto|]. unfold lines.
      destruct (Nat.ltb_spec (List.length (frequencies h)) (List.length (amplitudes h))); [lia|]. split; [reflexivity|].
      destruct (amplitudes h); [congruence|]. destruct (frequencies h); cbn in *; [lia|discriminate]. }
    destruct (collect_intro root thr hs [] T) as (keep & Ek).
    { intros h I. apply In_nth_error in I as (n & Hn). destruct (forall2_nth _ _ _ _ _ _ _ Eh Hn) as (s & Hs & x & -> & Ex).
      apply nth_error_In in Hs. destruct (HS _ Hs) as (x' & h' & [= <-] & Ex' & El & _). rewrite Ex in Ex'. injection Ex' as <-. eauto. }
    rewrite Ek. cbn [bind]. apply prune_each_intro. intros s I. destruct (HS s I) as (x & h & ? & ? & ? & ?).
    exists x, h, (combine (amplitudes h) (frequencies h)). auto. }
  unfold prune_operating_point. destruct (G Current) as (c & Ec). destruct (G Voltage) as (v & Ev). destruct (G Magnetizing) as (m & Em).
  unfold pruned_list in *. cbn [signal_of] in *.
  change (fun x => x_current x) with x_current in *.
  rewrite (Ec : prune_signals root thr None (map x_current xs) = Ok c),
    (Em : prune_signals root thr None (map x_magnetizing xs) = Ok m),
    (Ev : prune_signals root thr None (map x_voltage xs) = Ok v). cbn [bind]. eauto.
Qed.

(** ** Concrete cases *)

(** close enough to a square root for the cases below *)
Definition rough (f : Q) : Q := if Qle_bool f 100000 then 316 else if Qle_bool f 300000 then 548 else 707.
Definition primary_current : signal :=
  mkSignal (Some (mkHarmonics [1; 4; 1 # 100; 1] [0; 100000; 200000; 300000])) None "primary".
Definition secondary_current : signal :=
  mkSignal (Some (mkHarmonics [0; 8; 1] [0; 100000; 200000])) None "secondary".
Definition idle_current : signal :=
  mkSignal (Some (mkHarmonics [0; 0; 0; 0] [0; 100000; 200000; 300000])) None "idle".
Definition driven (c : signal) : excitation := mkExcitation 100000 (Some c) None None "".

Example C97_witness :
  0 <= 1 # 20 <= 1 /\
  match prune_signal rough (1 # 20) None primary_current with
  | Ok s => s_harmonics s = Some (mkHarmonics [1; 4; 1] [0; 100000; 300000])
  | _ => False
  end.
Proof. split; [lra|]. vm_compute. reflexivity. Qed.

Example C98_witness :
  (forall x, In x [driven primary_current; driven secondary_current] -> exists h, has Current x h) /\
  match prune_operating_point rough (1 # 20) None [driven primary_current; driven secondary_current] with
  | Ok [y1; y2] =>
      option_map s_harmonics (x_current y1) = Some (Some (mkHarmonics [1; 4; 1 # 100; 1] [0; 100000; 200000; 300000])) /\
      option_map s_harmonics (x_current y2) = Some (Some (mkHarmonics [0; 8; 1; 0] [0; 100000; 200000; 300000]))
  | _ => False
  end.
Proof.
  split.
  - intros x [<-|[<-|[]]]; eexists; eexists; split; reflexivity.
  - vm_compute. auto.
Qed.

(** a winding that carries no AC has no heaviest harmonic, so that all of its
    harmonics stay, in all of the windings: pruning does nothing *)
Theorem C98_idle_winding_refuted : exists root thr x idle,
  0 < thr < 1 /\
  (exists h a f, has Current x h /\ line h 2 a f /\ ~ heavy root thr h 2) /\
  (forall h j a f, has Current idle h -> line h j a f -> a = 0) /\
  prune_operating_point root thr None [x; idle] = Ok [x; idle] /\
  exists x', prune_operating_point root thr None [x] = Ok [x'] /\ x' <> x.
Proof.
  exists rough, (1 # 20), (driven primary_current), (driven idle_current). split; [lra|]. split; [|split; [|split]].
  - exists (mkHarmonics [1; 4; 1 # 100; 1] [0; 100000; 200000; 300000]), (1 # 100), 200000.
    split; [exists primary_current; split; reflexivity|]. split; [split; reflexivity|].
    intros (a & f & _ & [Ha Hf] & _ & G). cbn in Ha, Hf. injection Ha as <-. injection Hf as <-.
    specialize (G 1%nat 4 100000 (Nat.le_refl _) (conj eq_refl eq_refl)). vm_compute in G. apply G. reflexivity.
  - intros h j a f (s & [= <-] & [= <-]) [Ha _]. cbn in Ha.
    do 4 (destruct j as [|j]; [cbn in Ha; congruence|]). destruct j; discriminate.
  - vm_compute. reflexivity.
  - eexists. split; [vm_compute; reflexivity|]. intros E. discriminate E.
Qed.

Print Assumptions C97_signal.
Print Assumptions C97_heaviest_kept.
Print Assumptions C97_idempotent.
Print Assumptions C97_accepted.
Print Assumptions C97_no_lines_refuted.
Print Assumptions C98_untouched.
Print Assumptions C98_lines.
Print Assumptions C98_aligned.
Print Assumptions C98_same_frequencies.
Print Assumptions C98_accepted.
Print Assumptions C98_idle_winding_refuted.
