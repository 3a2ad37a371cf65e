(** The mesh of a coil: which harmonics it has and what its fields hold (C99). *)
From Coq Require Import ZArith QArith List String Bool Lia Sorted Lra Lqa.
From Verif Require Import Base QAux HarmonicModel HarmonicProofs MeshProofs.
Import ListNotations.
Open Scope outcome_scope.
Open Scope string_scope.
Open Scope list_scope.
Open Scope Q_scope.

(** Vocabulary ([HarmonicProofs], [MeshProofs]): [line], [heavy], [has_ac]: some
    harmonic but the first weighs something; [current_harmonics x h]; [wanted root
    thr xs k]: k is heavy in some winding with AC; [tripled n thr]: thr times three
    to the n. *)

(** ** Which harmonics *)

Lemma ac_heavy : forall root thr h l, 0 <= thr <= 1 -> lines h = Ok l -> has_ac root h -> exists k, heavy root thr h k.
Proof.
  intros root thr h l [T0 T] El A. destruct (heaviest_facts root h l El) as (P & M & [Z0|(j & a & f & J & Hl & E)]).
  - exfalso. apply (proj1 (heaviest_ac root h l El)) in A. apply A. now rewrite Z0.
  - exists j, a, f. split; [exact J|]. split; [exact Hl|]. rewrite <- E. split; [exact P|].
    intros j' a' f' J' Hl'. specialize (M j' a' f' J' Hl').
    destruct (Qlt_le_dec 0 (a' * root f')) as [Pos|Neg].
    + assert (thr * (a' * root f') <= 1 * (a' * root f')) by (apply Qmult_le_compat_r; lra). lra.
    + assert (thr * (a' * root f') <= 0); [|lra].
      assert ((a' * root f') * thr <= 0 * thr) by (apply Qmult_le_compat_r; lra). lra.
Qed.

(** when no winding has more harmonics than the first, as after pruning, the
    harmonics meshed are exactly those heavy in some winding *)
Theorem C99_harmonics : forall root fuel thr xs ks x h, 0 <= thr <= 1 ->
  common_indexes root fuel thr xs = Ok ks ->
  (forall y g, In y xs -> current_harmonics y g ->
     forall p rest s hp, xs = p :: rest -> x_current p = Some s -> s_harmonics s = Some hp ->
     (List.length (amplitudes g) <= List.length (amplitudes hp))%nat) ->
  In x xs -> current_harmonics x h -> has_ac root h ->
  NoDup ks /\ forall k, In k ks <-> wanted root thr xs k.
Proof.
  intros root fuel thr xs ks x h [T0 T1] H Sz Ix Hx Ac. 
  destruct (common_indexes_ok root fuel thr xs ks T0 H) as (N & n & G & D & F). split; [exact N|].
  assert (n = 0%nat) as ->.
  { destruct n as [|n]; [reflexivity|]. exfalso. destruct (F 0%nat) as (l & p & rest & s & hp & Nl & Ml & Exs & Ep & Ehp & Lt); [lia|].
    cbn [tripled] in Ml.
    assert (List.length l <= List.length (seq 1 (List.length (amplitudes hp) - 1)))%nat.
    { apply NoDup_incl_length; [exact Nl|]. intros k K. apply Ml in K as (y & g & Iy & Hy & _ & Hk).
      specialize (Sz y g Iy Hy p rest s hp Exs Ep Ehp). pose proof (heavy_length _ _ _ _ Hk).
      destruct Hk as (? & ? & ? & _). apply in_seq. lia. }
    rewrite seq_length in H0. lia. }
  cbn [tripled] in D. destruct D as [(_ & M & _)|(Nw & _)]; [exact M|].
  exfalso. destruct (G x Ix) as (h' & l & Hh' & El).
  assert (h' = h) as ->.
  { destruct Hx as (s & Ex & Dx). destruct Hh' as (s' & Ex' & D'). rewrite Ex in Ex'. injection Ex' as <-.
    destruct Dx as [Dx|[D1 D2]], D' as [D'|[D1' D2']]; congruence. }
  destruct (ac_heavy root thr h l (conj T0 T1) El Ac) as (k & Hk). apply (Nw k). exists x, h. auto.
Qed.

(** some winding has a harmonic after the first one, of positive frequency *)
Definition some_fundamental (xs : list excitation) : Prop :=
  exists x s h f, In x xs /\ x_current x = Some s /\ s_harmonics s = Some h /\
    nth_error (frequencies h) 1 = Some f /\ 0 < f.
Lemma fundamental_iff : forall x, has_fundamental x = true <->
  exists s h f, x_current x = Some s /\ s_harmonics s = Some h /\ nth_error (frequencies h) 1 = Some f /\ 0 < f.
Proof.
  intros x. unfold has_fundamental. split.
  - destruct (x_current x) as [s|]; [|discriminate]. destruct (s_harmonics s) as [h|] eqn:Eh; [|discriminate].
    destruct (frequencies h) as [|f0 [|f fs]] eqn:Ef; try discriminate. intros L. exists s, h, f.
    rewrite Ef. repeat split; try reflexivity; try assumption. unfold Qlt_bool in L.
    apply negb_true_iff in L. destruct (Qlt_le_dec 0 f) as [P|P]; [exact P|].
    apply Qle_bool_iff in P. congruence.
  - intros (s & h & f & -> & -> & E & P). destruct (frequencies h) as [|f0 [|f1 fs]]; try discriminate.
    cbn in E. injection E as ->. unfold Qlt_bool. apply negb_true_iff.
    destruct (Qle_bool f 0) eqn:Q'; [|reflexivity]. apply Qle_bool_iff in Q'. lra.
Qed.

(** whatever the windings have, the harmonics meshed are those heavy at the
    threshold times a power of three, not more than the first winding has lines; or,
    when none is, the fundamental if some winding has one *)
Theorem C99_any_windings : forall root fuel thr xs ks, 0 <= thr -> common_indexes root fuel thr xs = Ok ks ->
  NoDup ks /\ exists n,
    (forall k, In k ks <-> wanted root (tripled n thr) xs k) /\
    (forall p rest s h, ks <> [] -> xs = p :: rest -> x_current p = Some s -> s_harmonics s = Some h ->
       (List.length ks <= List.length (amplitudes h))%nat) \/
    (forall k, ~ wanted root (tripled n thr) xs k) /\
    (ks = [1%nat] /\ some_fundamental xs \/ ks = [] /\ ~ some_fundamental xs).
Proof.
  intros root fuel thr xs ks T H. destruct (common_indexes_ok root fuel thr xs ks T H) as (N & n & _ & D & _).
  split; [exact N|]. exists n. destruct D as [(_ & M & p & rest & s & h & E1 & E2 & E3 & L)|[R1 R2]]; [left|right].
  2:{ split; [exact R1|]. subst ks. destruct (existsb has_fundamental xs) eqn:F; [left|right]; (split; [reflexivity|]).
      - apply existsb_exists in F as (x & I & G). apply fundamental_iff in G as (s & h & f & G). exists x, s, h, f. tauto.
      - intros (x & s & h & f & I & G). assert (X : existsb has_fundamental xs = true); [|congruence].
        apply existsb_exists. exists x. split; [exact I|]. apply fundamental_iff. exists s, h, f. exact G. }
  split; [exact M|]. intros p' rest' s' h' _ F1 F2 F3. rewrite E1 in F1. injection F1 as <- <-. congruence.
Qed.

Lemma tripled_grows : forall n thr, 0 <= thr -> inject_Z (Z.of_nat (S n)) * thr <= tripled n thr.
Proof.
  induction n as [|n IH]; intros thr T; cbn [tripled]; [change (inject_Z (Z.of_nat 1)) with 1; lra|].
  assert (T3 : 0 <= thr * 3) by lra. specialize (IH (thr * 3) T3).
  assert (E : inject_Z (Z.of_nat (S (S n))) == inject_Z (Z.of_nat (S n)) + 1).
  { rewrite (Nat2Z.inj_succ (S n)). unfold Z.succ. rewrite inject_Z_plus. reflexivity. }
  assert (P : 1 <= inject_Z (Z.of_nat (S n))).
  { change 1 with (inject_Z 1). rewrite <- Zle_Qle. lia. }
  set (c := inject_Z (Z.of_nat (S n))) in *. rewrite E.
  assert (1 * thr <= c * thr) by (apply Qmult_le_compat_r; lra). lra.
Qed.
Lemma tripled_above : forall thr, 0 < thr -> exists n, 1 < tripled n thr.
Proof.
  intros [p q] T. exists (Pos.to_nat q). pose proof (tripled_grows (Pos.to_nat q) (p # q)) as G.
  eapply Qlt_le_trans; [|apply G; lra]. rewrite Nat2Z.inj_succ, positive_nat_Z.
  unfold Qlt, Qmult, inject_Z in *. cbn [Qnum Qden] in *. rewrite Pos.mul_1_l. unfold Z.succ. nia.
Qed.

(** for a positive threshold the search for harmonics ends *)
Theorem C99_ends : forall root thr xs, 0 < thr ->
  (forall x, In x xs -> exists s h l, x_current x = Some s /\ s_harmonics s = Some h /\ lines h = Ok l) ->
  exists fuel ks, common_indexes root fuel thr xs = Ok ks.
Proof.
  intros root thr xs T W. destruct (tripled_above thr T) as (n & G). exists (S n).
  apply common_indexes_ends; [lra|exact G|exact W].
Qed.

(** ** What the fields hold *)

Definition winding_harmonics (xs : list excitation) (w : nat) (h : harmonics) : Prop :=
  exists x s, nth_error xs w = Some x /\ x_current x = Some s /\ s_harmonics s = Some h.
(** the direction of the current of a winding: the one given, or one way in the first
    and the other way in the rest *)
Definition direction_of (custom : option (list Q)) (w : nat) (d : Q) : Prop :=
  match custom with
  | Some l => nth_error l w = Some d
  | None => d = if (w =? 0)%nat then 1 else -1
  end.
(** the frequency of a harmonic: that in the first winding that has it *)
Definition frequency_is (xs : list excitation) (k : nat) (f : Q) : Prop :=
  exists w h, winding_harmonics xs w h /\ nth_error (frequencies h) k = Some f /\
    forall w' h', (w' < w)%nat -> winding_harmonics xs w' h' -> (List.length (frequencies h') <= k)%nat.
(** what a turn brings to the field of harmonic k: the points of its wire, scaled by
    the peak of the harmonic in its winding, its share of the current and the
    direction *)
Definition brings (xs : list excitation) (custom : option (list Q)) (k : nat) (t : mesh_turn) (ps' : list point) : Prop :=
  exists h ps d, winding_harmonics xs (mt_winding t) h /\ mt_inducing t = Ok ps /\ direction_of custom (mt_winding t) d /\
    ps' = map (fun p => mkPoint (pt_x p) (pt_y p)
                 (pt_value p * (nth k (amplitudes h) 0 * mt_share t * d)) (pt_turn p)) ps.

Lemma turn_harmonics_ok : forall xs w h, turn_harmonics xs w = Ok h -> winding_harmonics xs w h.
Proof.
  intros xs w h H. unfold turn_harmonics in H. destruct (nth_error xs w) as [x|] eqn:E; [|discriminate].
  destruct (x_current x) as [s|] eqn:E2; [|discriminate]. destruct (s_harmonics s) as [h'|] eqn:E3; [|discriminate].
  injection H as ->. exists x, s. auto.
Qed.
Lemma frequency_of_ok : forall xs k f, frequency_of xs k = Ok f ->
  frequency_is xs k f \/
  f = 0 /\ forall w h, winding_harmonics xs w h -> (List.length (frequencies h) <= k)%nat.
Proof.
  induction xs as [|x xs IH]; intros k f H; cbn [frequency_of] in H.
  { injection H as <-. right. split; [reflexivity|]. intros [|w] h (x & s & E & _); discriminate. }
  destruct (x_current x) as [s|] eqn:E; [|discriminate]. destruct (s_harmonics s) as [h|] eqn:E2; [|discriminate].
  destruct (nth_error (frequencies h) k) as [g|] eqn:Ek.
  - injection H as ->. left. exists 0%nat, h. split; [exists x, s; auto|]. split; [exact Ek|]. intros; lia.
  - apply nth_error_None in Ek. apply IH in H as [(w & hw & (y & t & A1 & A2 & A3) & B & C)|[-> C]]; [left|right].
    + exists (S w), hw. split; [exists y, t; auto|]. split; [exact B|]. intros [|w'] h' Lt (y' & t' & D1 & D2 & D3).
      * cbn in D1. injection D1 as <-. rewrite E in D2. injection D2 as <-. rewrite E2 in D3. now injection D3 as <-.
      * apply (C w' h'); [lia|]. exists y', t'. auto.
    + split; [reflexivity|]. intros [|w'] h' (y' & t' & D1 & D2 & D3).
      * cbn in D1. injection D1 as <-. rewrite E in D2. injection D2 as <-. rewrite E2 in D3. now injection D3 as <-.
      * apply (C w' h'). exists y', t'. auto.
Qed.
Lemma directions_ok : forall custom windings w d, directions custom windings w = Ok d -> direction_of custom w d.
Proof.
  intros [l|] windings w d H; unfold directions in H; unfold direction_of.
  - destruct (nth_error l w); congruence.
  - destruct (w =? 0)%nat; [congruence|]. destruct (w <? windings)%nat; congruence.
Qed.

Lemma concat_empty : forall xs dir k k' ts pss pss', Forall2 (adds xs dir k) ts pss -> Forall2 (adds xs dir k') ts pss' ->
  List.concat pss = [] -> List.concat pss' = [].
Proof.
  intros xs dir k k' ts pss pss' F. revert pss'. induction F as [|t ps ts pss (h & p & d & A & B & C & ->) F IH]; intros pss' F' E.
  - inversion F'. reflexivity.
  - inversion F' as [|? ps' ? pss'' (h' & p' & d' & A' & B' & C' & ->) F'']; subst. cbn [List.concat] in *.
    apply app_eq_nil in E as [E1 E2]. rewrite (IH _ F'' E2), app_nil_r. apply map_eq_nil in E1. subst p.
    rewrite B in B'. now injection B' as <-.
Qed.

Lemma inducing_fields : forall root fuel fuel' thr custom windings xs ts fs, 0 <= thr ->
  mesh_inducing root fuel fuel' thr custom windings xs ts = Ok fs ->
  exists ks, common_indexes root fuel thr xs = Ok ks /\
    Forall2 (fun k f => frequency_of xs k = Ok (f_frequency f) /\ ~ f_frequency f == 0 /\
       exists pss, Forall2 (adds xs (directions custom windings) k) ts pss /\ f_data f = List.concat pss /\ f_data f <> [])
      (ascending ks) fs.
Proof.
  intros root fuel fuel' thr custom windings xs ts fs T H. unfold mesh_inducing in H. step H. step H. step H. step H.
  rename x into ks, x0 into m0, x1 into m, x2 into r.
  assert (fs = r /\ r <> []) as [-> NE] by (destruct r; [discriminate|injection H as <-; split; [reflexivity|discriminate]]).
  destruct (common_indexes_ok root fuel thr xs ks T E) as (N & _).
  destruct (empty_fields_ok true xs ks [] m0 E0 N) as (K0 & V0 & _); [intros k _ []|]. cbn in K0.
  destruct (inducing_turns_ok xs _ ks ts m0 m E1 N) as (K1 & V1 & _); [intros k I; now rewrite K0|].
  exists ks. split; [exact E|].
  assert (ND : NoDup (map fst m)) by (rewrite K1, K0; exact N).
  assert (KI : forall k, In k (map fst m) <-> In k ks) by (intros k; rewrite K1, K0; reflexivity).
  assert (DN : forall k, In k ks -> f_data (get_field m k) <> []).
  { intros k I Z0. apply NE. eapply in_order_none; [exact ND| |exact E2]. intros j J. apply KI in J.
    destruct (V1 k I) as (pk & Fk & Gk). destruct (V1 j J) as (pj & Fj & Gj).
    destruct (V0 k I) as (fk & _ & _ & Hk). destruct (V0 j J) as (fj & _ & _ & Hj).
    rewrite Gk, Hk in Z0. rewrite Gj, Hj. cbn in *. exact (concat_empty _ _ _ _ _ _ _ Fk Fj Z0). }
  rewrite (in_order_all fuel' ks m r ND KI DN E2).
  assert (A : forall l, (forall k, In k l -> In k ks) -> Forall2 (fun k f => frequency_of xs k = Ok (f_frequency f) /\
    ~ f_frequency f == 0 /\ exists pss, Forall2 (adds xs (directions custom windings) k) ts pss /\
      f_data f = List.concat pss /\ f_data f <> []) l (map (get_field m) l)).
  { induction l as [|k l IH]; intros I; cbn; [constructor|]. constructor; [|apply IH; intros; apply I; now right].
    assert (Ik : In k ks) by (apply I; now left). destruct (V1 k Ik) as (pk & Fk & Gk). destruct (V0 k Ik) as (fk & Qk & Ck & Hk).
    pose proof (DN k Ik) as Dk. rewrite Gk in *. rewrite Hk in *. cbn in *. split; [exact Qk|]. split; [apply Ck; reflexivity|].
    exists pk. auto. }
  apply A. intros k K. now apply ascending_in.
Qed.

(** the inducing mesh has one field per harmonic, in increasing order; its frequency
    is the harmonic's and is not zero, its points are what each turn brings *)
Theorem C99_inducing : forall root fuel fuel' thr custom windings xs ts fs, 0 <= thr ->
  mesh_inducing root fuel fuel' thr custom windings xs ts = Ok fs ->
  exists ks sorted, common_indexes root fuel thr xs = Ok ks /\
    StronglySorted lt sorted /\ (forall k, In k sorted <-> In k ks) /\
    Forall2 (fun k f => frequency_is xs k (f_frequency f) /\ ~ f_frequency f == 0 /\
      exists pss, Forall2 (brings xs custom k) ts pss /\ f_data f = List.concat pss /\ f_data f <> []) sorted fs.
Proof.
  intros root fuel fuel' thr custom windings xs ts fs T H.
  destruct (inducing_fields root fuel fuel' thr custom windings xs ts fs T H) as (ks & E & F).
  exists ks, (ascending ks). split; [exact E|]. split; [apply ascending_sorted|]. split; [apply ascending_in|].
  clear H E. induction F as [|k f l fs' (A & B & pss & C & D & D') F IH]; [constructor|]. constructor; [|exact IH]. split.
  { apply frequency_of_ok in A as [A|[A _]]; [exact A|]. exfalso. apply B. now rewrite A. }
  split; [exact B|]. exists pss. split; [|auto]. clear -C.
  induction C as [|t ps ts pss (h & p & d & A & B & C & ->) F IH]; [constructor|]. constructor; [|exact IH].
  exists h, p, d. split; [now apply turn_harmonics_ok|]. split; [exact B|]. split; [eapply directions_ok; exact C|reflexivity].
Qed.

Lemma induced_fields : forall root fuel fuel' thr xs ts fs, 0 <= thr ->
  mesh_induced root fuel fuel' thr xs ts = Ok fs ->
  exists ks pss, common_indexes root fuel thr xs = Ok ks /\
    Forall2 (fun t ps => mt_induced t = Ok ps) ts pss /\
    ((List.concat pss = [] /\ fs = []) \/
     (List.concat pss <> [] /\
      Forall2 (fun k f => frequency_of xs k = Ok (f_frequency f) /\ f_data f = List.concat pss) (ascending ks) fs)).
Proof.
  intros root fuel fuel' thr xs ts fs T H. unfold mesh_induced in H. step H. step H. step H.
  rename x into ks, x0 into m0, x1 into m.
  destruct (common_indexes_ok root fuel thr xs ks T E) as (N & _).
  destruct (empty_fields_ok false xs ks [] m0 E0 N) as (K0 & V0 & _); [intros k _ []|]. cbn in K0.
  destruct (induced_turns_ok xs ks ts m0 m E1 N) as (pss & F & K1 & V1 & _); [intros k I; now rewrite K0|].
  exists ks, pss. split; [exact E|]. split; [exact F|].
  assert (ND : NoDup (map fst m)) by (rewrite K1, K0; exact N).
  assert (KI : forall k, In k (map fst m) <-> In k ks) by (intros k; rewrite K1, K0; reflexivity).
  assert (G : forall k, In k ks -> exists f, frequency_of xs k = Ok f /\ get_field m k = mkField f (List.concat pss)).
  { intros k I. destruct (V0 k I) as (f & A & _ & B). exists f. split; [exact A|]. rewrite (V1 k I), B. reflexivity. }
  destruct (List.concat pss) as [|p ps] eqn:Z0.
  - left. split; [reflexivity|]. eapply in_order_none; [exact ND| |exact H]. intros k K. apply KI in K.
    destruct (G k K) as (f & _ & ->). reflexivity.
  - right. split; [discriminate|].
    rewrite (in_order_all fuel' ks m fs ND KI); [|intros k K; destruct (G k K) as (f & _ & ->); discriminate|exact H].
    assert (A : forall l, (forall k, In k l -> In k ks) -> Forall2 (fun k f => frequency_of xs k = Ok (f_frequency f) /\
      f_data f = p :: ps) l (map (get_field m) l)).
    { induction l as [|k l IH]; intros I; cbn; [constructor|]. constructor; [|apply IH; intros; apply I; now right].
      destruct (G k) as (f & Hf & ->); [apply I; now left|]. cbn. auto. }
    apply A. intros k K. now apply ascending_in.
Qed.

(** the induced mesh has, for each harmonic in increasing order, the same points:
    all those of all the turns *)
Theorem C99_induced : forall root fuel fuel' thr xs ts fs, 0 <= thr ->
  mesh_induced root fuel fuel' thr xs ts = Ok fs -> fs <> [] ->
  exists ks sorted pss, common_indexes root fuel thr xs = Ok ks /\
    StronglySorted lt sorted /\ (forall k, In k sorted <-> In k ks) /\
    Forall2 (fun t ps => mt_induced t = Ok ps) ts pss /\
    Forall2 (fun k f => (frequency_is xs k (f_frequency f) \/ f_frequency f = 0) /\ f_data f = List.concat pss) sorted fs.
Proof.
  intros root fuel fuel' thr xs ts fs T H NE.
  destruct (induced_fields root fuel fuel' thr xs ts fs T H) as (ks & pss & E & F & [[_ ->]|[_ G]]); [congruence|].
  exists ks, (ascending ks), pss. split; [exact E|]. split; [apply ascending_sorted|]. split; [apply ascending_in|].
  split; [exact F|]. clear -G. induction G as [|k f l fs' (A & B) G IH]; [constructor|]. constructor; [|exact IH]. split; [|exact B].
  apply frequency_of_ok in A as [A|[A _]]; auto.
Qed.

(** the two meshes go together: the same frequencies, in the same places *)
Theorem C99_aligned : forall root fuel fuel1 fuel2 fuel3 thr custom windings xs ts ts' inducing induced, 0 <= thr ->
  mesh_inducing root fuel fuel1 thr custom windings xs ts = Ok inducing ->
  mesh_induced root fuel2 fuel3 thr xs ts' = Ok induced -> induced <> [] ->
  map f_frequency induced = map f_frequency inducing.
Proof.
  intros root fuel fuel1 fuel2 fuel3 thr custom windings xs ts ts' A B T HA HB NE.
  destruct (inducing_fields _ _ _ _ _ _ _ _ _ T HA) as (ks & E & F).
  destruct (induced_fields _ _ _ _ _ _ _ T HB) as (ks' & pss & E' & _ & [[_ ->]|[_ G]]); [congruence|].
  assert (M : forall f g t k k', common_indexes root f t xs = Ok k -> common_indexes root g t xs = Ok k' -> k = k').
  { clear. induction f as [|f IH]; intros [|g] t k k' H H'; try discriminate. cbn [common_indexes] in H, H'.
    destruct (union_indexes root t None xs []) as [u| | |]; try discriminate. cbn [bind] in H, H'.
    destruct u as [|a u]; [congruence|]. destruct xs as [|x rest]; [discriminate|].
    destruct (x_current x) as [s|]; [|discriminate]. destruct (s_harmonics s) as [h|]; [|discriminate].
    destruct (List.length (amplitudes h) <? List.length (a :: u))%nat; [eapply IH; eauto|congruence]. }
  rewrite <- (M _ _ _ _ _ E E') in G. clear -F G. revert B G.
  induction F as [|k f l fs (Q1 & _) F IH]; intros B G; inversion G as [|? g ? gs (Q2 & _) G']; subst; [reflexivity|].
  cbn. f_equal; [congruence|auto].
Qed.

(** ** Concrete cases *)

Definition rough (f : Q) : Q := if Qle_bool f 100000 then 316 else if Qle_bool f 300000 then 548 else 707.
Definition driven (a f : list Q) : excitation :=
  mkExcitation 100000 (Some (mkSignal (Some (mkHarmonics a f)) None "")) None None "".
Definition first_winding := driven [1; 4; 1 # 100; 1] [0; 100000; 200000; 300000].
Definition second_winding := driven [0; 8; 1 # 50; 1] [0; 100000; 200000; 300000].
Definition dot (w : nat) (x : Q) (share : Q) : mesh_turn :=
  mkMeshTurn w (Ok [mkPoint x 0 1 0]) (Ok [mkPoint x 0 1 0]) share.

Example C99_witness :
  0 <= 1 # 20 <= 1 /\
  common_indexes rough 5 (1 # 20) [first_winding; second_winding] = Ok [1; 3]%nat /\
  match mesh_inducing rough 5 10 (1 # 20) None 2 [first_winding; second_winding] [dot 0 1 1; dot 1 2 (1 # 2)] with
  | Ok fs => map (fun f => (f_frequency f, map (fun p => Qred (pt_value p)) (f_data f))) fs =
      [(100000, [4; -4]); (300000, [1; -1 # 2])]
  | _ => False
  end /\
  match mesh_induced rough 5 10 (1 # 20) [first_winding; second_winding] [dot 0 1 1; dot 1 2 (1 # 2)] with
  | Ok fs => map f_frequency fs = [100000; 300000]
  | _ => False
  end.
Proof. split; [lra|]. vm_compute. auto. Qed.

Lemma kept_limit : forall root a b l i, a == b -> kept root a l i = kept root b l i.
Proof.
  intros root a b l. induction l as [|x l IH]; intros i E; cbn [kept]; [reflexivity|].
  rewrite (IH (S i) E). replace (Qlt_bool (weight root x) a) with (Qlt_bool (weight root x) b); [reflexivity|].
  destruct (Qlt_bool (weight root x) b) eqn:B, (Qlt_bool (weight root x) a) eqn:A; try reflexivity.
  - apply Qlt_bool_iff in B. apply Qlt_bool_false in A. lra.
  - apply Qlt_bool_false in B. apply Qlt_bool_iff in A. lra.
Qed.
Lemma union_limit : forall root a b, a == b -> forall xs acc,
  union_indexes root a None xs acc = union_indexes root b None xs acc.
Proof.
  intros root a b E xs. induction xs as [|x xs IH]; intros acc; cbn [union_indexes]; [reflexivity|].
  replace (current_indexes root a None x) with (current_indexes root b None x).
  - destruct (current_indexes root b None x); cbn [bind]; auto.
  - unfold current_indexes. destruct (x_current x) as [s|]; [|reflexivity].
    destruct (match s_harmonics s, s_derived s with
            | Some h, _ => Ok h
            | None, Some d => d
            | None, None => Throw "Missing harmonics"
            end) as [h| | |]; cbn [bind]; try reflexivity.
    destruct (lines h) as [l| | |]; cbn [bind reference_weight]; try reflexivity.
    destruct (Qeq_bool (heaviest root l) 0); [reflexivity|]. f_equal. apply kept_limit. now rewrite E.
Qed.

(** with a threshold of zero, when the other windings have more harmonics than the
    first has lines, the search never ends *)
Theorem C99_zero_threshold_refuted : exists root xs,
  (forall x, In x xs -> exists s h l, x_current x = Some s /\ s_harmonics s = Some h /\ lines h = Ok l) /\
  forall fuel, common_indexes root fuel 0 xs = OutOfFuel.
Proof.
  exists rough, [driven [0; 1] [0; 100000]; driven [0; 1; 1; 1] [0; 100000; 200000; 300000]]. split.
  - intros x [<-|[<-|[]]]; eexists _, _, _; split; [reflexivity| |reflexivity|]; split; reflexivity.
  - intros fuel.
    assert (G : forall n, common_indexes rough fuel (tripled n 0) [driven [0; 1] [0; 100000]; driven [0; 1; 1; 1] [0; 100000; 200000; 300000]] = OutOfFuel).
    { induction fuel as [|fuel IH]; intros n; [reflexivity|].
      assert (Z0 : forall m t, t == 0 -> tripled m t == 0).
      { induction m as [|m IHm]; intros t Ht; cbn; [exact Ht|]. apply IHm. rewrite Ht. reflexivity. }
      assert (S3 : forall m t, tripled m t * 3 = tripled (S m) t).
      { induction m as [|m IHm]; intros t; cbn [tripled]; [reflexivity|]. rewrite IHm. reflexivity. }
      set (t := tripled n 0) in *. assert (T : t == 0) by (apply Z0; reflexivity).
      cbn [common_indexes].
      assert (U : union_indexes rough t None [driven [0; 1] [0; 100000]; driven [0; 1; 1; 1] [0; 100000; 200000; 300000]] [] = Ok [1; 2; 3]%nat).
      { rewrite (union_limit rough t 0 T). vm_compute. reflexivity. }
      rewrite U. cbn [bind]. unfold driven at 1. cbn -[common_indexes]. unfold t. rewrite S3. apply IH. }
    exact (G 0%nat).
Qed.

(** and for any threshold up to one the heaviest harmonics of a winding can be left
    out, when the windings together have more heavy ones than the first has lines *)
Theorem C99_heaviest_dropped_refuted : exists root thr xs fuel x h,
  0 < thr < 1 /\ In x xs /\ current_harmonics x h /\
  common_indexes root fuel thr xs = Ok [1%nat] /\
  (exists a f, line h 1 a f /\ a * root f == 0) /\ heavy root 1 h 2 /\ has_ac root h.
Proof.
  exists rough, (1 # 20), [driven [0; 1] [0; 100000]; driven [0; 0; 1; 1] [0; 100000; 200000; 300000]], 5%nat,
    (driven [0; 0; 1; 1] [0; 100000; 200000; 300000]), (mkHarmonics [0; 0; 1; 1] [0; 100000; 200000; 300000]).
  split; [lra|]. split; [right; now left|]. split; [eexists; split; [reflexivity|now left]|]. split; [vm_compute; reflexivity|].
  split; [exists 0, 100000; split; [split; reflexivity|vm_compute; reflexivity]|]. split.
  - exists 1, 200000. split; [lia|]. split; [split; reflexivity|]. split; [vm_compute; discriminate|].
    intros j a f J [Ha Hf]. do 4 (destruct j as [|j]; [cbn in Ha, Hf; injection Ha as <-; injection Hf as <-; try lia; vm_compute; discriminate|]).
    destruct j; discriminate.
  - exists 2%nat, 1, 200000. split; [lia|]. split; [split; reflexivity|vm_compute; reflexivity].
Qed.

Print Assumptions C99_harmonics.
Print Assumptions C99_any_windings.
Print Assumptions C99_ends.
Print Assumptions C99_inducing.
Print Assumptions C99_induced.
Print Assumptions C99_aligned.
Print Assumptions C99_zero_threshold_refuted.
Print Assumptions C99_heaviest_dropped_refuted.
