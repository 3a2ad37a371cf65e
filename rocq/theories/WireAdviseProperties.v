(** C210 to C213: advised wires. *)
From Coq Require Import QArith Qround List Bool String ZArith Lia Lqa Permutation Sorting.
From Verif Require Import Base QAux UtilsNumModel GateModel WireAdviseModel WireAdviseProofs.
Import ListNotations.
Local Open Scope Q_scope.

(** * What may be advised *)
Section Spec.
Variable ph : physics.
Variable j : job.
(** A wire of the list gives a candidate: with the parallels it needs or one more, within
    the maximum; rectangular wires are given one or two. *)
Definition offered (ws : list strand) (c : candidate) : Prop :=
  exists w, In w ws /\ switched_on (switches_of j) (where_ j) w = true /\ fst c = cut ph w /\
    ((kind_of w = RECTANGULAR_WIRE /\ (snd c = 1%Z \/ (snd c = 2%Z /\ (2 <= most j)%Z))) \/
     (kind_of w <> RECTANGULAR_WIRE /\ exists n, needed ph (cut ph w) = Ok n /\ (snd c <= most j)%Z /\ (snd c = n \/ snd c = (n + 1)%Z))).
Definition width_of (c : candidate) : Q := fst (outer ph (fst c)).
Definition height_of (c : candidate) : Q := snd (outer ph (fst c)).
(** One wire goes into the section, and a foil has no more turns in all than parallels
    are allowed. *)
Definition goes_in (c : candidate) : Prop :=
  (kind_of (fst c) = FOIL -> (snd c * turns j <= most j)%Z) /\
  width_of c < fst (size_of (where_ j)) /\
  (if is_polar (where_ j) then angle ph (height_of c) (width_of c) else height_of c) < snd (size_of (where_ j)).
Definition enough_insulation (c : candidate) : Prop :=
  requirements j = true -> exists q, insulated ph (fst c) = Ok (true, q).
(** The area all the wires take in one section. *)
Definition area_taken (c : candidate) : Q :=
  width_of c * height_of c * (inject_Z (snd c * turns j) / inject_Z (Zpos (sections j))).
Definition entrant (ws : list strand) (c : candidate) : Prop := offered ws c /\ goes_in c /\ enough_insulation c.
(** Those that fit or, when none does, those that overflow by less than a half. *)
Definition eligible (ws : list strand) (c : candidate) : Prop :=
  entrant ws c /\
  (area_taken c < room ph j \/
   (area_taken c < (3 # 2) * room ph j /\ forall d, entrant ws d -> room ph j <= area_taken d)).

(** ** Proofs *)
Lemma offers_in : forall w l, offers ph j w = Ok l -> forall c, In c l <-> offered [w] c.
Proof.
  intros w l H c. unfold offers in H. destruct (switched_on _ _ w) eqn:E.
  2:{ injection H as <-. split; [intros []|]. intros (w' & [<-|[]] & E' & _). congruence. }
  assert (RW : forall w', In w' [w] -> w' = w) by (intros w' [<-|[]]; reflexivity).
  destruct (kind_of w) eqn:K.
  3:{ injection H as <-. split.
    - intros I0. exists w. split; [left; reflexivity|]. split; [exact E|]. destruct I0 as [<-|I0].
      + split; [reflexivity|]. left. split; [exact K|]. left. reflexivity.
      + destruct (Z.ltb 1 (most j)) eqn:L; [|destruct I0]. apply Z.ltb_lt in L. destruct I0 as [<-|[]]. split; [reflexivity|]. left. split; [exact K|]. right. split; [reflexivity|lia].
    - intros (w' & I0 & _ & F & [(_ & S0)|(N & _)]); apply RW in I0; subst w'; [|congruence].
      destruct c as (a, p). cbn [fst snd] in *. subst a. destruct S0 as [->|(-> & L)]; [left; reflexivity|right].
      replace (Z.ltb 1 (most j)) with true by (symmetry; apply Z.ltb_lt; lia). left. reflexivity. }
  all: apply bind_ok in H; destruct H as (n & N & H); destruct (Z.ltb (most j) n) eqn:L; injection H as <-.
  all: try (apply Z.ltb_lt in L; split; [intros []|]; intros (w' & I0 & _ & F & [(X & _)|(_ & n' & N' & L' & S0)]); apply RW in I0; subst w'; [congruence|];
    rewrite N in N'; injection N' as <-; destruct S0 as [S0|S0]; rewrite S0 in L'; exfalso; lia).
  all: apply Z.ltb_ge in L; split.
  all: try (intros (w' & I0 & _ & F & [(X & _)|(_ & n' & N' & L' & S0)]); apply RW in I0; subst w'; [congruence|];
    rewrite N in N'; injection N' as <-; destruct c as (a, p); cbn [fst snd] in *; subst a;
    destruct S0 as [->| ->]; [left; reflexivity|right]; replace (Z.ltb n (most j)) with true by (symmetry; apply Z.ltb_lt; lia); left; reflexivity).
  all: intros I0; exists w; split; [left; reflexivity|]; split; [exact E|]; destruct I0 as [<-|I0];
    [split; [reflexivity|]; right; split; [congruence|]; exists n; cbn [snd]; auto|].
  all: destruct (Z.ltb n (most j)) eqn:L2; [|destruct I0]; apply Z.ltb_lt in L2; destruct I0 as [<-|[]]; split; [reflexivity|]; right; split; [congruence|];
    exists n; cbn [snd]; repeat split; [exact N|lia|right; reflexivity].
Qed.
Lemma dataset_in : forall ws d, dataset ph j ws = Ok d -> (forall x, In x d -> snd x = 0) /\ forall c, among d c <-> offered ws c.
Proof.
  induction ws as [|w ws IH]; intros d H; cbn [dataset] in H.
  - injection H as <-. split; [intros x []|]. intro c. split; [intros (s & [])|intros (w & [] & _)].
  - apply bind_ok in H. destruct H as (a & A & H). apply bind_ok in H. destruct H as (b & B & H). injection H as <-.
    destruct (IH b B) as (Z0 & M). pose proof (offers_in w a A) as O0. split.
    + intros x I0. apply in_app_or in I0. destruct I0 as [I0|I0]; [|apply Z0, I0]. apply in_map_iff in I0. destruct I0 as (c & <- & _). reflexivity.
    + intro c. split.
      * intros (s & I0). apply in_app_or in I0. destruct I0 as [I0|I0].
        -- apply in_map_iff in I0. destruct I0 as (c' & E & I0). injection E as -> _. apply O0 in I0. destruct I0 as (w' & [<-|[]] & R0). exists w. split; [left; reflexivity|exact R0].
        -- destruct (proj1 (M c) (ex_intro _ s I0)) as (w' & I1 & R0). exists w'. split; [right; exact I1|exact R0].
      * intros (w' & [<-|I1] & R0).
        -- exists 0. apply in_or_app. left. apply (in_map (fun c => (c, 0))). apply O0. exists w. split; [left; reflexivity|exact R0].
        -- destruct (proj2 (M c) (ex_intro _ w' (conj I1 R0))) as (s & I0). exists s. apply in_or_app. right. exact I0.
Qed.

Lemma size_valid : forall c, valid (by_size ph j) c = true <-> goes_in c.
Proof.
  intro c. unfold valid, by_size, no_parallels_filter, goes_in, coiled_of, section_of, width_of, height_of. cbn [g_foil g_width g_height g_turns g_parallels s_polar s_size].
  destruct (kind_of (fst c)); cbn [andb].
  4: { destruct (Z.ltb (most j) (snd c * turns j)) eqn:L.
    - apply Z.ltb_lt in L. split; [discriminate|]. intros (F & _). specialize (F eq_refl). lia.
    - apply Z.ltb_ge in L. rewrite andb_true_iff, !Qlt_bool_iff. tauto. }
  all: rewrite andb_true_iff, !Qlt_bool_iff; split; [intros (A & B); split; [intro; discriminate|auto]|tauto].
Qed.
Lemma area_eq : forall c, g_width (coiled_of ph j c) * g_height (coiled_of ph j c) * (inject_Z (g_parallels (coiled_of ph j c) * g_turns (coiled_of ph j c)) / inject_Z (Zpos (sections j))) = area_taken c.
Proof. reflexivity. Qed.
Hypothesis some_room : 0 < room ph j.
Lemma extra_iff : forall x, (x - room ph j) / room ph j < 1 # 2 <-> x < (3 # 2) * room ph j.
Proof.
  intro x. assert (E : (x - room ph j) / room ph j * room ph j == x - room ph j) by (field; lra). set (e := (x - room ph j) / room ph j) in *. split; intro H; [nra|].
  apply Qnot_le_lt. intro. nra.
Qed.
Lemma area_valid : forall allow c, valid (by_area ph j allow) c = true <->
  area_known (fst c) = true /\ (area_taken c < room ph j \/ (allow = true /\ area_taken c < (3 # 2) * room ph j)).
Proof.
  intros allow c. unfold valid, by_area. destruct (area_known (fst c)); [|split; [discriminate|intros (X & _); discriminate]].
  unfold with_parallels_filter. rewrite area_eq. cbv zeta. destruct (Qlt_bool (area_taken c) (room ph j)) eqn:L.
  - apply Qlt_bool_iff in L. cbn [fst]. tauto.
  - apply Qlt_bool_false in L. destruct allow; cbn [fst].
    + destruct (Qlt_bool ((area_taken c - room ph j) / room ph j) (1 # 2)) eqn:M.
      * apply Qlt_bool_iff, extra_iff in M. tauto.
      * split; [discriminate|]. intros (_ & [X|(_ & X)]); [lra|]. apply extra_iff, Qlt_bool_iff in X. congruence.
    + split; [discriminate|]. intros (_ & [X|(X & _)]); [lra|discriminate].
Qed.
Lemma area_raw : forall allow c d, valid (by_area ph j allow) c = true -> valid (by_area ph j allow) d = true ->
  area_taken c <= area_taken d -> raw (by_area ph j allow) d <= raw (by_area ph j allow) c.
Proof.
  intros allow c d C D. unfold valid, raw, score, by_area in *. destruct (area_known (fst c)); [|discriminate]. destruct (area_known (fst d)); [|discriminate].
  unfold with_parallels_filter in *. rewrite !area_eq in *. cbv zeta in *.
  assert (EC : (area_taken c - room ph j) / room ph j * room ph j == area_taken c - room ph j) by (field; lra).
  assert (ED : (area_taken d - room ph j) / room ph j * room ph j == area_taken d - room ph j) by (field; lra).
  set (ec := (area_taken c - room ph j) / room ph j) in *. set (ed := (area_taken d - room ph j) / room ph j) in *. clearbody ec ed.
  intro L. destruct (Qlt_bool (area_taken c) (room ph j)) eqn:QC; destruct (Qlt_bool (area_taken d) (room ph j)) eqn:QD; cbn [fst snd] in *; qb; try lra.
  - destruct allow; [|discriminate]. destruct (Qlt_bool ed (1 # 2)); [|discriminate]. cbn [snd]. apply Qnot_lt_le. intro. nra.
  - destruct allow; [|discriminate]. destruct (Qlt_bool ed (1 # 2)); [|discriminate]. destruct (Qlt_bool ec (1 # 2)); [|discriminate]. cbn [snd]. apply Qnot_lt_le. intro. nra.
Qed.
Lemma among_kept : forall ev l c, among (kept ev l) c <-> among l c /\ valid ev c = true.
Proof.
  intros ev l c. split.
  - intros (s & I0). apply filter_In in I0. destruct I0 as (I0 & V). split; [exists s; exact I0|exact V].
  - intros ((s & I0) & V). exists s. apply filter_In. auto.
Qed.
(** The list after one filter. *)
Lemma through : forall ev inv l l', stage ev inv l = Ok l' ->
  (forall c, among l' c <-> among l c /\ valid ev c = true) /\
  exists t, (forall c, among l' c -> 0 <= t c <= 1) /\
    (forall c d, among l' c -> among l' d -> raw ev c <= raw ev d -> if inv then t d <= t c else t c <= t d) /\
    (forall g, (forall x, In x l -> snd x == g (fst x)) -> forall x, In x l' -> snd x == g (fst x) + t (fst x)).
Proof.
  intros ev inv l l' H. destruct (stage_spec _ _ _ _ H) as (_ & _ & _ & t & F & P).
  assert (R : regraded t (kept ev l) l') by (exists (fun c s => s + t c); split; [intros; reflexivity|exact P]).
  assert (M : forall c, among l' c <-> among (kept ev l) c) by (intro c; apply (regraded_in _ _ _ c R)).
  split; [intro c; rewrite M; apply among_kept|]. exists t. apply fair_on in F. destruct F as (A & B & _).
  split; [intros c X; apply A, M, X|]. split; [intros c d X Y; apply B; apply M; assumption|].
  intros g G x I0. apply (Permutation_in _ P) in I0. apply in_map_iff in I0. destruct I0 as (y & <- & I0). cbn [fst snd].
  apply filter_In in I0. destruct I0 as (I0 & _). now rewrite (G y I0).
Qed.
Lemma insulation_valid : forall c, valid (by_insulation ph) c = true <-> exists q, insulated ph (fst c) = Ok (true, q).
Proof.
  intro c. unfold valid, by_insulation. destruct (insulated ph (fst c)) as [(b, q)| | |]; cbn [bind fst]; [|split; [discriminate|intros (q & X); discriminate]..].
  split; [intros ->; eauto|]. intros (q' & X). now injection X.
Qed.

Definition insulation_score (c : candidate) : Q := raw (by_insulation ph) c.
Lemma gated : forall ws l, gates ph j ws = Ok l ->
  (forall c, among l c <-> eligible ws c) /\
  exists t, (forall x, In x l -> snd x == t (fst x)) /\
    (forall c, among l c -> 0 <= t c <= if requirements j then 3 else 2) /\
    (forall c d, among l c -> among l d -> (requirements j = true -> insulation_score c <= insulation_score d) -> area_taken c <= area_taken d -> t d <= t c).
Proof.
  intros ws l H. unfold gates in H. apply bind_ok in H. destruct H as (l0 & H0 & H). destruct (dataset_in _ _ H0) as (Z0 & M0).
  apply bind_ok in H. destruct H as (l1 & H1 & H). destruct (through _ _ _ _ H1) as (M1 & t1 & A1 & B1 & G1).
  specialize (G1 (fun _ => 0) ltac:(intros x I0; rewrite (Z0 x I0); reflexivity)).
  apply bind_ok in H. destruct H as (l2 & H2 & H).
  assert (E1 : forall c d, among l1 c -> among l1 d -> t1 c == t1 d).
  { assert (RZ : forall c, raw (by_size ph j) c = 0) by reflexivity.
    intros c d X Y. pose proof (B1 c d X Y ltac:(rewrite !RZ; lra)). pose proof (B1 d c Y X ltac:(rewrite !RZ; lra)). cbv iota in *. lra. }
  assert (K2 : (forall c, among l2 c <-> entrant ws c) /\ exists t2, (forall x, In x l2 -> snd x == t1 (fst x) + t2 (fst x)) /\
     (forall c, among l2 c -> 0 <= t2 c <= if requirements j then 1 else 0) /\ (forall c, among l2 c -> among l1 c) /\
     (forall c d, among l2 c -> among l2 d -> (requirements j = true -> insulation_score c <= insulation_score d) -> t2 d <= t2 c)).
  { unfold entrant, enough_insulation. destruct (requirements j) eqn:ER.
    - destruct (through _ _ _ _ H2) as (M2 & t2 & A2 & B2 & G2). split.
      + intro c. rewrite M2, M1, M0, size_valid, insulation_valid. tauto.
      + exists t2. split; [intros x I0; rewrite (G2 t1); [reflexivity| |exact I0]; intros y I1; rewrite (G1 y I1); ring|].
        split; [exact A2|]. split; [intros c X; apply M2, X|]. intros c d X Y L. apply (B2 c d X Y), L. reflexivity.
    - injection H2 as <-. split.
      + intro c. rewrite M1, M0, size_valid. split; [intros (A & B); repeat split; try assumption; apply B || (intro; discriminate)|tauto].
      + exists (fun _ => 0). split; [intros x I0; rewrite (G1 x I0); ring|]. split; [intros; lra|]. split; [auto|]. intros; lra. }
  destruct K2 as (M2 & t2 & G2 & A2 & In21 & B2).
  apply bind_ok in H. destruct H as (lt & HT & H).
  assert (K : exists allow, stage (by_area ph j allow) false l2 = Ok l /\
     (allow = true -> forall d, entrant ws d -> room ph j <= area_taken d) /\ (allow = false -> l <> [])).
  { destruct lt as [|x lt].
    - exists true. split; [exact H|]. split; [|discriminate]. intros _ d D. destruct (Qlt_le_dec (area_taken d) (room ph j)) as [L|L]; [exfalso|exact L].
      destruct (through _ _ _ _ HT) as (M & _). destruct (stage_spec _ _ _ _ HT) as (OKs & _).
      assert (X : among l2 d) by (apply M2, D). destruct X as (s & I0). destruct (OKs _ I0) as (v & V). cbn [fst] in V.
      assert (Y : among [] d).
      { apply M. split; [exists s; exact I0|]. apply area_valid. split; [|left; exact L].
        unfold by_area in V. destruct (area_known (fst d)); [reflexivity|discriminate]. }
      destruct Y as (s' & []).
    - injection H as <-. exists false. split; [exact HT|]. split; [discriminate|]. intros _ X. discriminate. }
  destruct K as (allow & HA & NA & NE). destruct (through _ _ _ _ HA) as (M3 & t3 & A3 & B3 & G3). destruct (stage_spec _ _ _ _ HA) as (OKs & _).
  assert (KN : forall c, among l2 c -> area_known (fst c) = true).
  { intros c (s & I0). destruct (OKs _ I0) as (v & V). cbn [fst] in V. unfold by_area in V. destruct (area_known (fst c)); [reflexivity|discriminate]. }
  split.
  - intro c. rewrite M3, area_valid. unfold eligible. rewrite M2. split.
    + intros (E & KA & [L|(-> & L)]); split; [exact E|left; exact L|exact E|right]. split; [exact L|apply NA; reflexivity].
    + intros (E & D). split; [exact E|]. split; [apply KN, M2, E|]. destruct D as [L|(L & N)]; [left; exact L|right].
      split; [|exact L]. destruct allow; [reflexivity|exfalso]. specialize (NE eq_refl).
      destruct l as [|((y & p) & s) l]; [contradiction|]. assert (Y : among (((y, p), s) :: l) (y, p)) by (exists s; left; reflexivity).
      apply M3 in Y. destruct Y as (Y & V). apply area_valid in V. destruct V as (_ & [V|(X & _)]); [|discriminate].
      apply M2 in Y. specialize (N _ Y). lra.
  - exists (fun c => t1 c + t2 c + t3 c).
    assert (In32 : forall c, among l c -> among l2 c) by (intros c X; apply M3, X).
    split; [apply (G3 (fun c => t1 c + t2 c)); exact G2|]. split.
    + intros c X. pose proof (A3 c X). pose proof (A2 c (In32 c X)). pose proof (A1 c (In21 c (In32 c X))). destruct (requirements j); lra.
    + intros c d X Y I0 L. pose proof (E1 c d (In21 c (In32 c X)) (In21 d (In32 d Y))). pose proof (B2 c d (In32 c X) (In32 d Y) I0).
      assert (t3 d <= t3 c); [|lra]. apply (B3 d c Y X). apply area_raw; [apply M3, X|apply M3, Y|exact L].
Qed.
End Spec.

Lemma firstn_split : forall (A : Type) n (l : list A), exists rest, l = (firstn n l ++ rest)%list /\ (rest = [] \/ List.length (firstn n l) = n) /\ (List.length (firstn n l) <= n)%nat.
Proof.
  intros A n l. exists (skipn n l). split; [symmetry; apply firstn_skipn|]. split; [|apply firstn_le_length].
  destruct (Nat.le_gt_cases (List.length l) n) as [L|L]; [left; apply skipn_all2, L|right; apply firstn_length_le; lia].
Qed.
Lemma regraded_score : forall t l l' u, regraded t l l' -> (forall x, In x l -> snd x == u (fst x)) -> forall x, In x l' -> snd x == u (fst x) + t (fst x).
Proof.
  intros t l l' u (g & G & P) U x I0. apply (Permutation_in _ P) in I0. apply in_map_iff in I0. destruct I0 as (y & <- & I0). cbn [fst snd]. rewrite G, (U y I0). reflexivity.
Qed.
(** The outer size of a wire: its diameter or, without one, its width and height added, or
    the one that is given. *)
Inductive outer_size (w : strand) : Q -> Prop :=
  | size_round : forall d, across w = Some d -> outer_size w d
  | size_sides : forall x y, across w = None -> wide w = Some x -> high w = Some y -> outer_size w (x + y)
  | size_wide : forall x, across w = None -> wide w = Some x -> high w = None -> outer_size w x
  | size_high : forall y, across w = None -> wide w = None -> high w = Some y -> outer_size w y.
(** Best score first; among equal scores the smaller wire, those without size last. *)
Definition rightly_before (a b : candidate * Q) : Prop :=
  snd b < snd a \/ (snd b == snd a /\ forall q, outer_size (fst (fst b)) q -> exists p, outer_size (fst (fst a)) p /\ p <= q).
Lemma bulk_size : forall w q, bulk w = Some q <-> outer_size w q.
Proof.
  intros w q. unfold bulk. split.
  - destruct (across w) as [d|] eqn:A; [intro H; injection H as <-; now constructor|].
    destruct (wide w) as [x|] eqn:X, (high w) as [y|] eqn:Y; intro H; try discriminate.
    + assert (E : x + y = q) by congruence. rewrite <- E. now apply size_sides.
    + injection H as <-. now apply size_wide.
    + injection H as <-. now apply size_high.
  - intros [d A|x y A X Y|x A X Y|y A X Y]; rewrite A; [|rewrite X, Y|rewrite X, Y|rewrite X, Y]; reflexivity.
Qed.
Lemma ahead_rightly : forall a b, ahead b a = false -> rightly_before a b.
Proof.
  intros a b H. apply ahead_false in H. destruct H as [H|(E & H)]; [left; exact H|right]. split; [exact E|]. intros q SZ. apply bulk_size in SZ.
  unfold thinner in H. rewrite SZ in H. destruct (bulk (fst (fst a))) as [p|] eqn:P; [|discriminate]. exists p. split; [apply bulk_size, P|]. qb. lra.
Qed.

(** The advice is the beginning of a ranking of exactly the eligible candidates, cut at
    the number of results asked for. *)
Theorem C210_ranking : forall ph j seen ws shown m, 0 < room ph j -> advise ph j seen ws = Ok (shown, m) ->
  exists rest, StronglySorted rightly_before (shown ++ rest)%list /\
    (forall c, among (shown ++ rest)%list c <-> eligible ph j ws c) /\
    (rest = [] \/ List.length shown = results j) /\ (List.length shown <= results j)%nat.
Proof.
  intros ph j seen ws shown m R H. unfold advise in H. apply bind_ok in H. destruct H as (l & HG & H).
  destruct (gated ph j R ws l HG) as (M & _). destruct (scored _ _ _ _ _ _ H) as (f & t & full & _ & ES & O & RG & _).
  destruct (firstn_split _ (results j) full) as (rest & E1 & E2 & E3). rewrite <- ES in *. exists rest. rewrite <- E1.
  split; [|split; [|auto]].
  - clear - O. unfold in_order in O. induction O as [|x r S IH F]; constructor; [exact IH|]. eapply Forall_impl; [|exact F]. intros y. apply ahead_rightly.
  - intro c. rewrite <- M. apply (regraded_in _ _ _ c RG).
Qed.
(** So nothing else is advised, and what is eligible is advised unless the list is full. *)
Theorem C210_only_eligible : forall ph j seen ws shown m, 0 < room ph j -> advise ph j seen ws = Ok (shown, m) ->
  (forall c, among shown c -> eligible ph j ws c) /\
  (forall c, eligible ph j ws c -> among shown c \/ List.length shown = results j) /\
  (shown = [] <-> results j = 0%nat \/ forall c, ~ eligible ph j ws c).
Proof.
  intros ph j seen ws shown m R H. destruct (C210_ranking _ _ _ _ _ _ R H) as (rest & _ & M & E & L).
  assert (A : forall c, among shown c -> eligible ph j ws c) by (intros c (s & I0); apply M; exists s; apply in_or_app; auto).
  split; [exact A|]. split.
  - intros c X. destruct E as [->|E]; [left|right; exact E]. apply M in X. rewrite app_nil_r in X. exact X.
  - split.
    + intros ->. destruct E as [->|E]; [right|left; symmetry; exact E]. intros c X. apply M in X. destruct X as (s & []).
    + intros [Z|N]; [destruct shown; [reflexivity|cbn in L; lia]|]. destruct shown as [|(c, s) r]; [reflexivity|exfalso].
      apply (N c), A. exists s. left. reflexivity.
Qed.
(** Every advised wire but a rectangular one has the parallels it needs. *)
Theorem C210_carries : forall ph j seen ws shown m, 0 < room ph j -> advise ph j seen ws = Ok (shown, m) ->
  (forall w, kind_of (cut ph w) = kind_of w) ->
  forall c, among shown c -> kind_of (fst c) <> RECTANGULAR_WIRE -> exists n, needed ph (fst c) = Ok n /\ (n <= snd c <= n + 1)%Z /\ (snd c <= most j)%Z.
Proof.
  intros ph j seen ws shown m R H K c X NR. apply (C210_only_eligible _ _ _ _ _ _ R H) in X.
  destruct X as (((w & _ & _ & E & D) & _) & _). rewrite E in *. rewrite K in NR. destruct D as [(D & _)|(_ & n & N & L & D)]; [contradiction|].
  exists n. split; [exact N|]. split; [destruct D as [D|D]; rewrite D; lia|exact L].
Qed.
(** Without its effective frequency the current is refused, whatever the wires. *)
Theorem C210_no_frequency : forall ph j seen ws r, frequency j = None -> advise ph j seen ws <> Ok r.
Proof.
  intros ph j seen ws r F H. unfold advise in H. apply bind_ok in H. destruct H as (l & _ & H). unfold score_and_cut in H. rewrite F in H. discriminate.
Qed.
(** The proportion reported is the greatest of the advice, so it tells whether it fits. *)
Lemma measure_greatest : forall ph j l seen m, measure ph j seen l = Ok m ->
  seen <= m /\ (forall x, In x l -> proportion ph j (fst x) <= m) /\ (m = seen \/ exists x, In x l /\ m = proportion ph j (fst x)).
Proof.
  induction l as [|x l IH]; intros seen m H; cbn [measure] in H.
  - injection H as <-. split; [lra|]. split; [intros x []|left; reflexivity].
  - destruct (area_known _); [|discriminate]. apply IH in H. destruct H as (A & B & C).
    pose proof (cmax_ge_l seen (proportion ph j (fst x))). pose proof (cmax_ge_r seen (proportion ph j (fst x))).
    split; [lra|]. split; [intros y [<-|I0]; [lra|apply B, I0]|]. destruct C as [C|(y & I0 & C)]; [|right; exists y; split; [right; exact I0|exact C]].
    unfold cmax in C. destruct (Qlt_bool seen (proportion ph j (fst x))); [right; exists x; split; [left; reflexivity|exact C]|left; exact C].
Qed.
Theorem C210_proportion : forall ph j seen ws shown m, 0 < room ph j -> advise ph j seen ws = Ok (shown, m) ->
  0 <= m /\ m < 3 # 2 /\ (forall c, among shown c -> area_taken ph j c <= m * room ph j) /\
  (m == 0 \/ exists c, among shown c /\ area_taken ph j c == m * room ph j) /\
  (1 <= m <-> exists c, among shown c /\ room ph j <= area_taken ph j c).
Proof.
  intros ph j seen ws shown m R H. pose proof (C210_only_eligible _ _ _ _ _ _ R H) as (EL & _).
  unfold advise in H. apply bind_ok in H. destruct H as (l & _ & H). destruct (scored _ _ _ _ _ _ H) as (f & t & full & _ & _ & _ & _ & _ & _ & _ & HM).
  destruct (measure_greatest _ _ _ _ _ HM) as (A & B & C).
  assert (PR : forall c, proportion ph j c * room ph j == area_taken ph j c) by (intro c; unfold proportion, area_taken, width_of, height_of; field; split; [intro Z; discriminate|lra]).
  assert (A2 : forall c, among shown c -> area_taken ph j c <= m * room ph j).
  { intros c (s & I0). specialize (B _ I0). cbn [fst] in B. rewrite <- PR. nra. }
  assert (A3 : m == 0 \/ exists c, among shown c /\ area_taken ph j c == m * room ph j).
  { destruct C as [->|((c, s) & I0 & ->)]; [left; reflexivity|right]. exists c. split; [exists s; exact I0|]. cbn [fst]. symmetry. apply PR. }
  split; [exact A|]. split.
  - destruct A3 as [Z|(c & X & E)]; [lra|]. destruct (EL c X) as (_ & D). assert (area_taken ph j c < (3 # 2) * room ph j) by (destruct D as [D|(D & _)]; lra).
    apply Qnot_le_lt. intro. nra.
  - split; [exact A2|]. split; [exact A3|]. split.
    + intro L. destruct A3 as [Z|(c & X & E)]; [lra|]. exists c. split; [exact X|]. nra.
    + intros (c & X & L). specialize (A2 c X). apply Qnot_lt_le. intro. nra.
Qed.

(** * C211: scores *)
(** Every score lies between none and one for each filter passed. *)
Theorem C211_bounds : forall ph j seen ws shown m, 0 < room ph j -> advise ph j seen ws = Ok (shown, m) ->
  forall x, In x shown -> 0 <= snd x <= 4 + (if requirements j then 1 else 0) + (if harmonics j then 1 else 0).
Proof.
  intros ph j seen ws shown m R H x I0. unfold advise in H. apply bind_ok in H. destruct H as (l & HG & H).
  destruct (gated ph j R ws l HG) as (_ & u & U & UB & _). destruct (scored _ _ _ _ _ _ H) as (f & t & full & _ & -> & _ & RG & B & _).
  apply in_firstn in I0. pose proof (regraded_score _ _ _ _ RG U x I0) as E.
  assert (X : among l (fst x)) by (apply (regraded_in _ _ _ (fst x) RG); exists (snd x); destruct x; exact I0).
  specialize (UB _ X). specialize (B _ X). rewrite E. destruct (requirements j), (harmonics j); lra.
Qed.
(** A candidate that is no worse than another in every figure never scores less, and more
    when a figure that is not a gate is better. *)
Theorem C211_dominance : forall ph j seen ws shown m f, 0 < room ph j -> frequency j = Some f -> advise ph j seen ws = Ok (shown, m) ->
  forall x y, In x shown -> In y shown ->
    no_worse ph j f (fst x) (fst y) -> (requirements j = true -> insulation_score ph (fst x) <= insulation_score ph (fst y)) ->
    area_taken ph j (fst x) <= area_taken ph j (fst y) ->
    snd y <= snd x /\ (better ph j f (fst x) (fst y) -> snd y < snd x).
Proof.
  intros ph j seen ws shown m f R F H x y I0 I1 N S A. unfold advise in H. apply bind_ok in H. destruct H as (l & HG & H).
  destruct (gated ph j R ws l HG) as (_ & u & U & _ & UM). destruct (scored _ _ _ _ _ _ H) as (f' & t & full & F' & -> & _ & RG & _ & B & C & _).
  rewrite F in F'. injection F' as <-. apply in_firstn in I0, I1.
  pose proof (regraded_score _ _ _ _ RG U x I0) as EX. pose proof (regraded_score _ _ _ _ RG U y I1) as EY.
  assert (X : among l (fst x)) by (apply (regraded_in _ _ _ (fst x) RG); exists (snd x); destruct x; exact I0).
  assert (Y : among l (fst y)) by (apply (regraded_in _ _ _ (fst y) RG); exists (snd y); destruct y; exact I1).
  pose proof (UM _ _ X Y S A) as L1. split; [pose proof (B _ _ X Y N); lra|]. intro W. pose proof (C _ _ X Y N W). lra.
Qed.
(** Parallels do not lower the resistance a candidate is judged by: of one wire, fewer
    parallels always score more.  (The extra parallel that each wire is offered with can
    never be preferred to the number it needs.) *)
Theorem C211_parallels_preferred_refuted : forall ph j seen ws shown m f, 0 < room ph j -> frequency j = Some f -> 0 < f -> (0 < turns j)%Z ->
  advise ph j seen ws = Ok (shown, m) ->
  forall w p p' s s', (0 <= p < p')%Z -> 0 < thickness ph w -> 0 <= fst (outer ph w) * snd (outer ph w) ->
    (forall n, conductors ph w = Some n -> (0 < n)%Z) ->
    In ((w, p), s) shown -> In ((w, p'), s') shown -> s' < s.
Proof.
  intros ph j seen ws shown m f R F FP T H w p p' s s' P TH OA CN I0 I1.
  assert (EF : forall q, effect ph j f (w, q) = Some (thickness ph w / f * (inject_Z (match conductors ph w with Some n => n | None => 1 end * q * turns j) * inject_Z (match conductors ph w with Some n => n | None => 1 end * q * turns j)))).
  { intro q. unfold effect, score, by_proximity. replace (Qeq_bool f 0) with false; [reflexivity|]. symmetry. destruct (Qeq_bool f 0) eqn:E; [apply Qeq_bool_iff in E; lra|reflexivity]. }
  set (k := match conductors ph w with Some n => n | None => 1%Z end) in *.
  assert (K : (0 < k)%Z) by (unfold k; destruct (conductors ph w) as [n|]; [apply CN; reflexivity|lia]). clearbody k.
  assert (LT : figure_lt (effect ph j f (w, p)) (effect ph j f (w, p'))).
  { rewrite !EF. cbn [figure_lt]. assert (TF : 0 < thickness ph w / f) by (apply Qlt_shift_div_l; [exact FP|lra]). apply (Qmult_lt_l _ _ _ TF).
    rewrite <- !inject_Z_mult, <- Zlt_Qlt. assert (KP : (0 <= k * p < k * p')%Z) by (split; [apply Z.mul_nonneg_nonneg; lia|apply Z.mul_lt_mono_pos_l; lia]).
    assert (KT : (0 <= k * p * turns j < k * p' * turns j)%Z) by (split; [apply Z.mul_nonneg_nonneg; lia|apply Z.mul_lt_mono_pos_r; lia]).
    apply Z.mul_lt_mono_nonneg; lia. }
  assert (FIN : exists r, resistance ph w f = Some r /\ (harmonics j = true -> exists q, skin ph w = Some q) /\
     (requirements j = true -> True)).
  { pose proof H as H'. unfold advise in H'. apply bind_ok in H'. destruct H' as (l & _ & H'). destruct (scored _ _ _ _ _ _ H') as (f' & t & full & F' & ES & _ & RG & _).
    rewrite F in F'. injection F' as <-. assert (X : among l (w, p)). { apply (regraded_in _ _ _ (w, p) RG). exists s. rewrite ES in I0. apply in_firstn in I0. exact I0. }
    unfold score_and_cut in H'. rewrite F in H'. apply bind_ok in H'. destruct H' as (l1 & H1 & H'). apply bind_ok in H'. destruct H' as (l2 & H2 & _).
    destruct (stage_spec _ _ _ _ H1) as (_ & Fi & _ & t1 & _ & P1). rewrite kept_all in Fi, P1 by reflexivity. destruct X as (s0 & X). destruct (Fi _ X) as (r & Er). exists r. split; [exact Er|]. split; [|auto].
    intro EH. rewrite EH in H2. destruct (stage_spec _ _ _ _ H2) as (_ & Fi2 & _). rewrite kept_all in Fi2 by reflexivity.
    assert (X1 : In ((w, p), s0 + t1 (w, p)) l1). { apply (Permutation_in _ (Permutation_sym P1)). apply in_map_iff. exists ((w, p), s0). auto. }
    destruct (Fi2 _ X1) as (q & Eq). exists q. exact Eq. }
  destruct FIN as (r & Er & Sk & _).
  assert (NW : no_worse ph j f (w, p) (w, p')).
  { split; [cbn [fst]; rewrite Er; cbn; lra|]. split; [intro EH; destruct (Sk EH) as (q & E); cbn [fst]; rewrite E; cbn; lra|].
    destruct (effect ph j f (w, p)), (effect ph j f (w, p')); cbn in *; try contradiction; lra. }
  assert (AR : area_taken ph j (w, p) <= area_taken ph j (w, p')).
  { unfold area_taken, width_of, height_of. cbn [fst snd]. rewrite !(Qmult_comm (fst (outer ph w) * snd (outer ph w))). apply Qmult_le_compat_r; [|exact OA].
    apply Qmult_le_compat_r; [|apply Qinv_le_0_compat; discriminate]. rewrite <- Zle_Qle. nia. }
  destruct (C211_dominance _ _ _ _ _ _ f R F H _ _ I0 I1 NW ltac:(intros _; unfold insulation_score; apply Qle_refl) AR) as (_ & St).
  apply St. right. right. exact LT.
Qed.

(** * Where the advice goes wrong *)
(** A rectangular wire is offered alone however many parallels the current needs. *)
Theorem C210_rectangular_density_refuted : forall ph j ws w n, In w ws -> kind_of w = RECTANGULAR_WIRE ->
  switched_on (switches_of j) (where_ j) w = true -> needed ph (cut ph w) = Ok n -> (1 < n)%Z ->
  offered ph j ws (cut ph w, 1%Z).
Proof. intros ph j ws w n I0 K S _ _. exists w. repeat split; try assumption. left. split; [exact K|]. left. reflexivity. Qed.
(** Without current a wire is advised with no parallel at all. *)
Theorem C210_one_parallel_refuted : forall ph j ws w, 0 < room ph j -> In w ws -> kind_of w <> RECTANGULAR_WIRE ->
  switched_on (switches_of j) (where_ j) w = true -> needed ph (cut ph w) = Ok 0%Z -> (0 <= most j)%Z -> requirements j = false ->
  goes_in ph j (cut ph w, 0%Z) -> eligible ph j ws (cut ph w, 0%Z).
Proof.
  intros ph j ws w R I0 K S N M Q0 G. split; [split; [|split; [exact G|intro X; congruence]]|].
  - exists w. repeat split; try assumption. right. split; [exact K|]. exists 0%Z. auto.
  - left. unfold area_taken. cbn [snd]. rewrite Z.mul_0_l. setoid_replace (width_of ph (cut ph w, 0%Z) * height_of ph (cut ph w, 0%Z) * (inject_Z 0 / inject_Z (Zpos (sections j)))) with 0 by (unfold Qdiv; rewrite Qmult_0_l; ring). exact R.
Qed.

(** A section 10 by 10 and round wires: the tag is the number of parallels they need. *)
Definition demo : physics := {|
  needed := fun w => Ok (Z.of_nat (tag w)); cut := fun w => w;
  outer := fun w => match across w with Some d => (d, d) | None => (1, 1) end;
  resistance := fun w _ => match across w with Some d => Some (10 - d) | None => Some 9 end;
  skin := fun w => Some 1; thickness := fun w => match across w with Some d => d | None => 1 end;
  conductors := fun _ => None; insulated := fun _ => Ok (true, 0); angle := fun a _ => a; pi_ := 22 # 7 |}.
Definition demo_switches : switches := mkSwitches true true true true true true.
Definition demo_job : job := mkJob 10 (mkPlace (Some Cartesian) (10, 10)) 1 (Some 100) true 4 false demo_switches 3.
Definition round_wire (d : Q) (n : nat) : strand := mkStrand ROUND_WIRE None (Some d) None None true n.
Definition flat_wire (n : nat) : strand := mkStrand RECTANGULAR_WIRE None None (Some 1) (Some 1) true n.
Example C210_witness : 0 < room demo demo_job /\
  (exists shown m, advise demo demo_job 0 [round_wire 1 2; round_wire 2 1; round_wire 3 1] = Ok (shown, m) /\
    map fst shown = [(round_wire 3 1, 1%Z); (round_wire 2 1, 1%Z); (round_wire 1 2, 2%Z)] /\ m == 9 # 10) /\
  (exists shown m, advise demo demo_job 0 [round_wire 1 2; flat_wire 9] = Ok (shown, m) /\
    map fst shown = [(flat_wire 9, 1%Z); (round_wire 1 2, 2%Z); (flat_wire 9, 2%Z)]) /\
  goes_in demo demo_job (round_wire 1 0, 0%Z).
Proof.
  split; [reflexivity|]. split; [do 2 eexists; split; [vm_compute; reflexivity|split; reflexivity]|].
  split; [do 2 eexists; split; [vm_compute; reflexivity|reflexivity]|]. split; [discriminate|split; reflexivity].
Qed.
Example C211_witness : exists shown m s s', advise demo demo_job 0 [round_wire 1 1] = Ok (shown, m) /\
  shown = [((round_wire 1 1, 1%Z), s); ((round_wire 1 1, 2%Z), s')] /\ s == 5 /\ s' == 4.
Proof. do 4 eexists. split; [vm_compute; reflexivity|]. split; [reflexivity|]. split; reflexivity. Qed.

(** * C212: planar wires *)
(** The penalty for thick copper: none up to one ounce, then growing, one at most. *)
Definition sq (h : Q) : Q := (1 # 2) * ((h - 210) * (1 # 140)) * ((h - 210) * (1 # 140)).
Lemma sq_le : forall x y, 210 < x -> x <= y -> sq x <= sq y.
Proof. intros x y X Y. unfold sq. nra. Qed.
Lemma sq_range : forall x, 210 < x -> x <= 350 -> 0 < sq x <= 1 # 2.
Proof. intros x X Y. unfold sq. split; nra. Qed.
Lemma sq_end : forall x, 210 < x -> x <= 350 -> (sq x == 1 # 2 <-> 350 <= x).
Proof. intros x X Y. unfold sq. split; intro H; [apply Qnot_lt_le; intro; nra|]. assert (E : x == 350) by lra. rewrite E. reflexivity. Qed.
Lemma penalty_cases : forall h,
  (h <= 35 /\ penalty h == 0) \/ (35 < h <= 70 /\ penalty h == (8 # 3500) * (h - 35)) \/
  (70 < h <= 105 /\ penalty h == (8 # 100) + (10 # 3500) * (h - 70)) \/ (105 < h <= 140 /\ penalty h == (18 # 100) + (12 # 3500) * (h - 105)) \/
  (140 < h <= 210 /\ penalty h == (30 # 100) + (20 # 7000) * (h - 140)) \/
  (210 < h <= 350 /\ penalty h == (1 # 2) + sq h) \/ (350 < h /\ penalty h == 1).
Proof.
  intro h. unfold penalty.
  destruct (Qle_bool h 35) eqn:A; qb; [left; split; [assumption|reflexivity]|right].
  destruct (Qle_bool h 70) eqn:B; qb; [left; split; [lra|field]|right].
  destruct (Qle_bool h 105) eqn:C; qb; [left; split; [lra|field]|right].
  destruct (Qle_bool h 140) eqn:D; qb; [left; split; [lra|field]|right].
  destruct (Qle_bool h 210) eqn:E; qb; [left; split; [lra|field]|right].
  unfold sq. cbv zeta. assert (X : (h - 210) / (350 - 210) == (h - 210) * (1 # 140)) by field.
  unfold cmin. destruct (Qlt_bool _ 1) eqn:F; qb; rewrite X in F.
  - left. split; [lra|]. rewrite X. ring.
  - destruct (Qlt_le_dec 350 h); [right; split; [assumption|ring]|left]. split; [lra|]. assert (Y : (h - 210) * (1 # 140) == 1) by lra. rewrite Y. ring.
Qed.
Theorem C212_penalty : forall h, 0 <= penalty h <= 1 /\ (penalty h == 0 <-> h <= 35) /\ (penalty h == 1 <-> 350 <= h) /\
  (forall k, h <= k -> penalty h <= penalty k).
Proof.
  intro h. split; [|split; [|split]].
  - destruct (penalty_cases h) as [(R & ->)|[(R & ->)|[(R & ->)|[(R & ->)|[(R & ->)|[(R & ->)|(R & ->)]]]]]]; try (split; lra).
    pose proof (sq_range h ltac:(lra) ltac:(lra)). split; lra.
  - destruct (penalty_cases h) as [(R & ->)|[(R & ->)|[(R & ->)|[(R & ->)|[(R & ->)|[(R & ->)|(R & ->)]]]]]]; try (split; intro; lra).
    pose proof (sq_range h ltac:(lra) ltac:(lra)). split; intro; lra.
  - destruct (penalty_cases h) as [(R & ->)|[(R & ->)|[(R & ->)|[(R & ->)|[(R & ->)|[(R & ->)|(R & ->)]]]]]]; try (split; intro; lra).
    rewrite <- (sq_end h) by lra. split; intro; lra.
  - intros k K. destruct (penalty_cases k) as [(R & ->)|[(R & ->)|[(R & ->)|[(R & ->)|[(R & ->)|[(R & ->)|(R & ->)]]]]]].
    1-5: destruct (penalty_cases h) as [(S & ->)|[(S & ->)|[(S & ->)|[(S & ->)|[(S & ->)|[(S & ->)|(S & ->)]]]]]]; lra.
    + pose proof (sq_range k ltac:(lra) ltac:(lra)). destruct (penalty_cases h) as [(S & ->)|[(S & ->)|[(S & ->)|[(S & ->)|[(S & ->)|[(S & ->)|(S & ->)]]]]]]; try lra.
      pose proof (sq_le h k ltac:(lra) K). lra.
    + destruct (penalty_cases h) as [(S & ->)|[(S & ->)|[(S & ->)|[(S & ->)|[(S & ->)|[(S & ->)|(S & ->)]]]]]]; try lra.
      pose proof (sq_range h ltac:(lra) ltac:(lra)). lra.
Qed.

Section Planar.
Variable ph : physics.
Variable j : job.
Variable copper : strand -> Q.
Variable sized : strand -> Q -> strand.
Variables border gap : Q.
(** The width of each of [n] turns side by side, with the distances kept. *)
Definition fills (n : Z) (x : Q) : Prop := inject_Z n * x + inject_Z (n - 1) * gap + 2 * border == fst (size_of (where_ j)).
Definition per_section : Z := turns_per_section j.
(** All turns side by side with two parallels or more, or the turns of one section with
    one; in both cases the parallels the current needs. *)
Definition planar_offer (ws : list strand) (c : candidate) : Prop :=
  exists w x n, In w ws /\ copper w < snd (size_of (where_ j)) /\ fst c = sized w x /\ needed ph (sized w x) = Ok n /\ 0 <= x /\
    ((fills (turns j) x /\ (2 <= snd c <= most j)%Z /\ (n <= snd c)%Z) \/
     (fills per_section x /\ snd c = 1%Z /\ (n <= 1)%Z)).

Lemma from_to_in : forall a b p, In p (from_to a b) <-> (a <= p <= b)%Z.
Proof.
  intros a b p. unfold from_to. rewrite in_map_iff. split.
  - intros (i & <- & I0). apply in_seq in I0. lia.
  - intros (L & H). exists (Z.to_nat (p - a)). split; [lia|]. apply in_seq. lia.
Qed.
Lemma with_in : forall x ws d, with_parallels ph j copper sized x ws = Ok d -> forall e, In e d <->
  exists w n, In w ws /\ copper w < snd (size_of (where_ j)) /\ fst (fst e) = sized w x /\ needed ph (sized w x) = Ok n /\
    (Z.max 2 n <= snd (fst e) <= most j)%Z /\ snd e = - penalty (copper w * 1000000).
Proof.
  induction ws as [|w ws IH]; intros d H e; cbn [with_parallels] in H.
  - injection H as <-. split; [intros []|intros (w & n & [] & _)].
  - destruct (Qlt_bool (copper w) _) eqn:L.
    + apply Qlt_bool_iff in L. apply bind_ok in H. destruct H as (n & N & H). apply bind_ok in H. destruct H as (r & R & H). injection H as <-.
      rewrite in_app_iff, in_map_iff, (IH r R e). split.
      * intros [(p & <- & I0)|(w' & n' & I0 & Rest)].
        -- apply from_to_in in I0. exists w, n. repeat split; try assumption; try reflexivity; [left; reflexivity|apply I0|apply I0].
        -- exists w', n'. split; [right; exact I0|exact Rest].
      * intros (w' & n' & [<-|I0] & A & B & C & D & E).
        -- left. rewrite N in C. injection C as <-. exists (snd (fst e)). split; [|apply from_to_in, D]. destruct e as ((a, p), s). cbn [fst snd] in *. rewrite B, E. reflexivity.
        -- right. exists w', n'. repeat split; try assumption; apply D.
    + apply Qlt_bool_false in L. rewrite (IH d H e). split; intros (w' & n' & I0 & A & Rest).
      * exists w', n'. split; [right; exact I0|]. split; [exact A|exact Rest].
      * destruct I0 as [<-|I0]; [lra|]. exists w', n'. split; [exact I0|]. split; [exact A|exact Rest].
Qed.
Lemma without_in : forall x ws d, without_parallels ph j copper sized x ws = Ok d -> forall e, In e d <->
  exists w n, In w ws /\ copper w < snd (size_of (where_ j)) /\ fst (fst e) = sized w x /\ needed ph (sized w x) = Ok n /\
    (n <= 1)%Z /\ snd (fst e) = 1%Z /\ snd e = - penalty (copper w * 1000000).
Proof.
  induction ws as [|w ws IH]; intros d H e; cbn [without_parallels] in H.
  - injection H as <-. split; [intros []|intros (w & n & [] & _)].
  - destruct (Qlt_bool (copper w) _) eqn:L.
    + apply Qlt_bool_iff in L. apply bind_ok in H. destruct H as (n & N & H). apply bind_ok in H. destruct H as (r & R & H). injection H as <-.
      transitivity ((n <= 1)%Z /\ e = ((sized w x, 1%Z), - penalty (copper w * 1000000)) \/ In e r).
      { destruct (Z.leb n 1) eqn:Q1; [apply Z.leb_le in Q1|apply Z.leb_gt in Q1]; cbn [In]; split; intro X; [destruct X as [<-|X]; auto|destruct X as [(_ & ->)|X]; auto|auto|destruct X as [(X & _)|X]; [lia|exact X]]. }
      rewrite (IH r R e). split.
      * intros [(Q1 & ->)|(w' & n' & I0 & Rest)].
        -- exists w, n. repeat split; try assumption. left. reflexivity.
        -- exists w', n'. split; [right; exact I0|exact Rest].
      * intros (w' & n' & [<-|I0] & A & B & C & D & E & F).
        -- left. rewrite N in C. injection C as <-. split; [exact D|]. destruct e as ((a, p), s). cbn [fst snd] in *. rewrite B, E, F. reflexivity.
        -- right. exists w', n'. repeat split; assumption.
    + apply Qlt_bool_false in L. rewrite (IH d H e). split; intros (w' & n' & I0 & A & Rest).
      * exists w', n'. split; [right; exact I0|]. split; [exact A|exact Rest].
      * destruct I0 as [<-|I0]; [lra|]. exists w', n'. split; [exact I0|]. split; [exact A|exact Rest].
Qed.
Lemma fills_width : forall n, (0 < n)%Z -> fills n (width_for j border gap n / inject_Z n).
Proof.
  intros n N. unfold fills, width_for. assert (0 < inject_Z n) by (change 0 with (inject_Z 0); rewrite <- Zlt_Qlt; exact N). field. lra.
Qed.
Lemma fills_unique : forall n x, (0 < n)%Z -> fills n x -> x == width_for j border gap n / inject_Z n.
Proof.
  intros n x N F. unfold fills in F. unfold width_for. assert (0 < inject_Z n) by (change 0 with (inject_Z 0); rewrite <- Zlt_Qlt; exact N).
  assert (E : inject_Z n * x == fst (size_of (where_ j)) - 2 * border - inject_Z (n - 1) * gap) by lra. rewrite <- E. field. lra.
Qed.
Lemma per_section_pos : (0 < turns j)%Z -> (0 < per_section)%Z.
Proof.
  intro T. unfold per_section, turns_per_section. assert (P : 0 < inject_Z (turns j) / inject_Z (Zpos (sections j))).
  { apply Qlt_shift_div_l; [reflexivity|]. rewrite Qmult_0_l. change 0 with (inject_Z 0). rewrite <- Zlt_Qlt. exact T. }
  pose proof (Qle_ceiling (inject_Z (turns j) / inject_Z (Zpos (sections j)))) as C. assert (X : inject_Z 0 < inject_Z (Qceiling (inject_Z (turns j) / inject_Z (Zpos (sections j))))) by (change (inject_Z 0) with 0; lra).
  rewrite <- Zlt_Qlt in X. exact X.
Qed.
Theorem C212_offers : forall ws d, (0 < turns j)%Z -> planar_dataset ph j copper sized border gap ws = Ok d ->
  forall e, In e d -> planar_offer ws (fst e) /\ exists w, In w ws /\ snd e = - penalty (copper w * 1000000).
Proof.
  intros ws d T H e I0. unfold planar_dataset in H. destruct (Qlt_bool (width_for j border gap (turns j)) 0) eqn:W1; [injection H as <-; destruct I0|].
  apply Qlt_bool_false in W1. apply bind_ok in H. destruct H as (a & A & H).
  assert (NN : forall n, (0 < n)%Z -> 0 <= width_for j border gap n -> 0 <= width_for j border gap n / inject_Z n).
  { intros n N X. apply Qle_shift_div_l; [change 0 with (inject_Z 0); rewrite <- Zlt_Qlt; exact N|lra]. }
  assert (PA : In e a -> planar_offer ws (fst e) /\ exists w, In w ws /\ snd e = - penalty (copper w * 1000000)).
  { intro I1. apply (with_in _ _ _ A) in I1. destruct I1 as (w & n & I1 & L & E & N & P & S). split; [|exists w; auto].
    exists w, (width_for j border gap (turns j) / inject_Z (turns j)), n. repeat split; try assumption; [apply NN; assumption|]. left. split; [apply fills_width, T|lia]. }
  destruct (Qlt_bool (width_for j border gap (turns_per_section j)) 0) eqn:W2; [injection H as <-; apply PA, I0|]. apply Qlt_bool_false in W2.
  apply bind_ok in H. destruct H as (b & B & H). injection H as <-. apply in_app_or in I0. destruct I0 as [I0|I0]; [apply PA, I0|].
  apply (without_in _ _ _ B) in I0. destruct I0 as (w & n & I0 & L & E & N & P & P1 & S). split; [|exists w; auto].
  exists w, (width_for j border gap per_section / inject_Z per_section), n. repeat split; try assumption; [apply NN; [apply per_section_pos, T|exact W2]|].
  right. split; [apply fills_width, per_section_pos, T|auto].
Qed.
(** Conversely, when all turns fit side by side every such candidate is there. *)
Theorem C212_complete : forall ws d w n p, (0 < turns j)%Z -> planar_dataset ph j copper sized border gap ws = Ok d ->
  0 <= width_for j border gap (turns j) -> In w ws -> copper w < snd (size_of (where_ j)) ->
  (needed ph (sized w (width_for j border gap (turns j) / inject_Z (turns j))) = Ok n -> (2 <= p <= most j)%Z -> (n <= p)%Z ->
     among d (sized w (width_for j border gap (turns j) / inject_Z (turns j)), p)) /\
  (0 <= width_for j border gap per_section -> needed ph (sized w (width_for j border gap per_section / inject_Z per_section)) = Ok n -> (n <= 1)%Z ->
     among d (sized w (width_for j border gap per_section / inject_Z per_section), 1%Z)).
Proof.
  intros ws d w n p T H W I0 L. unfold planar_dataset in H. replace (Qlt_bool (width_for j border gap (turns j)) 0) with false in H by (symmetry; apply Qlt_bool_false; exact W).
  apply bind_ok in H. destruct H as (a & A & H). split.
  - intros N P M. assert (IA : In ((sized w (width_for j border gap (turns j) / inject_Z (turns j)), p), - penalty (copper w * 1000000)) a).
    { apply (with_in _ _ _ A). exists w, n. cbn [fst snd]. repeat split; try assumption; lia. }
    exists (- penalty (copper w * 1000000)). destruct (Qlt_bool _ 0); [injection H as <-; exact IA|]. apply bind_ok in H. destruct H as (b & B & H). injection H as <-. apply in_or_app. left. exact IA.
  - intros W2 N M. change (turns_per_section j) with per_section in H. replace (Qlt_bool (width_for j border gap per_section) 0) with false in H by (symmetry; apply Qlt_bool_false; exact W2).
    apply bind_ok in H. destruct H as (b & B & H). injection H as <-. exists (- penalty (copper w * 1000000)). apply in_or_app. right.
    apply (without_in _ _ _ B). exists w, n. cbn [fst snd]. repeat split; assumption.
Qed.
(** A winding whose turns only fit when spread over the sections is offered no wire. *)
Theorem C212_spread_refuted : forall ws, width_for j border gap (turns j) < 0 -> planar_dataset ph j copper sized border gap ws = Ok [].
Proof. intros ws W. unfold planar_dataset. replace (Qlt_bool _ 0) with true by (symmetry; apply Qlt_bool_iff; exact W). reflexivity. Qed.
(** The planar advice is the beginning of a ranking of its candidates, with scores from
    minus one to three. *)
Theorem C212_ranking : forall seen ws shown m, advise_planar ph j copper sized border gap seen ws = Ok (shown, m) ->
  exists d rest, planar_dataset ph j copper sized border gap ws = Ok d /\ StronglySorted rightly_before (shown ++ rest)%list /\
    (forall c, among (shown ++ rest)%list c <-> among d c) /\
    (rest = [] \/ List.length shown = results j) /\ (List.length shown <= results j)%nat.
Proof.
  intros seen ws shown m H. unfold advise_planar in H. apply bind_ok in H. destruct H as (d & HD & H).
  destruct (scored _ _ _ _ _ _ H) as (f & t & full & _ & ES & O & RG & _).
  destruct (firstn_split _ (results j) full) as (rest & E1 & E2 & E3). rewrite <- ES in *. exists d, rest. rewrite <- E1.
  split; [exact HD|]. split; [|split; [|auto]].
  - clear - O. unfold in_order in O. induction O as [|x r S IH F]; constructor; [exact IH|]. eapply Forall_impl; [|exact F]. intros y. apply ahead_rightly.
  - intro c. apply (regraded_in _ _ _ c RG).
Qed.
Theorem C212_bounds : forall seen ws shown m, (0 < turns j)%Z -> advise_planar ph j copper sized border gap seen ws = Ok (shown, m) ->
  forall x, In x shown -> - (1) <= snd x <= 3.
Proof.
  intros seen ws shown m T H x I0. unfold advise_planar in H. apply bind_ok in H. destruct H as (d & HD & H).
  destruct (scored _ _ _ _ _ _ H) as (f & t & full & _ & -> & _ & RG & B & _). apply in_firstn in I0.
  pose proof RG as (g & G & P). apply (Permutation_in _ P) in I0. apply in_map_iff in I0. destruct I0 as (y & <- & I0). cbn [fst snd]. rewrite G.
  specialize (B (fst y) ltac:(exists (snd y); destruct y; exact I0)). destruct (C212_offers ws d T HD y I0) as (_ & w & _ & ->).
  pose proof (C212_penalty (copper w * 1000000)) as (PB & _). destruct (harmonics j); lra.
Qed.
(** The proportion reported for planar wires is never less than that of the search before,
    whatever the coil of that search. *)
Theorem C212_proportion_refuted : forall seen ws shown m, advise_planar ph j copper sized border gap seen ws = Ok (shown, m) ->
  seen <= m /\ ((forall c, among shown c -> proportion ph j c < seen) -> m = seen).
Proof.
  intros seen ws shown m H. unfold advise_planar in H. apply bind_ok in H. destruct H as (d & _ & H).
  destruct (scored _ _ _ _ _ _ H) as (f & t & full & _ & _ & _ & _ & _ & _ & _ & HM).
  destruct (measure_greatest _ _ _ _ _ HM) as (A & B & C). split; [exact A|]. intro S. destruct C as [C|((c, s) & I0 & C)]; [exact C|].
  specialize (S c ltac:(exists s; exact I0)). cbn [fst] in C. rewrite <- C in S. lra.
Qed.
End Planar.

(** Planar copper 0.1 high in a section 10 wide; a turn at least one wide carries the current. *)
Definition trace_ : strand := mkStrand PLANAR None None None (Some (1 # 10)) true 1.
Definition traced (w : strand) (x : Q) : strand := mkStrand PLANAR None None (Some x) (high w) true (if Qle_bool 1 x then 1 else 3).
Definition thin (w : strand) : Q := 1 # 10000.
Definition planar_job (n : Z) (k : positive) : job := mkJob n (mkPlace (Some Cartesian) (10, 10)) k (Some 100) true 4 false demo_switches 3.
Example C212_witness :
  (exists shown m, advise_planar demo (planar_job 5 5) thin traced (1 # 2) (1 # 4) 0 [trace_] = Ok (shown, m) /\
    map (fun x => snd (fst x)) shown = [1; 2; 3]%Z /\ Forall (fun x => wide (fst (fst x)) <> None) shown) /\
  width_for (planar_job 50 50) (1 # 2) (1 # 4) 50 < 0 /\ 0 <= width_for (planar_job 50 50) (1 # 2) (1 # 4) (turns_per_section (planar_job 50 50)) /\
  planar_dataset demo (planar_job 50 50) thin traced (1 # 2) (1 # 4) [trace_] = Ok [] /\
  penalty (280 # 1) == 5 # 8.
Proof.
  split; [do 2 eexists; split; [vm_compute; reflexivity|split; [reflexivity|repeat constructor; discriminate]]|].
  split; [reflexivity|]. split; [discriminate|]. split; reflexivity.
Qed.

(** * C213: which wires of the catalogue are considered *)
(** A wire of the catalogue is considered when its type is switched on, a rectangular one
    moreover when rectangular wires are allowed on toroids or the section is Cartesian, and
    when it is of the standard common to all wires or of none. *)
Definition allowed_type (s : switches) (p : place) (k : wire_type) : Prop :=
  match k with
  | FOIL => on_foil s = true | PLANAR => on_planar s = true | LITZ => on_litz s = true | ROUND_WIRE => on_round s = true
  | RECTANGULAR_WIRE => on_rectangular s = true /\ (on_toroids s = true \/ axes_of p = Some Cartesian)
  end.
Definition same_standard (common : option nat) (w : strand) : Prop := forall a b, common = Some a -> standard_of w = Some b -> a = b.
Lemma allowed_iff : forall s p w, switched_on s p w = true <-> allowed_type s p (kind_of w).
Proof.
  intros s p w. unfold switched_on, allowed_type, says_cartesian. destruct (kind_of w); try tauto.
  rewrite andb_true_iff, orb_true_iff. destruct (axes_of p) as [[|]|]; intuition congruence.
Qed.
Lemma same_iff : forall common w, of_standard common w = true <-> same_standard common w.
Proof.
  intros common w. unfold of_standard, same_standard. destruct common as [c|], (standard_of w) as [x|]; try (split; [intros _ a b; congruence|reflexivity]).
  rewrite Nat.eqb_eq. split; [intros E a b A B; congruence|intro H; symmetry; apply H; reflexivity].
Qed.
Theorem C213_considered : forall s common p accepts db w,
  (In w (from_catalogue s common p db) <-> In w db /\ allowed_type s p (kind_of w) /\ same_standard common w) /\
  (In w (from_constraint accepts common db) <-> In w db /\ accepts (kind_of w) = true /\ same_standard common w).
Proof.
  intros s common p accepts db w. unfold from_catalogue, from_constraint. rewrite !filter_In, !andb_true_iff, allowed_iff, same_iff. tauto.
Qed.
(** So whatever is advised is a wire of the catalogue, of an allowed type and of the
    standard, both with a constraint on the type and without one. *)
Theorem C213_advised : forall ph j seen common accepts db ws shown m, 0 < room ph j ->
  ws = from_catalogue (switches_of j) common (where_ j) db \/ ws = from_constraint accepts common db ->
  advise ph j seen ws = Ok (shown, m) ->
  forall c, among shown c -> exists w, In w db /\ fst c = cut ph w /\ allowed_type (switches_of j) (where_ j) (kind_of w) /\ same_standard common w /\
    (ws = from_constraint accepts common db -> accepts (kind_of w) = true).
Proof.
  intros ph j seen common accepts db ws shown m R W H c X. apply (C210_only_eligible _ _ _ _ _ _ R H) in X.
  destruct X as (((w & I0 & S & E & _) & _) & _). apply allowed_iff in S. exists w.
  assert (G : ws = from_constraint accepts common db -> accepts (kind_of w) = true).
  { intros ->. apply (proj2 (C213_considered (switches_of j) common (where_ j) accepts db w)) in I0. apply I0. }
  destruct W as [->| ->].
  - apply (proj1 (C213_considered (switches_of j) common (where_ j) accepts db w)) in I0. destruct I0 as (I0 & _ & N). repeat split; assumption.
  - apply (proj2 (C213_considered (switches_of j) common (where_ j) accepts db w)) in I0. destruct I0 as (I0 & _ & N). repeat split; assumption.
Qed.
(** A constraint on the type does not decide alone: a type asked for and switched off gives
    an empty advice. *)
Theorem C213_constraint_refuted : forall ph j seen common accepts db shown m, 0 < room ph j ->
  (forall k, accepts k = true -> ~ allowed_type (switches_of j) (where_ j) k) ->
  advise ph j seen (from_constraint accepts common db) = Ok (shown, m) -> shown = [].
Proof.
  intros ph j seen common accepts db shown m R N H. destruct shown as [|x r]; [reflexivity|exfalso].
  destruct (C213_advised _ _ _ common accepts db _ _ _ R (or_intror eq_refl) H (fst x) ltac:(exists (snd x); left; destruct x; reflexivity)) as (w & _ & _ & A & _ & B).
  exact (N _ (B eq_refl) A).
Qed.
(** A section that does not say its coordinate system is measured as a Cartesian one and
    yet, unless allowed on toroids, gets no rectangular wire. *)
Theorem C213_no_system_refuted : forall ph j seen ws shown m, 0 < room ph j -> axes_of (where_ j) = None -> on_toroids (switches_of j) = false ->
  (forall w, kind_of (cut ph w) = kind_of w) ->
  section_of (where_ j) = section_of (mkPlace (Some Cartesian) (size_of (where_ j))) /\
  (advise ph j seen ws = Ok (shown, m) -> forall c, among shown c -> kind_of (fst c) <> RECTANGULAR_WIRE).
Proof.
  intros ph j seen ws shown m R N T K. split; [unfold section_of, is_polar; rewrite N; reflexivity|]. intros H c X E.
  apply (C210_only_eligible _ _ _ _ _ _ R H) in X. destruct X as (((w & I0 & S & F & _) & _) & _). apply allowed_iff in S.
  rewrite F, K in E. rewrite E in S. cbn in S. rewrite N, T in S. destruct S as (_ & [S|S]); discriminate.
Qed.
Definition only_round : switches := mkSwitches false false true false true false.
Definition bare_job : job := mkJob 10 (mkPlace None (10, 10)) 1 (Some 100) true 4 false only_round 3.
Definition standard_wire (d : Q) (s : option nat) : strand := mkStrand ROUND_WIRE s (Some d) None None true 1.
Example C213_witness :
  from_catalogue only_round (Some 1%nat) (where_ bare_job) [standard_wire 1 (Some 2%nat); standard_wire 2 (Some 1%nat); standard_wire 3 None; flat_wire 1; trace_] = [standard_wire 2 (Some 1%nat); standard_wire 3 None] /\
  (exists x r m, advise demo bare_job 0 (from_constraint (fun k => match k with ROUND_WIRE => true | _ => false end) None [standard_wire 1 None; flat_wire 1]) = Ok (x :: r, m)) /\
  advise demo bare_job 0 (from_constraint (fun k => match k with RECTANGULAR_WIRE => true | _ => false end) None [standard_wire 1 None; flat_wire 1]) = Ok ([], 0) /\
  0 < room demo bare_job.
Proof. split; [reflexivity|]. split; [do 3 eexists; vm_compute; reflexivity|]. split; reflexivity. Qed.

(** The proximity filter expects a skin depth and is given the frequency: which of two
    wires it prefers, and how its scores compare, is the same at every frequency. *)
Theorem C211_proximity_frequency_refuted : forall ph j f g c d, 0 < f -> 0 < g ->
  exists x y, effect ph j f c = Some x /\ effect ph j f d = Some y /\ exists x' y', effect ph j g c = Some x' /\ effect ph j g d = Some y' /\ (x <= y <-> x' <= y') /\ x * f == x' * g /\ x * y' == x' * y.
Proof.
  intros ph j f g c d F G.
  assert (E : forall h e, 0 < h -> effect ph j h e = Some (thickness ph (fst e) / h * (inject_Z (match conductors ph (fst e) with Some n => n | None => 1 end * snd e * turns j) * inject_Z (match conductors ph (fst e) with Some n => n | None => 1 end * snd e * turns j)))).
  { intros h e H. unfold effect, score, by_proximity. cbv zeta. replace (Qeq_bool h 0) with false; [reflexivity|]. symmetry. destruct (Qeq_bool h 0) eqn:Q; [apply Qeq_bool_iff in Q; lra|reflexivity]. }
  do 2 eexists. split; [apply E, F|]. split; [apply E, F|]. do 2 eexists. split; [apply E, G|]. split; [apply E, G|].
  set (nc := inject_Z (match conductors ph (fst c) with Some n => n | None => 1 end * snd c * turns j)). set (nd := inject_Z (match conductors ph (fst d) with Some n => n | None => 1 end * snd d * turns j)).
  clearbody nc nd. set (tc := thickness ph (fst c)). set (td := thickness ph (fst d)). clearbody tc td.
  assert (SC : forall h t n, 0 < h -> t / h * (n * n) == (t * (n * n)) * / h) by (intros h t n H; field; lra).
  rewrite !SC by assumption. assert (IF : 0 < / f) by (apply Qinv_lt_0_compat, F). assert (IG : 0 < / g) by (apply Qinv_lt_0_compat, G).
  split; [|split; field; split; lra]. rewrite !Qmult_le_r by assumption. tauto.
Qed.
Example C211_proximity_witness : effect demo demo_job 100 (round_wire 1 1, 1%Z) = Some ((1 / 100) * (100 # 1)) /\ exists x y, effect demo demo_job 50 (round_wire 2 1, 1%Z) = Some x /\ effect demo demo_job 100 (round_wire 2 1, 1%Z) = Some y /\ x == 4 /\ y == 2.
Proof. split; [reflexivity|]. do 2 eexists. split; [reflexivity|]. split; [reflexivity|]. split; reflexivity. Qed.

Print Assumptions C210_ranking.
Print Assumptions C210_only_eligible.
Print Assumptions C210_carries.
Print Assumptions C210_no_frequency.
Print Assumptions C210_proportion.
Print Assumptions C211_bounds.
Print Assumptions C211_dominance.
Print Assumptions C211_parallels_preferred_refuted.
Print Assumptions C210_rectangular_density_refuted.
Print Assumptions C210_one_parallel_refuted.
Print Assumptions C212_penalty.
Print Assumptions C212_offers.
Print Assumptions C212_complete.
Print Assumptions C212_spread_refuted.
Print Assumptions C212_ranking.
Print Assumptions C212_bounds.
Print Assumptions C212_proportion_refuted.
Print Assumptions C213_considered.
Print Assumptions C213_advised.
Print Assumptions C213_constraint_refuted.
Print Assumptions C213_no_system_refuted.
Print Assumptions C211_proximity_frequency_refuted.
