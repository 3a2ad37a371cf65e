(** Property C31. *)
From Coq Require Import ZArith QArith Qround Qabs List String Bool Lia Lqa Arith.
From Verif Require Import Base QAux UtilsNumModel UtilsNumProofs UtilsNumProperties NumberTurnsModel.
Import ListNotations.
Open Scope Q_scope.

(** ** Specification vocabulary *)
(** A requirement that gives one number only. *)
Definition bare (r : dwt) : Prop := minimum r = None /\ maximum r = None.
(** A realised ratio is good for a requirement: inside its documented range and,
    for one number only, within two percent of it. *)
Definition good_ratio (r : dwt) (v : Q) : Prop :=
  meets r v /\ forall n, nominal r = Some n -> bare r -> Qabs (v - n) <= n * (2#100).
(** A combination: primary and one secondary per requirement, each at least one
    turn. *)
Definition good_combination (reqs : list dwt) (p : Z) (ss : list Z) : Prop :=
  Forall2 (fun r s => (1 <= s)%Z /\ good_ratio r (inject_Z p / inject_Z s)) reqs ss.
Definition primary (l : list Z) : Z := hd 0%Z l.

(** ** Lemmas *)
Lemma round_up_ok : forall fuel m p, (0 < m)%Z ->
  (forall d, 0 <= d -> (p + d) mod m = 0 -> d <= Z.of_nat fuel -> 
     exists q, round_up fuel m p = Ok q /\ (p <= q <= p + d) /\ q mod m = 0 /\
       (forall x, p <= x < q -> x mod m <> 0))%Z.
Proof.
  induction fuel as [|k IH]; intros m p Hm d Hd Hz Hf; cbn [round_up].
  - replace d with 0%Z in * by lia. rewrite Z.add_0_r in Hz. rewrite Hz. cbn.
    exists p. repeat split; try lia.
  - destruct (p mod m =? 0)%Z eqn:E.
    + apply Z.eqb_eq in E. exists p. repeat split; try lia.
    + apply Z.eqb_neq in E.
      destruct (Z.eq_dec d 0) as [->|Nd]; [rewrite Z.add_0_r in Hz; lia|].
      destruct (IH m (p + 1)%Z Hm (d - 1)%Z) as [q [A [B [C D]]]]; [lia| |lia|].
      { replace (p + 1 + (d - 1))%Z with (p + d)%Z by lia. exact Hz. }
      exists q. repeat split; try lia; [exact A|].
      intros x Hx. destruct (Z.eq_dec x p) as [->|]; [exact E|]. apply D. lia.
Qed.

Lemma advance_ok : forall m p, (0 < m)%Z ->
  exists q, advance m p = Ok q /\ (p + m <= q < p + m + m)%Z /\ (m | q)%Z /\
    forall x, (p + m <= x < q)%Z -> ~ (m | x)%Z.
Proof.
  intros m p Hm. unfold advance. destruct (m =? 0)%Z eqn:E; [apply Z.eqb_eq in E; lia|].
  pose proof (Z.mod_pos_bound (p + m) m Hm) as B.
  set (r := ((p + m) mod m)%Z) in *.
  pose proof (Z.div_mod (p + m) m ltac:(lia)) as DM. fold r in DM.
  destruct (Z.eq_dec r 0) as [R|R].
  - destruct (round_up_ok (Z.to_nat m) m (p + m) Hm 0) as [q [A [C [D F]]]]; try lia.
    + rewrite Z.add_0_r. exact R.
    + exists q. split; [exact A|]. split; [lia|]. split; [apply Z.mod_divide; lia|].
      intros x Hx. lia.
  - destruct (round_up_ok (Z.to_nat m) m (p + m) Hm (m - r)) as [q [A [C [D F]]]]; try lia.
    + apply Z.mod_divide; [lia|]. exists ((p + m) / m + 1)%Z. lia.
    + exists q. split; [exact A|]. split; [lia|]. split; [apply Z.mod_divide; lia|].
      intros x Hx Dx. apply (F x Hx). apply Z.mod_divide; [lia|exact Dx].
Qed.

Lemma check_true : forall r v, check_requirement r v = Ok true -> meets r v.
Proof.
  intros [[mn|] [n|] [mx|]] v; unfold check_requirement; cbn;
    repeat match goal with
    | |- (if ?b then _ else _) = _ -> _ => destruct b; [discriminate|]
    end; intros [= E]; qb; try discriminate;
    constructor; unfold magnetizingInductanceThresholdValidity in *; lra.
Qed.
Lemma check_false : forall r v, check_requirement r v = Ok false -> ~ meets r v.
Proof.
  intros [[mn|] [n|] [mx|]] v; unfold check_requirement; cbn;
    repeat match goal with
    | |- (if ?b then _ else _) = _ -> _ => destruct b; [discriminate|]
    end; intros E M; inversion M; subst; injection E as E; unfold magnetizingInductanceThresholdValidity in *;
    apply not_true_iff_false in E; apply E;
    rewrite ?Bool.andb_true_iff, ?Qle_bool_iff, ?Qlt_bool_iff; try split; lra.
Qed.

(** A resolved requirement: the ratio is positive and is the nominal value when
    there is one. *)
Definition resolved (rq : dwt * Q) : Prop :=
  0 < snd rq /\ forall n, nominal (fst rq) = Some n -> snd rq = n.

Lemma nominal_only_iff : forall r, nominal_only r = true <-> bare r /\ nominal r <> None.
Proof.
  intros [[mn|] [n|] [mx|]]; cbn; unfold bare; cbn; split; try discriminate;
    try (intros [[? ?] ?]; discriminate || tauto); try (intros _; repeat split; discriminate).
Qed.

Lemma qround_pos_strict : forall x, 0 < x -> x < inject_Z (qround x) + (1#2).
Proof.
  intros x H. unfold qround. destruct (Qle_bool 0 x) eqn:E; qb; [|lra].
  pose proof (Qfloor_bounds (x + (1#2))) as [_ B]. lra.
Qed.

Lemma acceptable_iff : forall r ratio v, resolved (r, ratio) -> 
  forall b, check_requirement r v = Ok b ->
  (b && (negb (nominal_only r) || Qle_bool (Qabs (v - ratio)) (tight_tolerance * ratio)) = true
   <-> good_ratio r v).
Proof.
  intros r ratio v [P N] b E. cbn in P, N. unfold good_ratio, tight_tolerance.
  rewrite Bool.andb_true_iff, Bool.orb_true_iff, Qle_bool_iff, Bool.negb_true_iff. split.
  - intros [-> H]. split; [apply check_true; exact E|]. intros n Hn B.
    destruct H as [H|H].
    + apply not_true_iff_false in H. exfalso. apply H. apply nominal_only_iff. split; [exact B|congruence].
    + rewrite <- (N n Hn). lra.
  - intros [M T]. split.
    + destruct b; [reflexivity|]. exfalso. exact (check_false _ _ E M).
    + destruct (nominal_only r) eqn:O; [right|left; reflexivity].
      apply nominal_only_iff in O. destruct O as [B O]. destruct (nominal r) as [n|] eqn:Hn; [|tauto].
      specialize (T n eq_refl B). rewrite (N n eq_refl). lra.
Qed.

Lemma attempt_found : forall reqs p l, (0 <= p)%Z -> Forall resolved reqs ->
  attempt reqs p = (l, Ok true) -> good_combination (map fst reqs) p l.
Proof.
  induction reqs as [|[r q] rest IH]; intros p l Hp F; cbn [attempt map fst].
  - intros [= <-]. constructor.
  - apply Forall_cons_iff in F. destruct F as [R F].
    set (n := qround (inject_Z p / q)).
    assert (0 <= n)%Z.
    { apply qround_nonneg. apply Qle_div_iff; [exact (proj1 R)|]. rewrite Qmult_0_l.
      change 0 with (inject_Z 0). rewrite <- Zle_Qle. exact Hp. }
    destruct (n =? 0)%Z eqn:E0; [discriminate|]. apply Z.eqb_neq in E0.
    destruct (check_requirement r (inject_Z p / inject_Z n)) as [b|e|e|] eqn:E; try discriminate.
    pose proof (acceptable_iff r q _ R b E) as A.
    destruct (b && _) eqn:EB; [|discriminate].
    destruct (attempt rest p) as [l' b'] eqn:ER. intros [= <- ->].
    constructor; [|apply IH; assumption]. split; [lia|]. apply A. reflexivity.
Qed.

Lemma attempt_sizes : forall reqs p, (0 <= p)%Z -> Forall resolved reqs ->
  (List.length (fst (attempt reqs p)) <= List.length reqs)%nat.
Proof.
  induction reqs as [|[r q] rest IH]; intros p Hp F; cbn [attempt]; [cbn; lia|].
  apply Forall_cons_iff in F. destruct F as [R F].
  destruct (_ =? 0)%Z; [cbn; lia|].
  destruct (check_requirement _ _); try (cbn; lia).
  destruct (_ && _); [|cbn; lia].
  specialize (IH p Hp F). destruct (attempt rest p). cbn in *. lia.
Qed.

(** The rounded secondaries are refused: nothing good can be made of them. *)
Definition rounded (reqs : list (dwt * Q)) (p : Z) : list Z :=
  map (fun rq => qround (inject_Z p / snd rq)) reqs.
Lemma attempt_refused : forall reqs p l, Forall resolved reqs ->
  attempt reqs p = (l, Ok false) -> ~ good_combination (map fst reqs) p (rounded reqs p).
Proof.
  induction reqs as [|[r q] rest IH]; intros p l F; cbn [attempt map fst rounded snd].
  - discriminate.
  - apply Forall_cons_iff in F. destruct F as [R F].
    set (n := qround (inject_Z p / q)).
    destruct (n =? 0)%Z eqn:E0.
    { apply Z.eqb_eq in E0. intros _ G. inversion G; subst. lia. }
    destruct (check_requirement r (inject_Z p / inject_Z n)) as [b|e|e|] eqn:E; try discriminate.
    pose proof (acceptable_iff r q _ R b E) as A.
    destruct (b && _) eqn:EB.
    + destruct (attempt rest p) as [l' b'] eqn:ER. intros [= <- ->] G.
      inversion G; subst. exact (IH p l' F ER H4).
    + intros _ G. inversion G; subst. destruct H2 as [_ H2]. apply A in H2. discriminate.
Qed.

(** For a single number, rounding finds a good secondary whenever there is one. *)
Lemma rounding_is_enough : forall n p s, 0 < n -> (0 <= p)%Z -> (1 <= s)%Z ->
  Qabs (inject_Z p / inject_Z s - n) <= n * (2#100) ->
  let z := qround (inject_Z p / n) in
  (1 <= z)%Z /\ Qabs (inject_Z p / inject_Z z - n) <= n * (2#100).
Proof.
  intros n p s Hn Hp Hs H.
  assert (HS : 1 <= inject_Z s) by (change 1 with (inject_Z 1); rewrite <- Zle_Qle; exact Hs).
  assert (PS : 0 < inject_Z s) by lra.
  set (x := inject_Z p / n).
  assert (EX : inject_Z p == x * n) by (unfold x; field; lra).
  apply Qabs_Qle_condition in H. destruct H as [L U].
  assert (L' : (98#100) * n <= inject_Z p / inject_Z s) by lra.
  assert (U' : inject_Z p / inject_Z s <= (102#100) * n) by lra.
  rewrite (Qle_div_iff _ _ _ PS) in L'. rewrite (Qdiv_le_iff _ _ _ PS) in U'.
  assert (LX : (98#100) * inject_Z s <= x).
  { unfold x. apply Qle_div_iff; [exact Hn|]. lra. }
  assert (UX : x <= (102#100) * inject_Z s).
  { unfold x. apply Qdiv_le_iff; [exact Hn|]. lra. }
  assert (XP : 0 < x) by lra.
  pose proof (qround_bounds x) as [B _]. pose proof (qround_pos_strict x XP) as C.
  set (z := qround x) in *. cbv zeta.
  assert (Z1 : (1 <= z)%Z).
  { destruct (Z_lt_le_dec z 1) as [Lt|Ge]; [|exact Ge]. exfalso.
    assert (inject_Z z <= 0) by (change 0 with (inject_Z 0); rewrite <- Zle_Qle; lia). lra. }
  split; [exact Z1|].
  assert (HZ : 1 <= inject_Z z) by (change 1 with (inject_Z 1); rewrite <- Zle_Qle; exact Z1).
  assert (K : (98#100) * inject_Z z <= x /\ x <= (102#100) * inject_Z z).
  { destruct (Z.lt_trichotomy s z) as [Lt|[->|Gt]].
    - assert (G1 : inject_Z s <= inject_Z z - 1).
      { assert (inject_Z (s + 1) <= inject_Z z) by (rewrite <- Zle_Qle; lia).
        rewrite inject_Z_plus in H. change (inject_Z 1) with 1 in H. lra. }
      split; [|lra].
      assert (26 <= inject_Z z) by lra. lra.
    - split; assumption.
    - assert (G1 : inject_Z z + 1 <= inject_Z s).
      { assert (inject_Z (z + 1) <= inject_Z s) by (rewrite <- Zle_Qle; lia).
        rewrite inject_Z_plus in H. change (inject_Z 1) with 1 in H. lra. }
      split; [lra|].
      assert (24 < inject_Z z) by lra.
      assert (25 <= inject_Z z).
      { change 24 with (inject_Z 24) in H. change 25 with (inject_Z 25).
        rewrite <- Zlt_Qlt in H. rewrite <- Zle_Qle. lia. }
      lra. }
  destruct K as [K1 K2].
  apply Qabs_Qle_condition. 
  assert ((98#100) * n <= inject_Z p / inject_Z z).
  { apply Qle_div_iff; [lra|]. rewrite EX.
    setoid_replace ((98#100) * n * inject_Z z) with ((98#100) * inject_Z z * n) by ring.
    apply Qmult_le_compat_r; lra. }
  assert (inject_Z p / inject_Z z <= (102#100) * n).
  { apply Qdiv_le_iff; [lra|]. rewrite EX.
    setoid_replace ((102#100) * n * inject_Z z) with ((102#100) * inject_Z z * n) by ring.
    apply Qmult_le_compat_r; lra. }
  split; lra.
Qed.

Lemma bare_rounding : forall reqs p ss, (0 <= p)%Z -> Forall resolved reqs ->
  Forall (fun rq => bare (fst rq) /\ nominal (fst rq) <> None) reqs ->
  good_combination (map fst reqs) p ss -> good_combination (map fst reqs) p (rounded reqs p).
Proof.
  induction reqs as [|[r q] rest IH]; intros p ss Hp F B G; cbn [map rounded fst snd]; [constructor|].
  apply Forall_cons_iff in F. destruct F as [R F].
  apply Forall_cons_iff in B. destruct B as [[Br Nr] B].
  cbn [map fst] in G. inversion G as [|? ? ? ? [G1 [G2 G3]] G4]; subst.
  constructor; [|eapply IH; eassumption].
  destruct R as [R1 R2]. cbn [fst snd] in *.
  destruct (nominal r) as [n|] eqn:En; [|tauto].
  rewrite (R2 n eq_refl) in *.
  destruct (rounding_is_enough n p _ R1 Hp G1 (G3 n eq_refl Br)) as [K1 K2].
  split; [exact K1|]. split.
  - apply Qabs_Qle_condition in K2.
    destruct r as [mn nm mx]. destruct Br as [Bm BM]. cbn [minimum maximum nominal] in *. subst.
    constructor; lra.
  - intros n' En' _. assert (n' = n) as -> by congruence. exact K2.
Qed.

Lemma search_ok : forall t reqs m p l o, (0 < m)%Z -> (0 <= p)%Z -> Forall resolved reqs ->
  search t reqs m p = (l, o) ->
  (exists p' ss, l = p' :: ss /\ (p <= p')%Z) /\
  (o = Ok tt ->
    exists p' ss, l = p' :: ss /\ (p + m <= p')%Z /\ (m | p')%Z /\
      good_combination (map fst reqs) p' ss /\
      forall x, (p + m <= x < p')%Z -> (m | x)%Z ->
        ~ good_combination (map fst reqs) x (rounded reqs x)).
Proof.
  induction t as [|t IH]; intros reqs m p l o Hm Hp F; cbn [search].
  - intros [= <- <-]. split; [exists p, []; split; [reflexivity|lia]|discriminate].
  - destruct (advance_ok m p Hm) as [q [-> [Bq [Dq Nq]]]].
    destruct (attempt reqs q) as [ss found] eqn:EA.
    destruct found as [b|e|e|].
    2-4: intros [= <- <-]; split; [exists q, ss; split; [reflexivity|lia]|discriminate].
    destruct t as [|t'].
    { intros [= <- <-]; split; [exists q, ss; split; [reflexivity|lia]|discriminate]. }
    destruct b.
    + intros [= <- <-]. split; [exists q, ss; split; [reflexivity|lia]|]. intros _.
      exists q, ss. split; [reflexivity|]. split; [lia|]. split; [exact Dq|].
      split; [apply attempt_found; [lia|assumption|assumption]|].
      intros x Hx Dx. exfalso. exact (Nq x Hx Dx).
    + intros H. destruct (IH reqs m q l o Hm ltac:(lia) F H) as [I J]. split.
      { destruct I as [p' [s' [-> I]]]. exists p', s'. split; [reflexivity|lia]. }
      intros Ho. destruct (J Ho) as [p' [s' [-> [J1 [J2 [J3 J4]]]]]].
      exists p', s'. split; [reflexivity|]. split; [lia|]. split; [exact J2|]. split; [exact J3|].
      intros x Hx Dx. destruct (Z_lt_le_dec x q) as [Lt|Ge].
      { exfalso. exact (Nq x ltac:(lia) Dx). }
      destruct (Z.eq_dec x q) as [->|Ne].
      { exact (attempt_refused reqs q ss F EA). }
      apply J4; [|exact Dx]. destruct Dq as [a ->], Dx as [b ->]. clear J4 Nq J1.
      assert (a < b)%Z by nia. split; [nia|lia].
Qed.

Lemma resolve_ratios_ok : forall reqs rs, resolve_ratios reqs = Ok rs ->
  map fst rs = reqs /\ Forall resolved rs.
Proof.
  induction reqs as [|r rest IH]; intros rs; cbn [resolve_ratios].
  - intros [= <-]. split; [reflexivity|constructor].
  - destruct (resolve_dimensional_values (DTol r) NOMINAL) as [q|e|e|] eqn:E; try discriminate.
    destruct (Qle_bool q 0) eqn:Q0; [discriminate|]. qb.
    destruct (resolve_ratios rest) as [l|e|e|]; try discriminate. intros [= <-].
    destruct (IH l eq_refl) as [A B]. split; [cbn; now rewrite A|].
    constructor; [|exact B]. split; [exact Q0|]. cbn. intros n Hn.
    destruct r as [[mn|] [nm|] [mx|]]; cbn in *; congruence.
Qed.

(** A generator as left by its constructor and successful calls. *)
Definition sane (reqs : list dwt) (g : generator) : Prop :=
  map fst (ratios g) = reqs /\ Forall resolved (ratios g) /\
  exists p ss, current g = p :: ss /\ (1 <= p)%Z /\ good_combination reqs p ss.

Lemma increment_sane : forall reqs m g g', (0 < m)%Z -> sane reqs g -> increment m g = (g', Ok tt) ->
  sane reqs g' /\ ratios g' = ratios g /\
  (primary (current g) + m <= primary (current g'))%Z /\ (m | primary (current g'))%Z /\
  forall x, (primary (current g) + m <= x < primary (current g'))%Z -> (m | x)%Z ->
    ~ good_combination reqs x (rounded (ratios g) x).
Proof.
  intros reqs m g g' Hm [S1 [S2 [p [ss [S3 [S4 S5]]]]]] H. unfold increment in H. rewrite S3 in H.
  destruct (search 1000 (ratios g) m p) as [l o] eqn:E. injection H as <- ->.
  destruct (search_ok 1000 (ratios g) m p _ _ Hm ltac:(lia) S2 E) as [_ J].
  destruct (J eq_refl) as [p' [s' [-> [J1 [J2 [J3 J4]]]]]]. rewrite S1 in J3, J4.
  unfold sane. cbn [current ratios]. rewrite S3. cbn [primary hd].
  split; [split; [exact S1|split; [exact S2|exists p', s'; repeat split; [lia|exact J3]]]|].
  repeat split; assumption.
Qed.

Lemma start_ok : forall initial p, start initial = Ok p -> (0 <= p)%Z.
Proof.
  intros i p. unfold start. destruct (Qle_bool i 0) eqn:E; [discriminate|]. qb.
  destruct (Qle_bool 1 i) eqn:E1; qb; intros H0; [|injection H0; lia].
  assert (p = Qfloor (i - 1)) as -> by congruence. clear H0.
  pose proof (Qfloor_bounds (i - 1)) as [A B].
  assert (inject_Z (-1) < inject_Z (Qfloor (i - 1))) by (change (inject_Z (-1)) with (-(1)); lra).
  rewrite <- Zlt_Qlt in H. lia.
Qed.

Lemma create_sane : forall initial reqs g, create initial reqs = Ok g -> sane reqs g.
Proof.
  intros i reqs g. unfold create.
  destruct (resolve_ratios reqs) as [rs|e|e|] eqn:R; try discriminate.
  destruct (start i) as [p|e|e|] eqn:S0; try discriminate.
  apply resolve_ratios_ok in R. destruct R as [R1 R2]. apply start_ok in S0.
  unfold increment. cbn [current ratios].
  destruct (search 1000 rs 1 p) as [l o] eqn:E. destruct o as [[]|e|e|]; try discriminate.
  intros [= <-].
  destruct (search_ok _ _ _ _ _ _ Z.lt_0_1 S0 R2 E) as [_ J].
  destruct (J eq_refl) as [p' [s' [-> [J1 [J2 [J3 J4]]]]]]. rewrite R1 in J3.
  split; [exact R1|]. split; [exact R2|]. exists p', s'. repeat split; [lia|exact J3].
Qed.

Lemma calls_ok : forall reqs ms g outs, Forall (fun m => 0 < m)%Z ms -> sane reqs g ->
  calls ms g = map Ok outs ->
  Forall (fun l => exists p ss, l = p :: ss /\ (1 <= p)%Z /\ good_combination reqs p ss) outs /\
  (ms <> [] -> nth 0 outs [] = current g) /\
  forall k, (S k < List.length ms)%nat ->
    let a := primary (nth k outs []) in
    let b := primary (nth (S k) outs []) in
    let m := nth k ms 0%Z in
    (a + m <= b)%Z /\ (m | b)%Z /\
    forall x, (a + m <= x < b)%Z -> (m | x)%Z ->
      ~ good_combination reqs x (rounded (ratios g) x).
Proof.
  intros reqs. induction ms as [|m rest IH]; intros g outs Hm S0 H.
  - destruct outs; [|discriminate]. split; [constructor|]. split; [congruence|]. intros k Hk. cbn in Hk. lia.
  - apply Forall_cons_iff in Hm. destruct Hm as [Hm Hms].
    cbn [calls] in H. unfold get_next in H.
    destruct (increment m g) as [g' o] eqn:EI.
    destruct outs as [|l outs]; [discriminate|]. cbn [map] in H. injection H as Ho Hr.
    destruct o as [[]|e|e|]; try discriminate. injection Ho as <-.
    destruct (increment_sane reqs m g g' Hm S0 EI) as [S1 [R1 [A1 [A2 A3]]]].
    destruct (IH g' outs Hms S1 Hr) as [I1 [I2 I3]].
    split.
    { constructor; [|exact I1]. exact (proj2 (proj2 S0)). }
    split; [reflexivity|].
    intros [|k] Hk.
    + cbn [nth]. cbn in Hk. destruct rest as [|m2 rest]; [cbn in Hk; lia|].
      specialize (I2 ltac:(discriminate)). destruct outs as [|l2 outs];
        [cbn [calls] in Hr; destruct (get_next m2 g'); discriminate|].
      cbn [nth] in I2. subst l2. cbn [nth]. cbv zeta. repeat split; assumption.
    + cbn in Hk. specialize (I3 k ltac:(lia)). rewrite R1 in I3. exact I3.
Qed.

(** ** C31
    Whatever the requirements, the starting number and the multiples asked for: as
    long as the calls answer, every answer is a good combination, the primaries
    strictly increase, and each answer after the first is a multiple of the number
    given to the call before. *)
Theorem C31_combinations_are_good_and_increase : forall initial reqs g ms outs,
  create initial reqs = Ok g -> Forall (fun m => 0 < m)%Z ms -> calls ms g = map Ok outs ->
  Forall (fun l => exists p ss, l = p :: ss /\ (1 <= p)%Z /\ good_combination reqs p ss) outs /\
  forall k, (S k < List.length ms)%nat ->
    (primary (nth k outs []) + nth k ms 0 <= primary (nth (S k) outs []))%Z /\
    (nth k ms 0%Z | primary (nth (S k) outs []))%Z.
Proof.
  intros i reqs g ms outs C M H. pose proof (create_sane _ _ _ C) as S0.
  destruct (calls_ok reqs ms g outs M S0 H) as [A [_ B]]. split; [exact A|].
  intros k Hk. destruct (B k Hk) as [B1 [B2 _]]. split; assumption.
Qed.

(** Between two answers no multiple is passed over, from one step above the former
    on, that has a good combination: for requirements given by a single number,
    whatever the secondaries; for the others, with each secondary rounded from the
    resolved ratio. *)
Theorem C31_no_combination_is_skipped_partial : forall initial reqs g ms outs,
  create initial reqs = Ok g -> Forall (fun m => 0 < m)%Z ms -> calls ms g = map Ok outs ->
  forall k x, (S k < List.length ms)%nat ->
    (primary (nth k outs []) + nth k ms 0 <= x < primary (nth (S k) outs []))%Z ->
    (nth k ms 0%Z | x)%Z ->
    (Forall (fun r => bare r /\ nominal r <> None) reqs ->
     forall ss, ~ good_combination reqs x ss) /\
    (forall qs, Forall2 (fun r q => resolve_dimensional_values (DTol r) NOMINAL = Ok q) reqs qs ->
     ~ good_combination reqs x (map (fun q => qround (inject_Z x / q)) qs)).
Proof.
  intros i reqs g ms outs C M H k x Hk Hx Dx. pose proof (create_sane _ _ _ C) as S0.
  destruct (calls_ok reqs ms g outs M S0 H) as [A [_ B]].
  destruct (B k Hk) as [_ [_ B3]]. specialize (B3 x Hx Dx).
  destruct S0 as [S1 [S2 _]].
  assert (PX : (0 <= x)%Z).
  { assert (0 < nth k ms 0)%Z.
    { rewrite Forall_forall in M. apply M. apply nth_In. lia. }
    assert (0 <= primary (nth k outs []))%Z; [|lia].
    destruct (nth_in_or_default k outs []) as [I| ->]; [|cbn; lia].
    rewrite Forall_forall in A. destruct (A _ I) as [p [ss [-> [P _]]]]. cbn. lia. }
  split.
  - intros Br ss G. apply B3. rewrite <- S1 in G |- *.
    apply (bare_rounding (ratios g) x ss PX S2); [|exact G].
    rewrite <- S1 in Br. apply Forall_map in Br. exact Br.
  - intros qs F2 G. apply B3.
    replace (rounded (ratios g) x) with (map (fun q => qround (inject_Z x / q)) qs); [exact G|].
    unfold create in C. destruct (resolve_ratios reqs) as [rs|e|e|] eqn:R; try discriminate.
    assert (EG : ratios g = rs).
    { destruct (start i) as [p|e|e|]; try discriminate. unfold increment in C.
      cbn [current ratios] in C. destruct (search _ _ _ _) as [l o].
      destruct o; try discriminate. injection C as <-. reflexivity. }
    rewrite EG. clear - R F2.
    revert rs R. induction F2 as [|r q reqs qs E F2 IH]; intros rs; cbn [resolve_ratios].
    + intros [= <-]. reflexivity.
    + rewrite E. destruct (Qle_bool q 0); [discriminate|].
      destruct (resolve_ratios reqs) as [l|e|e|]; try discriminate. intros [= <-].
      cbn. f_equal. exact (IH l eq_refl).
Qed.

(** The first answer is the first good combination from the starting number on. *)
Theorem C31_starts_at_the_first : forall initial reqs g m g' l,
  create initial reqs = Ok g -> get_next m g = (g', Ok l) ->
  initial - 1 < inject_Z (primary l) /\
  forall x ss, initial - 1 < inject_Z x -> (1 <= x < primary l)%Z ->
    Forall (fun r => bare r /\ nominal r <> None) reqs -> ~ good_combination reqs x ss.
Proof.
  intros i reqs g m g' l C H.
  assert (L : l = current g).
  { unfold get_next in H. destruct (increment m g) as [g1 [u|e|e|]]; try discriminate. congruence. }
  subst l. clear H. unfold create in C.
  destruct (resolve_ratios reqs) as [rs|e|e|] eqn:R; try discriminate.
  destruct (start i) as [p|e|e|] eqn:S0; try discriminate.
  apply resolve_ratios_ok in R. destruct R as [R1 R2]. pose proof (start_ok _ _ S0) as P0.
  unfold increment in C. cbn [current ratios] in C.
  destruct (search 1000 rs 1 p) as [l o] eqn:E. destruct o as [[]|e|e|]; try discriminate.
  injection C as <-.
  destruct (search_ok _ _ _ _ _ _ Z.lt_0_1 P0 R2 E) as [_ J].
  destruct (J eq_refl) as [p' [s' [-> [J1 [J2 [J3 J4]]]]]]. cbn [current primary hd].
  assert (B : forall y, i - 1 < inject_Z y -> (1 <= y)%Z -> (p + 1 <= y)%Z).
  { intros y Y1 Y2. unfold start in S0. destruct (Qle_bool i 0) eqn:EI; [discriminate|].
    destruct (Qle_bool 1 i) eqn:EJ; qb.
    - assert (p = Qfloor (i - 1)) as -> by congruence.
      pose proof (Qfloor_bounds (i - 1)) as [A _].
      assert (Q : inject_Z (Qfloor (i - 1)) < inject_Z y) by lra.
      rewrite <- Zlt_Qlt in Q. lia.
    - assert (p = 0)%Z as -> by congruence. lia. }
  split.
  - unfold start in S0. destruct (Qle_bool i 0) eqn:EI; [discriminate|].
    assert (Q : inject_Z (p + 1) <= inject_Z p') by (rewrite <- Zle_Qle; exact J1).
    rewrite inject_Z_plus in Q. change (inject_Z 1) with 1 in Q.
    destruct (Qle_bool 1 i) eqn:EJ; qb.
    + assert (p = Qfloor (i - 1)) as -> by congruence.
      pose proof (Qfloor_bounds (i - 1)) as [_ A]. lra.
    + assert (p = 0)%Z as -> by congruence. change (inject_Z 0) with 0 in Q. lra.
  - intros x ss X1 X2 Br G. apply (J4 x).
    + specialize (B x X1 ltac:(lia)). lia.
    + apply Z.divide_1_l.
    + rewrite <- R1 in G, Br. apply Forall_map in Br.
      apply (bare_rounding rs x ss ltac:(lia) R2 Br G).
Qed.

(** With the same multiple every time, nothing at all is passed over after the
    second answer. *)
Theorem C31_constant_multiple_skips_nothing : forall initial reqs g m n outs,
  create initial reqs = Ok g -> (0 < m)%Z -> calls (repeat m n) g = map Ok outs ->
  Forall (fun r => bare r /\ nominal r <> None) reqs ->
  forall k x ss, (1 <= k)%nat -> (S k < n)%nat ->
    (primary (nth k outs []) < x < primary (nth (S k) outs []))%Z -> (m | x)%Z ->
    ~ good_combination reqs x ss.
Proof.
  intros i reqs g m n outs C M H Br k x ss K1 K2 Hx Dx.
  assert (F : Forall (fun m => 0 < m)%Z (repeat m n)).
  { apply Forall_forall. intros y Hy. apply repeat_spec in Hy. lia. }
  assert (N : forall j, (j < n)%nat -> nth j (repeat m n) 0%Z = m).
  { intros j Hj. rewrite nth_indep with (d' := m) by (rewrite repeat_length; lia). apply nth_repeat. }
  destruct (C31_combinations_are_good_and_increase i reqs g _ outs C F H) as [_ D].
  destruct k as [|k]; [lia|].
  destruct (D k) as [_ D2]; [rewrite repeat_length; lia|]. rewrite N in D2 by lia.
  destruct (C31_no_combination_is_skipped_partial i reqs g _ outs C F H (S k) x) as [Z _].
  - rewrite repeat_length; lia.
  - rewrite N by lia. split; [|lia]. destruct D2 as [a D2], Dx as [b Dx].
    assert (a < b)%Z by nia. nia.
  - rewrite N by lia. exact Dx.
  - exact (Z Br ss).
Qed.

(** The search gives up only after hundreds of multiples without a combination, or
    on a contradictory requirement. *)
Lemma search_throw : forall t reqs m p l e, (0 < m)%Z -> (0 <= p)%Z -> Forall resolved reqs ->
  Forall (fun rq => ~ contradictory (fst rq)) reqs ->
  search (S t) reqs m p = (l, Throw e) ->
  forall j, (1 <= j <= Z.of_nat t)%Z -> 
    ~ good_combination (map fst reqs) (m * (p / m) + m * j + (if (p mod m =? 0)%Z then 0 else m))%Z
        (rounded reqs (m * (p / m) + m * j + (if (p mod m =? 0)%Z then 0 else m))%Z).
Proof.
  induction t as [|t IH]; intros reqs m p l e Hm Hp F C; [intros; lia|].
  cbn [search]. destruct (advance_ok m p Hm) as [q [EQ [Bq [Dq Nq]]]]. rewrite EQ.
  assert (QV : q = (m * (p / m) + m * 1 + (if (p mod m =? 0)%Z then 0 else m))%Z).
  { pose proof (Z.div_mod p m ltac:(lia)) as DM. pose proof (Z.mod_pos_bound p m Hm).
    destruct Dq as [a ->]. set (d := (p / m)%Z) in *.
    set (r := (p mod m)%Z) in *. clearbody d r. clear Nq EQ.
    destruct (r =? 0)%Z eqn:E; [apply Z.eqb_eq in E|apply Z.eqb_neq in E].
    - assert (a = d + 1)%Z by nia. subst a. ring.
    - assert (a = d + 2)%Z by nia. subst a. ring. }
  assert (QM : (q mod m =? 0)%Z = true) by (apply Z.eqb_eq; apply Z.mod_divide; [lia|exact Dq]).
  assert (QD : (m * (q / m) = q)%Z).
  { apply Z.eqb_eq in QM. pose proof (Z.div_mod q m ltac:(lia)). lia. }
  assert (CT : forall l e, attempt reqs q <> (l, Throw e)).
  { assert (Q0 : (0 <= q)%Z) by lia. clear - C F Q0. induction reqs as [|[r rt] rest IH]; cbn; [discriminate|].
    apply Forall_cons_iff in F, C. destruct F as [_ F], C as [C1 C2].
    intros l e. destruct (_ =? 0)%Z; [discriminate|].
    cbn in C1. destruct (C24_consistent_requirement_decided r (inject_Z q / inject_Z (qround (inject_Z q / rt))) C1) as [b [-> _]].
    destruct (_ && _); [|discriminate].
    destruct (attempt rest q) as [l' o'] eqn:ER. intros [= <- ->]. exact (IH F C2 l' e eq_refl). }
  destruct (attempt reqs q) as [ss found] eqn:EA.
  destruct found as [b|e'|e'|].
  2: exfalso; exact (CT ss e' eq_refl). 2,3: discriminate.
  destruct b; [discriminate|]. intros H j Hj.
  destruct (Z.eq_dec j 1) as [->|Nj].
  { rewrite <- QV. exact (attempt_refused reqs q ss F EA). }
  pose proof (IH reqs m q l e Hm ltac:(lia) F C H (j - 1)%Z ltac:(lia)) as I.
  rewrite QM, QD in I.
  replace (m * (p / m) + m * j + (if (p mod m =? 0)%Z then 0 else m))%Z with (q + m * (j - 1) + 0)%Z; [exact I|].
  rewrite QV. ring.
Qed.

Theorem C31_gives_up_only_after_999_multiples : forall reqs m g g' e initial,
  create initial reqs = Ok g -> (0 < m)%Z -> Forall (fun r => ~ contradictory r) reqs ->
  Forall (fun r => bare r /\ nominal r <> None) reqs ->
  get_next m g = (g', Throw e) -> (m | primary (current g))%Z ->
  forall x ss, (m | x)%Z -> (primary (current g) < x <= primary (current g) + 999 * m)%Z ->
    ~ good_combination reqs x ss.
Proof.
  intros reqs m g g' e i C Hm NC Br H Dm x ss Dx Hx G.
  destruct (create_sane _ _ _ C) as [S1 [S2 [p [s0 [S3 [S4 _]]]]]].
  unfold get_next, increment in H. rewrite S3 in H, Hx, Dm. cbn [primary hd] in Hx, Dm.
  destruct (search 1000 (ratios g) m p) as [l o] eqn:E.
  destruct o as [u|e'|e'|]; try discriminate. injection H as _ ->.
  assert (PM : (p mod m =? 0)%Z = true) by (apply Z.eqb_eq; apply Z.mod_divide; [lia|exact Dm]).
  assert (PD : (m * (p / m) = p)%Z).
  { apply Z.eqb_eq in PM. pose proof (Z.div_mod p m ltac:(lia)). lia. }
  assert (NC' : Forall (fun rq => ~ contradictory (fst rq)) (ratios g)).
  { rewrite <- S1 in NC. rewrite Forall_forall in NC |- *. intros rq I. apply NC. apply in_map. exact I. }
  destruct Dx as [a Dx], Dm as [b Dm].
  pose proof (search_throw 999 (ratios g) m p l e Hm ltac:(lia) S2 NC' E (a - b)%Z ltac:(nia)) as T.
  rewrite PM, PD in T. replace (p + m * (a - b) + 0)%Z with x in T by nia. rewrite S1 in T.
  apply T. rewrite <- S1 in G, Br |- *. apply Forall_map in Br.
  apply (bare_rounding (ratios g) x ss ltac:(lia) S2 Br G).
Qed.

(** Concrete runs. *)
Definition three_to_one : list dwt := [mk_dwt None (Some 3) None; mk_dwt (Some 1) None (Some 2)].
Example C31_witness : exists g,
  create 4 three_to_one = Ok g /\
  calls [2; 2; 2]%Z g = map Ok [[6; 2; 4]; [12; 4; 8]; [18; 6; 12]]%Z.
Proof. eexists. split; [vm_compute; reflexivity|]. vm_compute; reflexivity. Qed.

(** The rest of the claim is false of the code.  The first answer need not be a
    multiple of the number asked for, and the step from it passes over good
    multiples. *)
Theorem C31_first_multiple_refuted : exists g,
  create 5 [] = Ok g /\ calls [4; 4]%Z g = map Ok [[5]; [12]]%Z /\
  good_combination [] 8 [].
Proof. eexists. split; [vm_compute; reflexivity|]. split; [vm_compute; reflexivity|constructor]. Qed.

(** With a range of ratios, good combinations are passed over because each
    secondary is only tried at the value rounded from the middle of the range. *)
Theorem C31_range_skips_refuted :
  let r := mk_dwt (Some (9#2)) None (Some (19#2)) in
  exists g, create 9 [r] = Ok g /\ calls [1; 1]%Z g = map Ok [[9; 1]; [11; 2]]%Z /\
    good_combination [r] 10 [2]%Z.
Proof.
  cbv zeta. eexists. split; [vm_compute; reflexivity|]. split; [vm_compute; reflexivity|].
  constructor; [|constructor]. split; [lia|]. split.
  - constructor; vm_compute; discriminate.
  - intros n Hn. discriminate.
Qed.

(** A call that gives up loses the good combination it was to return, and leaves
    the object with an incomplete one, which a later call returns. *)
Theorem C31_error_loses_and_corrupts_refuted :
  let r := mk_dwt (Some 1001) None (Some 1001) in
  exists g, create 1001 [r] = Ok g /\ current g = [1001; 1]%Z /\
    calls [1; 1]%Z g = [Throw "NumberTurns did not converge"; Ok [2001]]%Z /\
    good_combination [r] 1001 [1]%Z /\ forall ss, good_combination [r] 2001 ss -> ss <> [].
Proof.
  cbv zeta. eexists. split; [vm_compute; reflexivity|]. split; [reflexivity|].
  split; [vm_compute; reflexivity|]. split.
  - constructor; [|constructor]. split; [lia|]. split.
    + constructor; vm_compute; discriminate.
    + intros n Hn. discriminate.
  - intros ss G ->. inversion G.
Qed.

Print Assumptions C31_combinations_are_good_and_increase.
Print Assumptions C31_no_combination_is_skipped_partial.
Print Assumptions C31_starts_at_the_first.
Print Assumptions C31_constant_multiple_skips_nothing.
Print Assumptions C31_gives_up_only_after_999_multiples.
Print Assumptions C31_error_loses_and_corrupts_refuted.
