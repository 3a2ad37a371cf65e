(** C73 and C74: where the turns of a layer lie on it, and which way each layer is wound. *)
From Coq Require Import ZArith QArith Qround Qabs List Bool String Lia Lqa Arith FinFun.
From Verif Require Import Base QAux UtilsNumProofs CoilSplitModel CoilSplitProofs CoilSplitProperties StationModel StationProperties WindModel WindProofs WindProperties.
Import ListNotations.
Open Scope Q_scope.

(** * Vocabulary *)

(** How far from the top (of an overlapping layer) or from the inside (of a contiguous one) a point lies. *)
Definition along (o : orientation) (c : Q * Q) : Q := if is_overlapping o then - snd c else fst c.
Definition extent_along (o : orientation) (size : Q * Q) : Q := if is_overlapping o then snd size else fst size.

(** Two nanometres. *)
Definition tolerance : Q := 1 / 500000000.

(** [u k] is where the [k]-th of [n] turns lies.  From the top ([top]) each is at least a pitch further than the one before, else a pitch
    closer; if the layer can hold them they are all inside it; and they lie where the alignment says. *)
Definition placed (top : bool) (a : alignment) (center size pitch : Q) (n bundle : nat) (u : nat -> Q) : Prop :=
  let nearest := if top then u 0%nat else u (n - 1)%nat in
  let furthest := if top then u (n - 1)%nat else u 0%nat in
  (forall i j, (i < j < n)%nat -> let d := inject_Z (Z.of_nat (j - i)) * pitch in if top then u i + d <= u j else u j + d <= u i) /\
  (inject_Z (Z.of_nat n) * pitch <= size -> forall k, (k < n)%nat ->
     center - size / 2 + pitch / 2 - tolerance <= u k <= center + size / 2 - pitch / 2 + tolerance) /\
  match a with
  | CENTERED => Qabs (nearest + furthest - 2 * center) <= 2 * tolerance
  | INNER_OR_TOP => Qabs (nearest - pitch / 2 - (center - size / 2)) <= tolerance
  | OUTER_OR_BOTTOM => Qabs (furthest + pitch / 2 - (center + size / 2)) <= tolerance
  | SPREAD => Qabs (nearest + furthest - 2 * center) <= 2 * tolerance /\
      ((bundle < n)%nat -> inject_Z (Z.of_nat n) * pitch <= size ->
       Qabs (nearest - pitch / 2 - (center - size / 2)) <= tolerance /\
       Qabs (furthest + pitch / 2 - (center + size / 2)) <= tolerance)
  end.

(** * Proofs *)

(** lra does not see through a division by two. *)
Local Ltac ql := unfold Qdiv in *; change (/ 2) with (1 # 2) in *; try change (/ 500000000) with (1 # 500000000) in *;
  try change (/ 2000000000) with (1 # 2000000000) in *;
  repeat match goal with H : _ /\ _ |- _ => destruct H end; repeat split; lra.


Lemma near9 x : - (1 / 2000000000) <= roundFloat x 9 - x <= 1 / 2000000000.
Proof.
  pose proof (roundFloat_near x 9) as B. apply Qabs_Qle_condition in B.
  assert (E : 1 / 2000000000 == (1 # 2) / p10 9) by reflexivity. rewrite E. exact B.
Qed.

(** Turns a pitch apart from [U]. *)
Lemma line_placed (top : bool) a center size pitch n u U : 0 < pitch -> (0 < n)%nat -> a <> SPREAD ->
  (forall k, (k < n)%nat -> u k == U + inject_Z (Z.of_nat (if top then k else n - 1 - k)%nat) * pitch) ->
  Qabs (U - match a with
            | CENTERED => center - inject_Z (Z.of_nat n) * pitch / 2 + pitch / 2
            | INNER_OR_TOP => center - size / 2 + pitch / 2
            | _ => center + size / 2 - inject_Z (Z.of_nat n) * pitch + pitch / 2
            end) <= tolerance ->
  placed top a center size pitch n 1 u.
Proof.
  intros HP Hn Ha Hu HU. set (ideal := match a with CENTERED => _ | INNER_OR_TOP => _ | _ => _ end) in HU.
  apply Qabs_Qle_condition in HU.
  assert (N1 : inject_Z (Z.of_nat (n - 1)) == inject_Z (Z.of_nat n) - 1).
  { rewrite Nat2Z.inj_sub by lia. unfold Z.sub. rewrite inject_Z_plus. reflexivity. }
  assert (First : (if top then u 0%nat else u (n - 1)%nat) == U).
  { destruct top; rewrite Hu by lia; [|replace (n - 1 - (n - 1))%nat with 0%nat by lia]; change (inject_Z (Z.of_nat 0)) with 0; ring. }
  assert (Last : (if top then u (n - 1)%nat else u 0%nat) == U + (inject_Z (Z.of_nat n) - 1) * pitch).
  { destruct top; rewrite Hu by lia; [|rewrite Nat.sub_0_r]; rewrite N1; reflexivity. }
  split; [|split].
  - intros i j Hij. cbn zeta. destruct top; rewrite (Hu i), (Hu j) by lia.
    + rewrite Nat2Z.inj_sub by lia. unfold Z.sub. rewrite inject_Z_plus, inject_Z_opp. apply Qle_lteq. right. ring.
    + replace (n - 1 - i)%nat with ((n - 1 - j) + (j - i))%nat by lia. rewrite Nat2Z.inj_add, inject_Z_plus. apply Qle_lteq. right. ring.
  - intros Fit k Hk. rewrite (Hu k Hk). set (m := (if top then k else n - 1 - k)%nat).
    assert (Hm : 0 <= inject_Z (Z.of_nat m) * pitch <= (inject_Z (Z.of_nat n) - 1) * pitch).
    { split; [apply Qmult_le_0_compat; [change 0 with (inject_Z 0); apply inj_le; lia|ql]|].
      rewrite <- N1. apply Qmult_le_compat_r; [|ql]. apply inj_le. unfold m. destruct top; lia. }
    assert (E1 : (inject_Z (Z.of_nat n) - 1) * pitch == inject_Z (Z.of_nat n) * pitch - pitch) by ring. rewrite E1 in Hm.
    unfold ideal in HU. clear First Last Hu N1 E1. generalize dependent (inject_Z (Z.of_nat m) * pitch).
    generalize dependent (inject_Z (Z.of_nat n) * pitch). intros X HU Fit Y [Y1 Y2].
    destruct a; try congruence; destruct HU; split; ql.
  - unfold ideal in HU. destruct a; try congruence; cbn zeta; rewrite ?First, ?Last; apply Qabs_Qle_condition; unfold tolerance in *; ql.
Qed.

(** Spread turns, from the inside of the layer. *)
Lemma spread_placed (top : bool) center size pitch n b st u : 0 < pitch -> (0 < n)%nat -> (1 <= b)%nat ->
  (st = compute_spread_turn_stations center size pitch (Z.of_nat n) (Z.of_nat b) /\
   (forall k, (k < n)%nat -> u k == nth (if top then k else n - 1 - k)%nat st 0) \/
   st = compute_spread_turn_stations (- center) size pitch (Z.of_nat n) (Z.of_nat b) /\
   (forall k, (k < n)%nat -> u k == - nth (if top then n - 1 - k else k)%nat st 0)) ->
  placed top SPREAD center size pitch n b u.
Proof.
  intros HP Hn Hb H. set (c' := if top then center else center).
  destruct H as [[-> H]|[-> H]].
  - pose proof (stations_apart center size pitch n b Hb HP) as A. destruct (C04_spread center size pitch n b Hn Hb HP) as (g & _ & _ & Sy).
    pose proof (C04_edges_met center size pitch n b Hb) as EM.
    set (st := compute_spread_turn_stations _ _ _ _ _) in *. cbn zeta in *. unfold low_edge, high_edge, position in *.
    assert (In_ : inject_Z (Z.of_nat n) * pitch <= size -> forall k, (k < n)%nat ->
              center - size / 2 + pitch / 2 <= nth k st 0 <= center + size / 2 - pitch / 2).
    { intros Fit k Hk. destruct (Nat.eq_dec n 1) as [->|Hn1].
      - assert (k = 0)%nat by lia. subst k. change (inject_Z (Z.of_nat 1)) with 1 in Fit. cbn [Nat.sub] in Sy. ql.
      - pose proof (C04_inside center size pitch n b) as CI. cbn zeta in CI. fold st in CI. unfold position in CI.
        destruct (Nat.eq_dec k 0) as [->|K0].
        + destruct (CI 0%nat (n - 1)%nat Hb HP Fit ltac:(lia) ltac:(lia)) as (B1 & B2 & B3).
          assert (0 <= inject_Z (Z.of_nat (n - 1 - 0)) * pitch) by (apply Qmult_le_0_compat; [change 0 with (inject_Z 0); apply inj_le; lia|lra]).
          ql.
        + destruct (CI 0%nat k Hb HP Fit ltac:(lia) ltac:(lia)) as (B1 & B2 & B3).
          assert (0 <= inject_Z (Z.of_nat (k - 0)) * pitch) by (apply Qmult_le_0_compat; [change 0 with (inject_Z 0); apply inj_le; lia|lra]).
          ql. }
    assert (First : (if top then u 0%nat else u (n - 1)%nat) == nth 0 st 0).
    { destruct top; rewrite H by lia; [reflexivity|]. replace (n - 1 - (n - 1))%nat with 0%nat by lia. reflexivity. }
    assert (Last : (if top then u (n - 1)%nat else u 0%nat) == nth (n - 1) st 0).
    { destruct top; rewrite H by lia; [reflexivity|]. rewrite Nat.sub_0_r. reflexivity. }
    split; [|split; [|split]]; cbn zeta.
    + intros i j Hij. specialize (A (j - i)%nat). destruct top; rewrite (H i), (H j) by lia.
      * specialize (A i ltac:(lia)). replace (i + (j - i))%nat with j in A by lia. exact A.
      * specialize (A (n - 1 - j)%nat ltac:(lia)). replace (n - 1 - j + (j - i))%nat with (n - 1 - i)%nat in A by lia. exact A.
    + intros Fit k Hk. rewrite (H k Hk). assert (Hi : ((if top then k else n - 1 - k) < n)%nat) by (destruct top; lia).
      specialize (In_ Fit _ Hi). unfold tolerance. ql.
    + rewrite First, Last. apply Qabs_Qle_condition. unfold tolerance. ql.
    + intros Hbn Fit. destruct (EM Hbn HP Fit) as [E1 E2]. rewrite First, Last. unfold tolerance.
      split; apply Qabs_Qle_condition; ql.
  - pose proof (stations_apart (- center) size pitch n b Hb HP) as A. destruct (C04_spread (- center) size pitch n b Hn Hb HP) as (g & _ & _ & Sy).
    pose proof (C04_edges_met (- center) size pitch n b Hb) as EM.
    set (st := compute_spread_turn_stations _ _ _ _ _) in *. cbn zeta in *. unfold low_edge, high_edge, position in *.
    assert (In_ : inject_Z (Z.of_nat n) * pitch <= size -> forall k, (k < n)%nat ->
              - center - size / 2 + pitch / 2 <= nth k st 0 <= - center + size / 2 - pitch / 2).
    { intros Fit k Hk. destruct (Nat.eq_dec n 1) as [->|Hn1].
      - assert (k = 0)%nat by lia. subst k. change (inject_Z (Z.of_nat 1)) with 1 in Fit. cbn [Nat.sub] in Sy. ql.
      - pose proof (C04_inside (- center) size pitch n b) as CI. cbn zeta in CI. fold st in CI. unfold position in CI.
        destruct (Nat.eq_dec k 0) as [->|K0].
        + destruct (CI 0%nat (n - 1)%nat Hb HP Fit ltac:(lia) ltac:(lia)) as (B1 & B2 & B3).
          assert (0 <= inject_Z (Z.of_nat (n - 1 - 0)) * pitch) by (apply Qmult_le_0_compat; [change 0 with (inject_Z 0); apply inj_le; lia|lra]).
          ql.
        + destruct (CI 0%nat k Hb HP Fit ltac:(lia) ltac:(lia)) as (B1 & B2 & B3).
          assert (0 <= inject_Z (Z.of_nat (k - 0)) * pitch) by (apply Qmult_le_0_compat; [change 0 with (inject_Z 0); apply inj_le; lia|lra]).
          ql. }
    assert (First : (if top then u 0%nat else u (n - 1)%nat) == - nth (n - 1) st 0).
    { destruct top; rewrite H by lia; [rewrite Nat.sub_0_r|]; reflexivity. }
    assert (Last : (if top then u (n - 1)%nat else u 0%nat) == - nth 0 st 0).
    { destruct top; rewrite H by lia; [replace (n - 1 - (n - 1))%nat with 0%nat by lia|]; reflexivity. }
    split; [|split; [|split]]; cbn zeta.
    + intros i j Hij. specialize (A (j - i)%nat). destruct top; rewrite (H i), (H j) by lia.
      * specialize (A (n - 1 - j)%nat ltac:(lia)). replace (n - 1 - j + (j - i))%nat with (n - 1 - i)%nat in A by lia. ql.
      * specialize (A i ltac:(lia)). replace (i + (j - i))%nat with j in A by lia. ql.
    + intros Fit k Hk. rewrite (H k Hk). assert (Hi : ((if top then n - 1 - k else k) < n)%nat) by (destruct top; lia).
      specialize (In_ Fit _ Hi). unfold tolerance. ql.
    + rewrite First, Last. apply Qabs_Qle_condition. unfold tolerance. ql.
    + intros Hbn Fit. destruct (EM Hbn HP Fit) as [E1 E2]. rewrite First, Last. unfold tolerance.
      split; apply Qabs_Qle_condition; ql.
Qed.

(** How many turns of a layer are wound together. *)
Definition bundle_of (l : layer) : nat :=
  Z.to_nat (get_layer_bundle_size (l_style l) (match l_partials l with p :: _ => snd p | [] => [] end)).

Lemma bundle_pos style props : (1 <= get_layer_bundle_size style props)%Z.
Proof. unfold get_layer_bundle_size. destruct style as [[]|]; try lia. destruct (Z.ltb_spec 0 (Z.of_nat (List.length (filter (fun p => Qlt_bool 0 (roundFloat p 10)) props)))); lia. Qed.

(** Where [place] puts its turns. *)
Definition spot (stations : list Q) (axis : nat) (center step : Q * Q) (k : nat) : Q * Q :=
  match stations with
  | [] => (fst center + inject_Z (Z.of_nat k) * fst step, snd center + inject_Z (Z.of_nat k) * snd step)
  | _ => if Nat.eqb axis 1 then (fst center + inject_Z (Z.of_nat k) * fst step, nth k stations 0)
         else (nth k stations 0, snd center + inject_Z (Z.of_nat k) * snd step)
  end.

Lemma placed_proper top a c s p n b u v : (0 < n)%nat -> (forall k, (k < n)%nat -> u k == v k) -> placed top a c s p n b u -> placed top a c s p n b v.
Proof.
  intros Hn E (A & B & C). split; [|split].
  - intros i j Hij. specialize (A i j Hij). cbn zeta in *. pose proof (E i ltac:(lia)). pose proof (E j ltac:(lia)). destruct top; lra.
  - intros Fit k Hk. specialize (B Fit k Hk). pose proof (E k Hk). lra.
  - cbn zeta in *.
    assert (F : (if top then u 0%nat else u (n - 1)%nat) == (if top then v 0%nat else v (n - 1)%nat)) by (destruct top; apply E; lia).
    assert (L : (if top then u (n - 1)%nat else u 0%nat) == (if top then v (n - 1)%nat else v 0%nat)) by (destruct top; apply E; lia).
    set (x := if top then u 0%nat else u (n - 1)%nat) in *. set (y := if top then u (n - 1)%nat else u 0%nat) in *.
    destruct a; rewrite <- ?F, <- ?L; exact C.
Qed.

Lemma rev_cons_ne (x : Q) r : rev (x :: r) <> [].
Proof. cbn. intros H. apply app_eq_nil in H. destruct H. discriminate. Qed.

Lemma spot_stations st axis center step k : st <> [] ->
  spot st axis center step k = if Nat.eqb axis 1 then (fst center + inject_Z (Z.of_nat k) * fst step, nth k st 0)
                               else (nth k st 0, snd center + inject_Z (Z.of_nat k) * snd step).
Proof. intros H. destruct st; [congruence|reflexivity]. Qed.

(** The turns of a layer lie where they should. *)
Lemma start_placed a l n size (top : bool) : 0 < fst size -> 0 < snd size -> (0 < n)%nat ->
  let '(center, step, stations, axis) := layer_start a l (Z.of_nat n) size in
  let '(center, step, stations) :=
    if top then (center, step, stations)
    else ((roundFloat (fst center + inject_Z (Z.of_nat n - 1) * fst step) 9,
           roundFloat (snd center - inject_Z (Z.of_nat n - 1) * snd step) 9),
          (- fst step, - snd step), rev stations) in
  placed top a (along (l_orientation l) (l_center l)) (extent_along (l_orientation l) (l_size l)) (extent_along (l_orientation l) size)
    n (bundle_of l) (fun k => along (l_orientation l) (spot stations axis center (fst step, - snd step) k)).
Proof.
  intros H1 H2 Hn. destruct size as [w h]. unfold layer_start. destruct (l_center l) as [cx cy]. destruct (l_size l) as [sx sy].
  cbn [fst snd] in *. unfold bundle_of.
  set (bz := get_layer_bundle_size _ _). pose proof (bundle_pos (l_style l) (match l_partials l with p :: _ => snd p | [] => [] end)) as Hbz. fold bz in Hbz.
  assert (Eb : bz = Z.of_nat (Z.to_nat bz)) by lia.
  assert (N1 : inject_Z (Z.of_nat n - 1) == inject_Z (Z.of_nat (n - 1))) by (rewrite Nat2Z.inj_sub by lia; reflexivity).
  assert (LN : forall k, (k < n)%nat -> inject_Z (Z.of_nat (n - 1 - k)) == inject_Z (Z.of_nat n - 1) - inject_Z (Z.of_nat k)).
  { intros k Hk. rewrite N1. rewrite (Nat2Z.inj_sub (n - 1) k) by lia. unfold Z.sub. now rewrite inject_Z_plus, inject_Z_opp. }
  assert (LineTop : forall a c s p U b u, 0 < p -> a <> SPREAD -> (forall k, (k < n)%nat -> u k == U + inject_Z (Z.of_nat k) * p) ->
     Qabs (U - match a with
            | CENTERED => c - inject_Z (Z.of_nat n) * p / 2 + p / 2
            | INNER_OR_TOP => c - s / 2 + p / 2
            | _ => c + s / 2 - inject_Z (Z.of_nat n) * p + p / 2
            end) <= tolerance -> placed true a c s p n b u).
  { intros a0 c s p U b u Hp Ha Hu HU. pose proof (line_placed true a0 c s p n u U Hp Hn Ha Hu HU) as (A & B & C).
    split; [exact A|]. split; [exact B|]. destruct a0; try exact C. congruence. }
  assert (LineBottom : forall a c s p U b u, 0 < p -> a <> SPREAD -> (forall k, (k < n)%nat -> u k == U + inject_Z (Z.of_nat n - 1) * p - inject_Z (Z.of_nat k) * p) ->
     Qabs (U - match a with
            | CENTERED => c - inject_Z (Z.of_nat n) * p / 2 + p / 2
            | INNER_OR_TOP => c - s / 2 + p / 2
            | _ => c + s / 2 - inject_Z (Z.of_nat n) * p + p / 2
            end) <= tolerance -> placed false a c s p n b u).
  { intros a0 c s p U b u Hp Ha Hu HU. assert (Hu2 : forall k, (k < n)%nat -> u k == U + inject_Z (Z.of_nat (n - 1 - k)) * p).
    { intros k Hk. rewrite (Hu k Hk), (LN k Hk). ring. }
    pose proof (line_placed false a0 c s p n u U Hp Hn Ha Hu2 HU) as (A & B & C).
    split; [exact A|]. split; [exact B|]. destruct a0; try exact C. congruence. }
  assert (SNe : forall c s p, compute_spread_turn_stations c s p (Z.of_nat n) bz <> []).
  { intros c s p E. pose proof (station_length c s p n (Z.to_nat bz)) as L. rewrite <- Eb, E in L. cbn in L. lia. }
  assert (SL : forall c s p, List.length (compute_spread_turn_stations c s p (Z.of_nat n) bz) = n).
  { intros c s p. rewrite Eb. apply station_length. }
  unfold along, extent_along. destruct (l_orientation l); cbn [is_overlapping fst snd].
  - destruct a; destruct top; cbn [fst snd rev].
    all: try (eapply LineTop; [assumption|discriminate|intros k Hk; cbn [spot fst snd]; match goal with |- - (?x + _ * _) == _ => instantiate (1 := - x) end; ring|]).
    all: try (eapply LineBottom; [assumption|discriminate|intros k Hk; cbn [spot fst snd]; match goal with |- - (?x + _ * _) == _ => instantiate (1 := - x - inject_Z (Z.of_nat n - 1) * h) end; ring|]).
    all: try (apply Qabs_Qle_condition; unfold tolerance;
      repeat match goal with |- context [roundFloat ?x 9] => lazymatch x with context [roundFloat _ _] => fail | _ => let r := fresh "r" in
        pose proof (near9 x); set (r := roundFloat x 9) in *; clearbody r end end;
      assert (NN : inject_Z (Z.of_nat n) * h == inject_Z (Z.of_nat n - 1) * h + h) by (unfold Z.sub; rewrite inject_Z_plus; change (inject_Z (-(1))) with (-(1)); ring);
      set (X := inject_Z (Z.of_nat n) * h) in *; set (Y := inject_Z (Z.of_nat n - 1) * h) in *; clearbody X Y; ql).
    all: [> apply (spread_placed true) with (st := compute_spread_turn_stations cy sy h (Z.of_nat n) bz)
          | apply (spread_placed false) with (st := compute_spread_turn_stations cy sy h (Z.of_nat n) bz)].
    all: try assumption; try lia.
    all: right; split; [rewrite <- Eb|].
    all: try (f_equal; destruct cy as [a d]; unfold Qopp; cbn [Qnum Qden]; now rewrite Z.opp_involutive).
    all: intros k Hk; rewrite ?rev_involutive, spot_stations; [cbn [Nat.eqb snd]|].
    + rewrite rev_nth by (rewrite SL; lia). rewrite SL. replace (n - S k)%nat with (n - 1 - k)%nat by lia. reflexivity.
    + intros E. apply (SNe cy sy h). rewrite <- (rev_involutive (compute_spread_turn_stations _ _ _ _ _)), E. reflexivity.
    + reflexivity.
    + apply SNe.
  - destruct a; destruct top; cbn [fst snd rev].
    all: try (eapply LineTop; [assumption|discriminate|intros k Hk; cbn [spot fst snd]; match goal with |- ?x + _ * _ == _ => instantiate (1 := x) end; ring|]).
    all: try (eapply LineBottom; [assumption|discriminate|intros k Hk; cbn [spot fst snd]; match goal with |- ?x + _ * _ == _ => instantiate (1 := x - inject_Z (Z.of_nat n - 1) * w) end; ring|]).
    all: try (apply Qabs_Qle_condition; unfold tolerance;
      repeat match goal with |- context [roundFloat ?x 9] => lazymatch x with context [roundFloat _ _] => fail | _ => let r := fresh "r" in
        pose proof (near9 x); set (r := roundFloat x 9) in *; clearbody r end end;
      assert (NN : inject_Z (Z.of_nat n) * w == inject_Z (Z.of_nat n - 1) * w + w) by (unfold Z.sub; rewrite inject_Z_plus; change (inject_Z (-(1))) with (-(1)); ring);
      set (X := inject_Z (Z.of_nat n) * w) in *; set (Y := inject_Z (Z.of_nat n - 1) * w) in *; clearbody X Y; ql).
    all: [> apply (spread_placed true) with (st := compute_spread_turn_stations cx sx w (Z.of_nat n) bz)
          | apply (spread_placed false) with (st := compute_spread_turn_stations cx sx w (Z.of_nat n) bz)].
    all: try assumption; try lia.
    all: left; split; [now rewrite <- Eb|].
    all: intros k Hk; rewrite spot_stations; [cbn [Nat.eqb fst]|].
    + reflexivity.
    + apply SNe.
    + rewrite rev_nth by (rewrite SL; lia). rewrite SL. replace (n - S k)%nat with (n - 1 - k)%nat by lia. reflexivity.
    + intros E. apply (SNe cx sx w). rewrite <- (rev_involutive (compute_spread_turn_stations _ _ _ _ _)), E. reflexivity.
Qed.

(** The turns of a layer, where they lie, and what is remembered of the layer. *)
Lemma layer_places e st l : sane (te_windings e) -> (forall s x, te_length e s x <> None) ->
  (forall w, In w (te_windings e) -> 0 < w_width w /\ 0 < te_pitch e l (w_height w)) ->
  windable (te_windings e) l ->
  exists w props a s b counters, In w (te_windings e) /\ l_partials l = [(w_name w, props)] /\ l_alignment l = Some a /\ l_section l = Some s /\
    let '(top, st') := starts_at_top e st l s (w_name w) (w_parallels w) (Z.of_nat (List.length b)) in
    turns_of_layer e st l = Ok (Some (b, mkTurnState counters (ts_layers st') (ts_sections st') (ts_last st') (ts_top st') (ts_single st'))) /\
    (forall t, In t b -> t_layer t = l_name l /\ t_winding t = w_name w) /\
    inject_Z (Z.of_nat (List.length b)) == inject_Z (w_turns w) * Qsum props /\
    (b <> [] -> placed top a (along (l_orientation l) (l_center l)) (extent_along (l_orientation l) (l_size l))
      (extent_along (l_orientation l) (w_width w, te_pitch e l (w_height w))) (List.length b) (bundle_of l)
      (fun k => along (l_orientation l) (nth k (map t_center b) (0, 0)))).
Proof.
  intros HS HL HW (w & props & a & s & Hin & Hl & HP & Hwh & Ha & Hsec & Hev).
  destruct HS as [ND HT]. rewrite Forall_forall in HT. specialize (HT w Hin) as HN.
  assert (HN0 : (0 < w_turns w)%Z) by lia.
  destruct (whole_counts (w_turns w) props HN0 Hwh) as (ks & Hw & Hk).
  apply In_nth_error in Hin as Hi. destruct Hi as (i & Hi).
  exists w, props, a, s.
  unfold turns_of_layer. rewrite Hl. rewrite (winding_by_name_nth _ i w ND Hi). cbn [bind].
  rewrite <- HP. rewrite (physical_turns_spec (w_turns w) props ks HN0 Hw). cbn [bind]. rewrite Ha, Hsec. cbn [bind value].
  set (size := (w_width w, te_pitch e l (w_height w))).
  assert (Sz : 0 < fst size /\ 0 < snd size) by (destruct (HW w Hin); now split). destruct Sz as [S1 S2].
  set (style := match l_style l with Some s0 => s0 | None => WIND_BY_CONSECUTIVE_TURNS end).
  destruct (lanes_spec (te_real e) style (w_turns w) props ks ltac:(lia) Hw Hk) as (order & EO & OI & OC & OL).
  { intros Es. apply Hev. unfold style in Es. destruct (l_style l); [now subst|discriminate]. }
  set (n := List.length order) in *. rewrite <- OL.
  pose proof (layer_start_roomy a l n size S1 S2) as RM.
  pose proof (fun top Hn => start_placed a l n size top S1 S2 Hn) as PL.
  destruct (layer_start a l (Z.of_nat n) size) as [[[center step] stations] axis] eqn:LS.
  destruct (starts_at_top e st l s (w_name w) (List.length props) (Z.of_nat n)) as [top st'] eqn:ST.
  specialize (PL top).
  set (tri := if top then _ else _) in PL |- *.
  assert (RM2 : let '(c2, s2, st2) := tri in st2 <> [] -> List.length st2 = n).
  { unfold roomy in RM. destruct RM as (_ & _ & R3). unfold tri. destruct top.
    - destruct stations; [congruence|]. destruct R3 as (_ & _ & R & _). auto.
    - intros Hne. rewrite rev_length. destruct stations; [cbn in Hne; congruence|]. destruct R3 as (_ & _ & R & _). auto. }
  destruct tri as [[c2 s2] st2]. cbn [bind].
  rewrite EO. cbn [bind].
  destruct (place_spec (te_length e s) (HL s) s l i (w_name w) size st2 axis (fst s2, - snd s2) order 0 c2 (ts_counters st'))
    as (ts & c' & E & Hpar & Hall & Hnm & Hc1 & Hc2 & Hg).
  { destruct st2 as [|x r]; [now left|right]. rewrite RM2 by discriminate. cbn [Nat.add]. fold n. lia. }
  rewrite E. cbn [bind].
  assert (LT : List.length ts = n) by (unfold n; rewrite <- Hpar, map_length; reflexivity).
  exists ts, c'. split; [assumption|]. split; [reflexivity|]. split; [reflexivity|]. split; [reflexivity|].
  rewrite LT, ST. split; [reflexivity|]. split.
  { intros t Ht. rewrite Forall_forall in Hall. destruct (Hall t Ht) as (A1 & A2 & A3 & _). split; assumption. }
  split.
  { rewrite (Qsum_wholes _ _ _ HN0 Hw). rewrite OL. reflexivity. }
  intros Hne. assert (Hn : (0 < n)%nat) by (rewrite <- LT; destruct ts; [congruence|cbn; lia]).
  eapply placed_proper; [exact Hn| |exact (PL Hn)].
  intros k Hkn. cbn beta. specialize (Hg k ltac:(lia)). cbn [Nat.add fst snd] in Hg. unfold along, spot.
  destruct st2 as [|x r].
  - destruct Hg as [G1 G2]. destruct (is_overlapping (l_orientation l)); cbn [fst snd]; [rewrite G2|rewrite G1]; reflexivity.
  - destruct (Nat.eqb axis 1); destruct Hg as [G1 G2]; destruct (is_overlapping (l_orientation l)); cbn [fst snd]; rewrite ?G1, ?G2; reflexivity.
Qed.

(** The winding of a layer. *)
Definition layer_winding (l : layer) : string := match l_partials l with (n, _) :: _ => n | [] => ""%string end.

(** Block [bt] of turns, wound from the top if its flag is set, is laid on layer [l]. *)
Definition laid (e : turn_env) (l : layer) (bt : list turn * bool) : Prop :=
  exists w props a, In w (te_windings e) /\ l_partials l = [(w_name w, props)] /\ l_alignment l = Some a /\
    (forall t, In t (fst bt) -> t_layer t = l_name l /\ t_winding t = w_name w) /\
    inject_Z (Z.of_nat (List.length (fst bt))) == inject_Z (w_turns w) * Qsum props /\
    (fst bt <> [] -> placed (snd bt) a (along (l_orientation l) (l_center l)) (extent_along (l_orientation l) (l_size l))
       (extent_along (l_orientation l) (w_width w, te_pitch e l (w_height w))) (List.length (fst bt)) (bundle_of l)
       (fun k => along (l_orientation l) (nth k (map t_center (fst bt)) (0, 0)))).

(** Which way the layers of winding [x] are wound, in order. *)
Definition ways (x : string) (layers : list layer) (bts : list (list turn * bool)) : list bool :=
  map (fun p => snd (snd p)) (filter (fun p => String.eqb (layer_winding (fst p)) x) (combine (conduction layers) bts)).

(** The end the first layer of a winding starts from. *)
Definition entrance (e : turn_env) (x : string) : bool :=
  if te_real e then match te_entrance e x with Some b => b | None => false end else false.

Lemma ways_from e : sane (te_windings e) -> (forall s x, te_length e s x <> None) ->
  forall layers st,
  (forall l w, In l (conduction layers) -> In w (te_windings e) -> 0 < w_width w /\ 0 < te_pitch e l (w_height w)) ->
  Forall (windable (te_windings e)) (conduction layers) ->
  exists bts, turns_from e st layers = Ok (Some (List.concat (map fst bts))) /\ Forall2 (laid e) (conduction layers) bts /\
    ((forall s, te_order e s = ORDER_U) -> te_real e = false \/ Forall (fun l => l_orientation l = OVERLAPPING) (conduction layers) ->
     (forall x, ts_layers st x <> 0%nat -> ts_top st x = xorb (entrance e x) (Nat.odd (ts_layers st x))) ->
     forall x, exists n, ways x layers bts = map (fun k => xorb (entrance e x) (Nat.odd k)) (seq (ts_layers st x) n)) /\
    ((forall s, te_order e s = ORDER_Z) -> te_real e = false -> Forall (fun bt => snd bt = false) bts).
Proof.
  intros HS HL. induction layers as [|l layers IH]; intros st HW HF.
  - exists []. cbn. split; [reflexivity|]. split; [constructor|]. split; [|constructor]. intros _ _ _ x. exists 0%nat. reflexivity.
  - cbn [turns_from conduction filter] in *. destruct (is_conduction (l_type l)) eqn:Ec.
    + inversion HF as [|? ? F1 F2]; subst.
      destruct (layer_places e st l HS HL) as (w & props & a & s & b & counters & Hin & Hl & Ha & Hs & H); [|assumption|].
      { intros w Hw. apply HW; [now left|assumption]. }
      destruct (starts_at_top e st l s (w_name w) (w_parallels w) (Z.of_nat (List.length b))) as [top st'] eqn:ST.
      destruct H as (E & T & N & P).
      set (st2 := mkTurnState counters (ts_layers st') (ts_sections st') (ts_last st') (ts_top st') (ts_single st')) in *.
      destruct (IH st2) as (bts & E2 & L2 & U2 & Z2); [|assumption|].
      { intros l' w' Hl' Hw'. apply HW; [now right|assumption]. }
      rewrite E. cbn [bind]. rewrite E2. cbn [bind]. exists ((b, top) :: bts). split; [reflexivity|]. split.
      { constructor; [|assumption]. exists w, props, a. repeat (split; [assumption|]). exact P. }
      split.
      * intros HU HO Inv.
        assert (Etop : top = xorb (entrance e (w_name w)) (Nat.odd (ts_layers st (w_name w)))).
        { unfold starts_at_top in ST. rewrite (HU s) in ST. unfold entrance. specialize (Inv (w_name w)). unfold entrance in Inv.
          injection ST as ST _. destruct (te_real e) eqn:R.
          - destruct HO as [HO|HO]; [discriminate|]. pose proof (Forall_inv HO) as O1. cbn beta in O1. rewrite O1 in ST. cbn [is_overlapping andb] in ST.
            rewrite !andb_true_r in ST. rewrite <- ST. destruct (_ && negb _)%bool eqn:B; [|reflexivity].
            apply andb_true_iff in B. destruct B as [_ B]. apply negb_true_iff, Nat.eqb_neq in B. now apply Inv.
          - cbn [andb] in ST. rewrite <- ST. reflexivity. }
        assert (EL : ts_layers st2 = set_name (ts_layers st) (w_name w) (S (ts_layers st (w_name w)))).
        { unfold starts_at_top in ST. injection ST as _ <-. reflexivity. }
        assert (ET : ts_top st2 = set_name (ts_top st) (w_name w) (negb top)).
        { unfold starts_at_top in ST. injection ST as ST1 <-. unfold st2. cbn [ts_top]. rewrite ST1. reflexivity. }
        intros x. destruct (U2 HU) with (x := x) as (n & En).
        { destruct HO as [HO|HO]; [now left|right]. now inversion HO. }
        { intros y. rewrite EL, ET. unfold set_name. destruct (String.eqb_spec y (w_name w)) as [->|Hne]; [|apply Inv].
          intros _. rewrite Etop. rewrite Nat.odd_succ, <- Nat.negb_odd. now destruct (entrance e (w_name w)), (Nat.odd (ts_layers st (w_name w))). }
        unfold ways. cbn [conduction filter]. rewrite Ec. cbn [combine filter fst]. unfold layer_winding at 1. rewrite Hl.
        rewrite EL in En. unfold set_name in En. destruct (String.eqb_spec (w_name w) x) as [<-|Hne].
        -- rewrite String.eqb_refl in En. exists (S n). cbn [map snd seq]. unfold ways, conduction in En. rewrite En, <- Etop. reflexivity.
        -- destruct (String.eqb_spec x (w_name w)); [congruence|]. exists n. exact En.
      * intros HZ HR. constructor; [|now apply Z2]. cbn. unfold starts_at_top in ST. rewrite (HZ s), HR in ST. cbn [andb] in ST.
        injection ST as <- _. reflexivity.
    + destruct (IH st HW HF) as (bts & E & L & U & Z). exists bts. split; [assumption|]. split; [assumption|]. split; [|assumption].
      intros A B C x. destruct (U A B C x) as (n & En). exists n. unfold ways, conduction in *. cbn [filter]. rewrite Ec. exact En.
Qed.

(** * Theorems *)

(** C73: the turns of every layer lie inside it if it can hold them, a pitch apart or more, and where its alignment says, to two
    nanometres. *)
Theorem C73_turns_on_their_layer : forall e layers,
  sane (te_windings e) ->
  (forall s x, te_length e s x <> None) ->
  (forall l w, In l layers -> In w (te_windings e) -> 0 < w_width w /\ 0 < te_pitch e l (w_height w)) ->
  (forall w, In w (te_windings e) -> w_wire w = PLANAR -> (List.length (conduction layers) <= te_planar_layers e)%nat) ->
  Forall (windable (te_windings e)) (conduction layers) ->
  exists bts, wind_by_rectangular_turns e layers = Ok (Some (List.concat (map fst bts))) /\ Forall2 (laid e) (conduction layers) bts /\
    ((forall s, te_order e s = ORDER_U) -> te_real e = false \/ Forall (fun l => l_orientation l = OVERLAPPING) (conduction layers) ->
     forall x, exists n, ways x layers bts = map (fun k => xorb (entrance e x) (Nat.odd k)) (seq 0 n)) /\
    ((forall s, te_order e s = ORDER_Z) -> te_real e = false -> Forall (fun bt => snd bt = false) bts).
Proof.
  intros e layers HS HL HW HPl HF.
  destruct (ways_from e HS HL layers start) as (bts & E & L & U & Z); [|assumption|].
  { intros l w Hl. apply HW. apply filter_In in Hl. now destruct Hl. }
  exists bts. split.
  { unfold wind_by_rectangular_turns. destruct (existsb _ (te_windings e) && _)%bool eqn:B; [exfalso|exact E].
    apply andb_true_iff in B. destruct B as [B1 B2]. apply existsb_exists in B1. destruct B1 as (w & Hw & B1).
    destruct (w_wire w) eqn:Ew; try discriminate. apply Nat.ltb_lt in B2. specialize (HPl w Hw Ew). unfold conduction in HPl. lia. }
  split; [exact L|]. split; [|exact Z]. intros A B x. apply U; [assumption|assumption|]. intros y Hy. now cbn in Hy.
Qed.

(** C74: wound in U, the layers of a winding go to and fro: each one but the first starts at the end the one before finished at.  Wound
    in Z, they all start at the same end. *)
Theorem C74_to_and_fro : forall e layers,
  sane (te_windings e) ->
  (forall s x, te_length e s x <> None) ->
  (forall l w, In l layers -> In w (te_windings e) -> 0 < w_width w /\ 0 < te_pitch e l (w_height w)) ->
  (forall w, In w (te_windings e) -> w_wire w = PLANAR -> (List.length (conduction layers) <= te_planar_layers e)%nat) ->
  Forall (windable (te_windings e)) (conduction layers) ->
  (forall s, te_order e s = ORDER_U) -> te_real e = false \/ Forall (fun l => l_orientation l = OVERLAPPING) (conduction layers) ->
  exists bts, wind_by_rectangular_turns e layers = Ok (Some (List.concat (map fst bts))) /\ Forall2 (laid e) (conduction layers) bts /\
    forall x k, (S k < List.length (ways x layers bts))%nat -> nth (S k) (ways x layers bts) false = negb (nth k (ways x layers bts) false).
Proof.
  intros e layers HS HL HW HPl HF HU HO. destruct (C73_turns_on_their_layer e layers HS HL HW HPl HF) as (bts & E & L & U & _).
  exists bts. split; [exact E|]. split; [exact L|]. intros x k. destruct (U HU HO x) as (n & ->).
  rewrite map_length, seq_length. intros Hk. 
  rewrite !(nth_indep _ false (xorb (entrance e x) (Nat.odd 0))) by (rewrite map_length, seq_length; lia).
  rewrite !(map_nth (fun k => xorb (entrance e x) (Nat.odd k))), !seq_nth by lia. cbn [Nat.add].
  rewrite Nat.odd_succ, <- Nat.negb_odd. now destruct (entrance e x), (Nat.odd k).
Qed.

Theorem C74_same_end : forall e layers,
  sane (te_windings e) ->
  (forall s x, te_length e s x <> None) ->
  (forall l w, In l layers -> In w (te_windings e) -> 0 < w_width w /\ 0 < te_pitch e l (w_height w)) ->
  (forall w, In w (te_windings e) -> w_wire w = PLANAR -> (List.length (conduction layers) <= te_planar_layers e)%nat) ->
  Forall (windable (te_windings e)) (conduction layers) ->
  (forall s, te_order e s = ORDER_Z) -> te_real e = false ->
  exists bts, wind_by_rectangular_turns e layers = Ok (Some (List.concat (map fst bts))) /\ Forall2 (laid e) (conduction layers) bts /\
    Forall (fun bt => snd bt = false) bts.
Proof.
  intros e layers HS HL HW HPl HF HZ HR. destruct (C73_turns_on_their_layer e layers HS HL HW HPl HF) as (bts & E & L & _ & Z).
  exists bts. split; [exact E|]. split; [exact L|]. now apply Z.
Qed.

(** A coil of two layers of three turns and a layer of another winding between them. *)
Definition place_windings : list winding :=
  [mkWinding "P" 6 1 ROUND (1 # 1000) (1 # 1000); mkWinding "S" 2 1 RECTANGULAR (2 # 1000) (1 # 1000)].
Definition place_env (order : winding_order) : turn_env :=
  mkTurnEnv place_windings false 10 (fun _ => order) (fun _ _ => Some (1 # 20)) (fun _ h => h) (fun _ => None).
Definition place_layer (name w : string) (q : Q) (a : alignment) (x : Q) : layer :=
  mkLayer name (Some name) CONDUCTION [(w, [q])] OVERLAPPING (Some WIND_BY_CONSECUTIVE_TURNS) (Some a) (x, 0) (1 # 1000, 10 # 1000).
Definition place_layers : list layer :=
  [place_layer "a" "P" (1#2) SPREAD (1 # 1000); place_layer "b" "S" 1 INNER_OR_TOP (2 # 1000); place_layer "c" "P" (1#2) OUTER_OR_BOTTOM (3 # 1000)].

Example C73_witness : forall order,
  sane place_windings /\ (forall s x, te_length (place_env order) s x <> None) /\
  (forall l w, In l place_layers -> In w place_windings -> 0 < w_width w /\ 0 < te_pitch (place_env order) l (w_height w)) /\
  (forall w, In w place_windings -> w_wire w <> PLANAR) /\
  Forall (windable place_windings) (conduction place_layers) /\
  exists ts, wind_by_rectangular_turns (place_env order) place_layers = Ok (Some ts) /\ List.length ts = 8%nat.
Proof.
  intros order. split; [split; repeat constructor; cbn; intuition discriminate|]. split; [discriminate|]. split.
  { intros l w _ [<-|[<-|[]]]; split; reflexivity. }
  split; [intros w [<-|[<-|[]]]; discriminate|]. split.
  - apply Forall_forall. intros l [<-|[<-|[<-|[]]]].
    + exists (mkWinding "P" 6 1 ROUND (1 # 1000) (1 # 1000)), [1#2], SPREAD, "a"%string. split; [now left|].
      do 2 (split; [reflexivity|]). split; [repeat constructor; exists 3%Z; (split; [lia|reflexivity])|]. do 2 (split; [reflexivity|]). discriminate.
    + exists (mkWinding "S" 2 1 RECTANGULAR (2 # 1000) (1 # 1000)), [1], INNER_OR_TOP, "b"%string. split; [right; now left|].
      do 2 (split; [reflexivity|]). split; [repeat constructor; exists 2%Z; (split; [lia|reflexivity])|]. do 2 (split; [reflexivity|]). discriminate.
    + exists (mkWinding "P" 6 1 ROUND (1 # 1000) (1 # 1000)), [1#2], OUTER_OR_BOTTOM, "c"%string. split; [now left|].
      do 2 (split; [reflexivity|]). split; [repeat constructor; exists 3%Z; (split; [lia|reflexivity])|]. do 2 (split; [reflexivity|]). discriminate.
  - destruct order; eexists; (split; [vm_compute; reflexivity|reflexivity]).
Qed.

Print Assumptions C73_turns_on_their_layer.
Print Assumptions C74_to_and_fro.
Print Assumptions C74_same_end.
