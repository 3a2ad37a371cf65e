(** C04, C10: where the turns of a layer sit, and how many turns each ring of a toroid takes. *)
From Coq Require Import ZArith QArith Qround List Bool Reals String Lia Lra Lqa Arith.
From Verif Require Import Base QAux CoilSplitModel StationModel.
Import ListNotations.
Open Scope Q_scope.

(** * C04 *)

(** ** Vocabulary *)

(** The k-th position of a list of positions. *)
Definition position (l : list Q) (k : nat) : Q := nth k l 0.

(** [n] turns of a wire of size [w], wound together [b] by [b], sit on [positions]: neighbours of the same
    bundle touch, neighbouring bundles are [gap] apart. *)
Definition spread (n b : nat) (w gap : Q) (positions : list Q) : Prop :=
  List.length positions = n /\
  forall k, (S k < n)%nat ->
    position positions (S k) - position positions k == w + (if Nat.eqb (S k mod b) 0 then gap else 0).

(** The outer surfaces of the first and the last of [n] turns. *)
Definition low_edge (w : Q) (positions : list Q) : Q := position positions 0 - (1 # 2) * w.
Definition high_edge (n : nat) (w : Q) (positions : list Q) : Q := position positions (n - 1) + (1 # 2) * w.

(** ** Proofs *)

Definition bundles_of (n b : nat) : Z := ((Z.of_nat n + Z.of_nat b - 1) / Z.of_nat b)%Z.
Definition gap_of (L w : Q) (n b : nat) : Q :=
  if (1 <? bundles_of n b)%Z && Qlt_bool 0 (L - inject_Z (Z.of_nat n) * w)
  then (L - inject_Z (Z.of_nat n) * w) / inject_Z (bundles_of n b - 1) else 0.

Lemma station_nth c L w n b k : (1 <= b)%nat -> (k < n)%nat ->
  let g := gap_of L w n b in
  position (compute_spread_turn_stations c L w (Z.of_nat n) (Z.of_nat b)) k ==
  c - (1 # 2) * (inject_Z (Z.of_nat n) * w + inject_Z (bundles_of n b - 1) * g) + (1 # 2) * w
    + inject_Z (Z.of_nat k) * w + inject_Z (Z.of_nat (k / b)) * g.
Proof.
  intros Hb Hk g. unfold compute_spread_turn_stations, position.
  destruct (Z.leb_spec (Z.of_nat n) 0); [lia|]. destruct (Z.ltb_spec (Z.of_nat b) 1); [lia|].
  rewrite Nat2Z.id.
  match goal with |- nth k (map ?f _) 0 == _ => set (F := f) end.
  rewrite (nth_indep (map F (seq 0 n)) 0 (F O)) by (rewrite map_length, seq_length; exact Hk).
  rewrite map_nth, seq_nth by exact Hk. rewrite Nat.add_0_l. subst F. cbn beta zeta.
  fold (bundles_of n b). fold (gap_of L w n b). fold g. rewrite <- Nat2Z.inj_div. field.
Qed.

Lemma station_length c L w n b : List.length (compute_spread_turn_stations c L w (Z.of_nat n) (Z.of_nat b)) = n.
Proof.
  unfold compute_spread_turn_stations. destruct (Z.leb_spec (Z.of_nat n) 0).
  - cbn. lia.
  - rewrite map_length, seq_length. lia.
Qed.

Lemma gap_nonneg L w n b : (1 <= b)%nat -> 0 <= gap_of L w n b.
Proof.
  intros Hb. unfold gap_of. destruct (Z.ltb_spec 1 (bundles_of n b)) as [B|B]; cbn [andb]; [|lra].
  destruct (Qlt_bool 0 _) eqn:E; [|lra]. apply Qlt_bool_iff in E.
  assert (P : 0 < inject_Z (bundles_of n b - 1)) by (change 0 with (inject_Z 0); apply inj_lt; lia).
  apply (Qle_div_iff _ _ _ P). lra.
Qed.

Lemma last_bundle n b : (1 <= b)%nat -> (1 <= n)%nat -> (Z.of_nat ((n - 1) / b) = bundles_of n b - 1)%Z.
Proof.
  intros Hb Hn. unfold bundles_of. rewrite Nat2Z.inj_div, Nat2Z.inj_sub by lia.
  replace (Z.of_nat n + Z.of_nat b - 1)%Z with (Z.of_nat n - 1 + 1 * Z.of_nat b)%Z by lia.
  rewrite Z.div_add by lia. change (Z.of_nat 1) with 1%Z. lia.
Qed.

Lemma div_succ k b : (1 <= b)%nat -> (S k / b = k / b + (if Nat.eqb (S k mod b) 0 then 1 else 0))%nat.
Proof.
  intros Hb. pose proof (Nat.div_mod k b ltac:(lia)) as D. pose proof (Nat.mod_upper_bound k b ltac:(lia)) as U.
  destruct (Nat.eqb_spec (S k mod b) 0) as [E|E].
  - assert (M : (k mod b = b - 1)%nat).
    { destruct (Nat.eq_dec (k mod b) (b - 1)) as [|N]; [assumption|]. exfalso.
      apply E || (assert (M : (S k mod b = k mod b + 1)%nat); [|lia]).
      symmetry. apply (Nat.mod_unique _ _ (k / b)); lia. }
    symmetry. apply (Nat.div_unique _ _ _ 0); nia.
  - assert (N : (k mod b <> b - 1)%nat).
    { intros N. apply E. symmetry. apply (Nat.mod_unique _ _ (k / b + 1)); nia. }
    symmetry. apply (Nat.div_unique _ _ _ (k mod b + 1)); nia.
Qed.

Lemma inj_pred n : (1 <= n)%nat -> inject_Z (Z.of_nat (n - 1)) == inject_Z (Z.of_nat n) - 1.
Proof.
  intros H. replace (Z.of_nat (n - 1)) with (Z.of_nat n + (-1))%Z by lia. rewrite inject_Z_plus. reflexivity.
Qed.

(** ** Theorems *)

(** However many turns are spread over a layer, neighbours are at least a wire apart, turns wound together
    touch, all the gaps between bundles are equal, and the block of turns is centred in the layer. *)
Theorem C04_spread : forall c L w n b,
  (1 <= n)%nat -> (1 <= b)%nat -> 0 < w ->
  let positions := compute_spread_turn_stations c L w (Z.of_nat n) (Z.of_nat b) in
  exists gap, 0 <= gap /\ spread n b w gap positions /\
    low_edge w positions + high_edge n w positions == 2 * c.
Proof.
  intros c L w n b Hn Hb Hw positions. exists (gap_of L w n b). split; [now apply gap_nonneg|]. split; [split|].
  - apply station_length.
  - intros k Hk. unfold positions. rewrite !station_nth by lia. rewrite (div_succ k b Hb).
    replace (inject_Z (Z.of_nat (S k))) with (inject_Z (Z.of_nat k + 1)) by (f_equal; lia).
    rewrite inject_Z_plus. change (inject_Z 1) with 1.
    destruct (Nat.eqb (S k mod b) 0).
    + rewrite Nat2Z.inj_add, inject_Z_plus. change (inject_Z (Z.of_nat 1)) with 1. ring.
    + rewrite Nat.add_0_r. ring.
  - unfold low_edge, high_edge, positions. rewrite !station_nth by lia. rewrite (last_bundle n b Hb Hn).
    rewrite Nat.div_0_l by lia. rewrite (inj_pred n Hn). change (inject_Z (Z.of_nat 0)) with 0. ring.
Qed.

(** When the turns fit and there is more than one bundle, the outermost turns touch the edges of the layer. *)
Theorem C04_edges_met : forall c L w n b,
  (1 <= b)%nat -> (b < n)%nat -> 0 < w -> inject_Z (Z.of_nat n) * w <= L ->
  let positions := compute_spread_turn_stations c L w (Z.of_nat n) (Z.of_nat b) in
  low_edge w positions == c - (1 # 2) * L /\ high_edge n w positions == c + (1 # 2) * L.
Proof.
  intros c L w n b Hb Hn Hw Fit positions.
  assert (B : (1 < bundles_of n b)%Z).
  { pose proof (last_bundle n b Hb ltac:(lia)) as LB.
    pose proof (Nat.div_le_lower_bound (n - 1) b 1 ltac:(lia) ltac:(lia)). lia. }
  assert (P : 0 < inject_Z (bundles_of n b - 1)) by (change 0 with (inject_Z 0); apply inj_lt; lia).
  assert (G : inject_Z (bundles_of n b - 1) * gap_of L w n b == L - inject_Z (Z.of_nat n) * w).
  { unfold gap_of. destruct (Z.ltb_spec 1 (bundles_of n b)); [|lia]. cbn [andb].
    destruct (Qlt_bool 0 _) eqn:E.
    - field. lra.
    - apply Qlt_bool_false in E. lra. }
  unfold low_edge, high_edge, positions. rewrite !station_nth by lia. rewrite (last_bundle n b Hb ltac:(lia)), G.
  rewrite Nat.div_0_l by lia. rewrite (inj_pred n ltac:(lia)). change (inject_Z (Z.of_nat 0)) with 0. split; ring.
Qed.

(** When they do not fit, or there is a single bundle, they touch one another and stick out evenly. *)
Theorem C04_contiguous : forall c L w n b,
  (1 <= b)%nat -> (1 <= n)%nat -> 0 < w -> (n <= b)%nat \/ L <= inject_Z (Z.of_nat n) * w ->
  let positions := compute_spread_turn_stations c L w (Z.of_nat n) (Z.of_nat b) in
  spread n b w 0 positions /\
  low_edge w positions == c - (1 # 2) * (inject_Z (Z.of_nat n) * w) /\
  high_edge n w positions == c + (1 # 2) * (inject_Z (Z.of_nat n) * w).
Proof.
  intros c L w n b Hb Hn Hw Full positions.
  assert (G : gap_of L w n b == 0).
  { unfold gap_of. destruct (Z.ltb_spec 1 (bundles_of n b)) as [B|B]; cbn [andb]; [|reflexivity].
    destruct Full as [F|F].
    - pose proof (last_bundle n b Hb Hn) as LB. rewrite Nat.div_small in LB by lia. lia.
    - destruct (Qlt_bool 0 _) eqn:E; [|reflexivity]. apply Qlt_bool_iff in E. lra. }
  split; [split; [apply station_length|]|].
  - intros k Hk. unfold positions. rewrite !station_nth by lia. rewrite G.
    replace (inject_Z (Z.of_nat (S k))) with (inject_Z (Z.of_nat k + 1)) by (f_equal; lia).
    rewrite inject_Z_plus. change (inject_Z 1) with 1. destruct (Nat.eqb (S k mod b) 0); ring.
  - unfold low_edge, high_edge, positions. rewrite !station_nth by lia. rewrite G.
    rewrite (inj_pred n Hn). change (inject_Z (Z.of_nat 0)) with 0. split; ring.
Qed.

Lemma stations_apart c L w n b : (1 <= b)%nat -> 0 < w ->
  let positions := compute_spread_turn_stations c L w (Z.of_nat n) (Z.of_nat b) in
  forall d k, (k + d < n)%nat -> position positions k + inject_Z (Z.of_nat d) * w <= position positions (k + d).
Proof.
  intros Hb Hw positions d k Hk0.
  destruct (C04_spread c L w n b ltac:(lia) Hb Hw) as (gap & G0 & (_ & St) & _). revert k Hk0.
  induction d as [|d IH]; intros k Hk.
  - rewrite Nat.add_0_r. change (inject_Z (Z.of_nat 0)) with 0. lra.
  - specialize (IH k ltac:(lia)). specialize (St (k + d)%nat ltac:(lia)).
    replace (k + S d)%nat with (S (k + d)) by lia.
    replace (inject_Z (Z.of_nat (S d))) with (inject_Z (Z.of_nat d + 1)) by (f_equal; lia).
    rewrite inject_Z_plus. change (inject_Z 1) with 1. fold positions in St.
    destruct (Nat.eqb (S (k + d) mod b) 0); lra.
Qed.

(** So turns that fit never leave the layer, and never come nearer than a wire to one another. *)
Theorem C04_inside : forall c L w n b i j,
  (1 <= b)%nat -> 0 < w -> inject_Z (Z.of_nat n) * w <= L -> (i < j)%nat -> (j < n)%nat ->
  let positions := compute_spread_turn_stations c L w (Z.of_nat n) (Z.of_nat b) in
  c - (1 # 2) * L <= position positions i - (1 # 2) * w /\
  position positions i + inject_Z (Z.of_nat (j - i)) * w <= position positions j /\
  position positions j + (1 # 2) * w <= c + (1 # 2) * L.
Proof.
  intros c L w n b i j Hb Hw Fit Hij Hj positions.
  pose proof (stations_apart c L w n b Hb Hw) as A. fold positions in A.
  assert (W : forall d, 0 <= inject_Z (Z.of_nat d) * w).
  { intros d. apply Qmult_le_0_compat; [|lra]. change 0 with (inject_Z 0). apply inj_le. lia. }
  assert (E : low_edge w positions == c - (1 # 2) * L /\ high_edge n w positions == c + (1 # 2) * L \/
              c - (1 # 2) * L <= low_edge w positions /\ high_edge n w positions <= c + (1 # 2) * L).
  { destruct (le_lt_dec n b) as [Nb|Nb].
    - right. destruct (C04_contiguous c L w n b Hb ltac:(lia) Hw (or_introl Nb)) as (_ & E1 & E2).
      fold positions in E1, E2. rewrite E1, E2. split; lra.
    - left. apply (C04_edges_met c L w n b); assumption. }
  assert (E' : c - (1 # 2) * L <= low_edge w positions /\ high_edge n w positions <= c + (1 # 2) * L)
    by (destruct E as [[E1 E2]|]; [split; lra|assumption]).
  unfold low_edge, high_edge in E'. destruct E' as [E1 E2].
  pose proof (A i 0%nat ltac:(lia)) as A1. pose proof (A (j - i)%nat i ltac:(lia)) as A2.
  pose proof (A (n - 1 - j)%nat j ltac:(lia)) as A3. rewrite Nat.add_0_l in A1.
  replace (i + (j - i))%nat with j in A2 by lia. replace (j + (n - 1 - j))%nat with (n - 1)%nat in A3 by lia.
  pose proof (W i). pose proof (W (n - 1 - j)%nat). repeat split; lra.
Qed.

(** With whole bundles only, every turn mirrors another one about the centre of the layer … *)
Theorem C04_symmetric : forall c L w m b k,
  (1 <= b)%nat -> 0 < w -> (k < m * b)%nat ->
  let positions := compute_spread_turn_stations c L w (Z.of_nat (m * b)) (Z.of_nat b) in
  position positions k + position positions (m * b - 1 - k) == 2 * c.
Proof.
  intros c L w m b k Hb Hw Hk positions. unfold positions. rewrite !station_nth by lia.
  assert (D : (Z.of_nat (k / b) + Z.of_nat ((m * b - 1 - k) / b) = bundles_of (m * b) b - 1)%Z).
  { rewrite <- (last_bundle (m * b) b Hb ltac:(lia)). rewrite <- Nat2Z.inj_add. f_equal.
    pose proof (Nat.div_mod k b ltac:(lia)) as D. pose proof (Nat.mod_upper_bound k b ltac:(lia)) as U.
    assert (Q1 : ((m * b - 1 - k) / b = m - 1 - k / b)%nat).
    { symmetry. apply (Nat.div_unique _ _ _ (b - 1 - k mod b)); [lia|].
      assert (k / b < m)%nat by (apply Nat.div_lt_upper_bound; lia). nia. }
    assert (Q2 : ((m * b - 1) / b = m - 1)%nat).
    { symmetry. apply (Nat.div_unique _ _ _ (b - 1)); [lia|]. assert (1 <= m)%nat by nia. nia. }
    rewrite Q1, Q2. assert (k / b < m)%nat by (apply Nat.div_lt_upper_bound; lia). lia. }
  assert (I : inject_Z (bundles_of (m * b) b - 1) ==
              inject_Z (Z.of_nat (k / b)) + inject_Z (Z.of_nat ((m * b - 1 - k) / b)))
    by (rewrite <- inject_Z_plus, D; reflexivity).
  assert (J : inject_Z (Z.of_nat (m * b - 1 - k)) == inject_Z (Z.of_nat (m * b)) - 1 - inject_Z (Z.of_nat k)).
  { replace (Z.of_nat (m * b - 1 - k)) with (Z.of_nat (m * b) + (-1) + - Z.of_nat k)%Z by lia.
    rewrite !inject_Z_plus, inject_Z_opp. change (inject_Z (-1)) with (-1). ring. }
  rewrite I, J. ring.
Qed.

(** … but a last bundle that is not full breaks the symmetry of the turns inside the layer. *)
Theorem C04_symmetric_refuted : exists c L w n b k,
  (1 <= b)%nat /\ 0 < w /\ (k < n)%nat /\ inject_Z (Z.of_nat n) * w <= L /\
  let positions := compute_spread_turn_stations c L w (Z.of_nat n) (Z.of_nat b) in
  ~ position positions k + position positions (n - 1 - k) == 2 * c.
Proof.
  exists 0, 10, 1, 3%nat, 2%nat, 1%nat. repeat split; try (vm_compute; congruence); try lia.
Qed.

(** No turns take no place, and a bundle of less than one turn counts as one turn. *)
Theorem C04_degenerate : forall c L w n b,
  (n <= 0)%Z \/ (b < 1)%Z ->
  compute_spread_turn_stations c L w n b = if (n <=? 0)%Z then [] else compute_spread_turn_stations c L w n 1.
Proof.
  intros c L w n b H. unfold compute_spread_turn_stations. destruct (Z.leb_spec n 0); [reflexivity|].
  destruct (Z.ltb_spec b 1); [reflexivity|lia].
Qed.

(** ** Taking the stations one by one *)

(** Taking stations k times from the start gives the first k of them in order on the chosen axis and leaves
    the other axis alone; one more than there are is refused. *)
Fixpoint take_many (stations : list Q) (axis : nat) (times : nat) (index : nat) (center : Q * Q) : outcome (list (Q * Q)) :=
  match times with
  | O => Ok []
  | S t =>
      bind (take_next_spread_station stations index axis center) (fun '(index', center') =>
      bind (take_many stations axis t index' center') (fun rest => Ok (center' :: rest)))
  end.

Theorem C04_stations_in_order : forall stations axis times x y,
  stations <> [] ->
  ((times <= List.length stations)%nat ->
   take_many stations axis times 0 (x, y) =
   Ok (map (fun s => if Nat.eqb axis 1 then (x, s) else (s, y)) (firstn times stations))) /\
  ((List.length stations < times)%nat -> exists m, take_many stations axis times 0 (x, y) = Throw m).
Proof.
  intros stations axis times x y Hne.
  assert (G : forall t before after x' y', stations = (before ++ after)%list ->
    (Nat.eqb axis 1 = true -> x' = x) -> (Nat.eqb axis 1 = false -> y' = y) ->
    ((t <= List.length after)%nat ->
     take_many stations axis t (List.length before) (x', y') =
     Ok (map (fun s => if Nat.eqb axis 1 then (x, s) else (s, y)) (firstn t after))) /\
    ((List.length after < t)%nat -> exists m, take_many stations axis t (List.length before) (x', y') = Throw m)).
  { induction t as [|t IH]; intros before after x' y' E Ex Ey; cbn [take_many].
    - split; [reflexivity|intros F; inversion F].
    - assert (T : take_next_spread_station stations (List.length before) axis (x', y') =
        match after with
        | [] => Throw "SPREAD turn stations exhausted"%string
        | s :: _ => Ok (S (List.length before), if Nat.eqb axis 1 then (x, s) else (s, y))
        end).
      { unfold take_next_spread_station. destruct stations as [|s0 st]; [congruence|]. rewrite E.
        rewrite nth_error_app2 by lia. rewrite Nat.sub_diag. destruct after as [|s after]; cbn; [reflexivity|].
        destruct (Nat.eqb axis 1); [rewrite Ex|rewrite Ey]; reflexivity. }
      rewrite T. destruct after as [|s after]; cbn [bind].
      + split; [intros F; inversion F|eauto].
      + destruct (IH (before ++ [s])%list after (if Nat.eqb axis 1 then x else s) (if Nat.eqb axis 1 then s else y))
          as [I1 I2].
        * rewrite <- app_assoc. exact E.
        * intros ->. reflexivity.
        * intros ->. reflexivity.
        * rewrite app_length in I1, I2. cbn [List.length] in I1, I2. rewrite Nat.add_1_r in I1, I2.
          assert (P : (if Nat.eqb axis 1 then (x, s) else (s, y)) =
                      ((if Nat.eqb axis 1 then x else s), (if Nat.eqb axis 1 then s else y)))
            by (destruct (Nat.eqb axis 1); reflexivity).
          rewrite P. split; intros F; cbn [List.length] in F.
          -- rewrite I1 by lia. cbn [bind firstn map]. rewrite P. reflexivity.
          -- destruct (I2 ltac:(lia)) as [m ->]. cbn. eauto. }
  apply (G times [] stations x y); auto.
Qed.

(** * C10 *)

(** ** Vocabulary *)

(** What the first k rings hold. *)
Fixpoint held_by (capacity : nat -> Z) (k : nat) : Z :=
  match k with O => 0 | S j => held_by capacity j + capacity j end%Z.

Definition total (l : list Z) : Z := fold_right Z.add 0%Z l.

(** ** Proofs *)

Lemma fill_rings_spec capacity : (forall k, 1 <= capacity k)%Z ->
  forall fuel ring remaining, (remaining <= Z.of_nat fuel)%Z ->
  exists l left_, fill_rings fuel capacity ring remaining = Ok (l, left_) /\
    l = map capacity (seq ring (List.length l)) /\
    (left_ = remaining - total l)%Z /\ (left_ <= 0 \/ remaining = 0 \/ l <> [])%Z /\ (left_ <= 0)%Z /\
    (remaining <= 0 -> l = [])%Z /\
    (0 < remaining -> l <> [] /\ total (removelast l) < remaining)%Z.
Proof.
  intros C. induction fuel as [|f IH]; intros ring remaining Hf; cbn [fill_rings].
  - destruct (Z.ltb_spec 0 remaining); [lia|]. exists [], remaining. cbn. repeat split; auto; try lia; intros; lia.
  - destruct (Z.ltb_spec 0 remaining) as [R|R].
    + destruct (IH (S ring) (remaining - capacity ring)%Z) as (l & lf & E & Hl & Hs & _ & Hn & Hz & Hp).
      { specialize (C ring). lia. }
      rewrite E. cbn [bind]. exists (capacity ring :: l), lf. split; [reflexivity|]. split.
      { cbn [List.length seq map]. now rewrite <- Hl. }
      split; [unfold total in *; cbn [fold_right]; lia|]. split; [left; lia|]. split; [lia|]. split; [intros; lia|].
      intros _. split; [discriminate|].
      destruct l as [|a l'].
      * cbn. lia.
      * destruct (Z_lt_le_dec 0 (remaining - capacity ring)) as [Q|Q].
        -- destruct (Hp Q) as [_ T]. cbn [removelast total fold_right] in T |- *. unfold total in T. lia.
        -- specialize (Hz Q). discriminate.
    + exists [], remaining. cbn. repeat split; auto; try lia; intros; lia.
Qed.

Lemma total_app a b : total (a ++ b) = (total a + total b)%Z.
Proof. unfold total. induction a; cbn; [lia|]. rewrite IHa. lia. Qed.

Lemma total_held capacity n : total (map capacity (seq 0 n)) = held_by capacity n.
Proof.
  induction n; [reflexivity|]. rewrite seq_S, map_app, total_app, IHn. cbn. lia.
Qed.

Lemma decrease_length l i : List.length (decrease_at l i) = List.length l.
Proof. revert i. induction l; intros [|i]; cbn; auto. Qed.

Lemma decrease_nth l i j : (i < List.length l)%nat ->
  nth j (decrease_at l i) 0%Z = (nth j l 0 - if Nat.eqb j i then 1 else 0)%Z.
Proof.
  revert i j. induction l as [|a l IH]; intros i j Hi; [cbn in Hi; lia|].
  destruct i, j; cbn; try lia; try (rewrite Z.sub_0_r; reflexivity).
  apply IH. cbn in Hi. lia.
Qed.

Lemma decrease_total l i : (i < List.length l)%nat -> total (decrease_at l i) = (total l - 1)%Z.
Proof.
  revert i. induction l as [|a l IH]; intros i Hi; [cbn in Hi; lia|]. destruct i; cbn; unfold total in *.
  - lia.
  - rewrite IH by (cbn in Hi; lia). lia.
Qed.

(** Going round, every ring loses as many turns as any other, or one more. *)
Definition shared (o l : list Z) (i : nat) (q : Z) : Prop :=
  List.length o = List.length l /\
  forall j, (j < List.length l)%nat ->
    (nth j o 0 - nth j l 0 = if Nat.leb j i then q else q + 1)%Z.

Lemma take_back_spec o : forall e l i q, (i < List.length l)%nat -> shared o l i q -> (0 <= q)%Z ->
  let l' := take_back e l i in
  total l' = (total l - Z.of_nat e)%Z /\
  exists i' q', (i' < List.length l)%nat /\ shared o l' i' q' /\ (0 <= q')%Z.
Proof.
  induction e as [|e IH]; intros l i q Hi S0 Q0 l'; subst l'; cbn [take_back].
  - split; [lia|]. eauto.
  - set (i2 := if Nat.eqb i 0 then (List.length l - 1)%nat else (i - 1)%nat).
    assert (Hi2 : (i2 < List.length (decrease_at l i))%nat).
    { rewrite decrease_length. unfold i2. destruct (Nat.eqb i 0); lia. }
    set (q2 := if Nat.eqb i 0 then (q + 1)%Z else q).
    assert (S2 : shared o (decrease_at l i) i2 q2).
    { destruct S0 as [L0 S0]. split; [now rewrite decrease_length|]. intros j Hj. rewrite decrease_length in Hj.
      specialize (S0 j Hj). rewrite decrease_nth by assumption. unfold i2, q2.
      destruct (Nat.eqb_spec i 0) as [Ei|Ei].
      - subst i. destruct (Nat.leb_spec j (List.length l - 1)); [|lia].
        destruct (Nat.eqb_spec j 0); destruct (Nat.leb_spec j 0); try lia.
      - destruct (Nat.eqb_spec j i) as [->|Ej].
        + destruct (Nat.leb_spec i i); [|lia]. destruct (Nat.leb_spec i (i - 1)); lia.
        + destruct (Nat.leb_spec j i); destruct (Nat.leb_spec j (i - 1)); lia. }
    destruct (IH _ i2 q2 Hi2 S2 ltac:(unfold q2; destruct (Nat.eqb i 0); lia)) as (T & i' & q' & ? & ? & ?).
    rewrite decrease_length in *. split; [|eauto]. rewrite T, decrease_total by assumption. lia.
Qed.

Lemma take_back_ge e : forall l i j, (i < List.length l)%nat ->
  (nth j l 0 - Z.of_nat e <= nth j (take_back e l i) 0)%Z.
Proof.
  induction e as [|e IH]; intros l i j Hi; cbn [take_back]; [lia|].
  set (i2 := if Nat.eqb i 0 then (List.length l - 1)%nat else (i - 1)%nat).
  assert (Hi2 : (i2 < List.length (decrease_at l i))%nat).
  { rewrite decrease_length. unfold i2. destruct (Nat.eqb i 0); lia. }
  pose proof (IH _ i2 j Hi2) as H. rewrite decrease_nth in H by assumption. destruct (Nat.eqb j i); lia.
Qed.

(** ** Theorems *)

(** Whatever fits on each ring, there are as many counts as rings, they add up to the turns of the section, no
    ring takes more than fits, the turns that would be in excess are taken back evenly, and there are no more
    rings than needed. *)
Theorem C10_counts_add_up : forall capacity turns,
  (forall k, 1 <= capacity k)%Z -> (0 <= turns)%Z ->
  exists rings counts,
    get_number_layers_needed_and_number_physical_turns capacity turns = Ok (rings, counts) /\
    List.length counts = rings /\ total counts = turns /\
    (turns <= held_by capacity rings)%Z /\
    (0 < turns -> held_by capacity (rings - 1) < turns)%Z /\
    (exists share, 0 <= share /\ forall k, (k < rings)%nat ->
       nth k counts 0 = capacity k - share \/ nth k counts 0 = capacity k - share - 1)%Z.
Proof.
  intros capacity turns C N0. unfold get_number_layers_needed_and_number_physical_turns.
  destruct (fill_rings_spec capacity C (Z.to_nat turns) 0 turns ltac:(lia)) as (l & lf & E & Hl & Hs & _ & Hn & Hz & Hp).
  rewrite E. cbn [bind].
  destruct l as [|a l0] eqn:El.
  - cbn. cbn in Hs. destruct (Z.ltb_spec lf 0) as [B|B].
    + exfalso. assert (turns < 0)%Z by lia. lia.
    + assert (turns = 0)%Z by lia. subst turns. exists 0%nat, []. cbn. repeat split; try lia.
      exists 0%Z. split; [lia|]. intros k Hk. lia.
  - rewrite <- El in *. assert (L1 : (1 <= List.length l)%nat) by (subst l; cbn; lia).
    destruct (Nat.eqb_spec (List.length l) 0) as [L0|L0]; [lia|].
    set (n := List.length l) in *.
    destruct (take_back_spec l (Z.to_nat (- lf)) l (n - 1) 0) as (T & i' & q' & Hi & (SL & SH) & Q0).
    { subst n. lia. }
    { split; [reflexivity|]. intros j Hj. fold n in Hj. destruct (Nat.leb_spec j (n - 1)); lia. }
    { lia. }
    assert (P : (0 < turns)%Z).
    { destruct (Z_lt_le_dec 0 turns); [assumption|]. unfold n in L1. rewrite (Hz ltac:(assumption)) in L1. cbn in L1. lia. }
    exists n, (take_back (Z.to_nat (- lf)) l (n - 1)). split; [reflexivity|]. split; [now rewrite <- SL|].
    split; [rewrite T; lia|].
    assert (HT : total l = held_by capacity n) by (rewrite Hl at 1; apply total_held).
    split; [rewrite <- HT; lia|]. split.
    { intros _. destruct (Hp P) as [_ R]. destruct n as [|n']; [lia|]. rewrite Nat.sub_succ, Nat.sub_0_r.
      rewrite Hl, seq_S, map_app in R. cbn [map] in R. rewrite removelast_last in R. now rewrite total_held in R. }
    exists q'. split; [assumption|]. intros k Hk.
    rewrite <- SL in SH. specialize (SH k Hk).
    assert (NK : nth k l 0%Z = capacity k).
    { rewrite Hl. rewrite (nth_indep _ 0%Z (capacity O)) by (rewrite map_length, seq_length; exact Hk).
      rewrite map_nth, seq_nth by exact Hk. reflexivity. }
    rewrite NK in SH. destruct (Nat.leb k i'); lia.
Qed.

(** If no ring holds more than the ring outside it, no ring is left empty. *)
Theorem C10_no_empty_ring : forall capacity turns,
  (forall k, 1 <= capacity k)%Z -> (forall k, capacity (S k) <= capacity k)%Z -> (0 <= turns)%Z ->
  exists rings counts,
    get_number_layers_needed_and_number_physical_turns capacity turns = Ok (rings, counts) /\
    forall k, (k < rings)%nat -> (1 <= nth k counts 0 <= capacity k)%Z.
Proof.
  intros capacity turns C D N0.
  destruct (C10_counts_add_up capacity turns C N0) as (rings & counts & E & HL & HT & H1 & H2 & share & S0 & HS).
  exists rings, counts. split; [exact E|]. intros k Hk. specialize (HS k Hk). split; [|lia].
  revert E. unfold get_number_layers_needed_and_number_physical_turns.
  destruct (fill_rings_spec capacity C (Z.to_nat turns) 0 turns ltac:(lia)) as (l & lf & E & Hl & Hs & _ & Hn & Hz & Hp).
  rewrite E. cbn [bind]. destruct (Nat.eqb_spec (List.length l) 0) as [L0|L0].
  { destruct (lf <? 0)%Z; [discriminate|]. intros [= <- <-]. lia. }
  intros [= <- <-].
  pose proof (take_back_ge (Z.to_nat (- lf)) l (List.length l - 1) k ltac:(lia)) as G.
  assert (NK : forall j, (j < List.length l)%nat -> nth j l 0%Z = capacity j).
  { intros j Hj. rewrite Hl at 1. rewrite (nth_indep _ 0%Z (capacity O)) by (rewrite map_length, seq_length; exact Hj).
    rewrite map_nth, seq_nth by exact Hj. reflexivity. }
  rewrite NK in G by assumption.
  assert (Mono : forall d j, (capacity (j + d)%nat <= capacity j)%Z).
  { induction d; intros j; [rewrite Nat.add_0_r; lia|]. specialize (IHd (S j)). specialize (D j).
    replace (j + S d)%nat with (S j + d)%nat by lia. lia. }
  assert (P : (0 < turns)%Z).
  { destruct (Z_lt_le_dec 0 turns); [assumption|]. rewrite Hz in L0 by assumption. cbn in L0. lia. }
  specialize (H2 P). assert (HTl : total l = held_by capacity (List.length l)) by (rewrite Hl at 1; apply total_held).
  assert (HB : held_by capacity (List.length l) = (held_by capacity (List.length l - 1) + capacity (List.length l - 1)%nat)%Z).
  { destruct (List.length l) as [|n']; [lia|]. cbn. now rewrite Nat.sub_0_r. }
  specialize (Mono (List.length l - 1 - k)%nat k). replace (k + (List.length l - 1 - k))%nat with (List.length l - 1)%nat in Mono by lia.
  lia.
Qed.

(** ** The rings of a toroid *)

Section Rings.
Local Open Scope R_scope.
(* the real-number version of the tactic *)
Ltac rlra := Lra.lra.

Lemma asin_mono x y : -1 <= x -> x <= y -> y <= 1 -> asin x <= asin y.
Proof.
  intros H1 H2 H3. destruct (asin_bound x), (asin_bound y).
  apply sin_incr_0; try assumption. rewrite !sin_asin by rlra. assumption.
Qed.

Lemma asin_pos x : 0 < x -> x <= 1 -> 0 < asin x.
Proof.
  intros H1 H2. destruct (asin_bound x). destruct (Rlt_le_dec 0 (asin x)) as [|L]; [assumption|exfalso].
  assert (S0 : sin (asin x) <= sin 0).
  { apply sin_incr_1; try assumption; pose proof PI_RGT_0; rlra. }
  rewrite sin_0, sin_asin in S0 by rlra. rlra.
Qed.

Lemma angle_pos d r : 0 < d -> 0 < r -> 0 < wound_distance_to_angle d r.
Proof.
  intros Hd Hr. unfold wound_distance_to_angle. destruct (Req_EM_T r 0); [rlra|].
  assert (P : 0 < d / 2 / r) by (apply Rdiv_lt_0_compat; rlra).
  destruct (Rle_dec (d / 2 / r) 1); [|rlra]. destruct (Rle_dec (-1) (d / 2 / r)); [|rlra].
  pose proof (asin_pos _ P ltac:(assumption)). pose proof PI_RGT_0. apply Rdiv_lt_0_compat; rlra.
Qed.

Lemma angle_antitone d r1 r2 : 0 < d -> 0 < r1 -> r1 <= r2 ->
  wound_distance_to_angle d r2 <= wound_distance_to_angle d r1.
Proof.
  intros Hd H1 H2. unfold wound_distance_to_angle.
  destruct (Req_EM_T r1 0); [rlra|]. destruct (Req_EM_T r2 0); [rlra|].
  assert (P1 : 0 < d / 2 / r1) by (apply Rdiv_lt_0_compat; rlra).
  assert (P2 : 0 < d / 2 / r2) by (apply Rdiv_lt_0_compat; rlra).
  assert (M : d / 2 / r2 <= d / 2 / r1).
  { unfold Rdiv. apply Rmult_le_compat_l; [rlra|]. apply Rinv_le_contravar; rlra. }
  pose proof PI_RGT_0 as HPI.
  destruct (Rle_dec (-1) (d / 2 / r1)); [|rlra]. destruct (Rle_dec (-1) (d / 2 / r2)); [|rlra].
  destruct (Rle_dec (d / 2 / r1) 1).
  - destruct (Rle_dec (d / 2 / r2) 1); [|rlra].
    pose proof (asin_mono (d / 2 / r2) (d / 2 / r1) ltac:(rlra) M ltac:(assumption)).
    unfold Rdiv. apply Rmult_le_compat_r; [left; now apply Rinv_0_lt_compat|rlra].
  - destruct (Rle_dec (d / 2 / r2) 1); [|rlra]. destruct (asin_bound (d / 2 / r2)) as [_ B].
    apply Rmult_le_reg_r with PI; [assumption|]. unfold Rdiv at 1. rewrite Rmult_assoc, Rinv_l by rlra. rlra.
Qed.

Lemma Rfloor_mono x y : x <= y -> (Rfloor x <= Rfloor y)%Z.
Proof.
  intros H. unfold Rfloor. destruct (archimed x) as [A1 A2], (archimed y) as [B1 B2].
  assert (up x - 1 < up y)%Z by (apply lt_IZR; rewrite minus_IZR; rlra). lia.
Qed.

Lemma Rfloor_IZR k : Rfloor (IZR k) = k.
Proof.
  unfold Rfloor. destruct (archimed (IZR k)) as [A1 A2]. apply lt_IZR in A1.
  assert (up (IZR k) <= k + 1)%Z by (apply le_IZR; rewrite plus_IZR; rlra). lia.
Qed.

Lemma ring_capacity_shrinks radialHeight angle wireWidth wireHeight window rectangular k :
  0 <= angle -> 0 < wireWidth -> 0 < wireHeight ->
  (ring_capacity radialHeight angle wireWidth wireHeight window rectangular [] (S k) <=
   ring_capacity radialHeight angle wireWidth wireHeight window rectangular [] k)%Z.
Proof.
  intros Ha Hw Hh. unfold ring_capacity.
  set (first := if rectangular then _ else _). clearbody first.
  assert (N0 : forall j, nth j (@nil Z) 0%Z = 0%Z) by (intros [|j]; reflexivity). rewrite !N0.
  set (r1 := ring_radius wireWidth first k).
  assert (R : ring_radius wireWidth first (S k) <= r1).
  { cbn [ring_radius]. fold r1. destruct (Rlt_dec wireWidth r1); rlra. }
  set (r2 := ring_radius wireWidth first (S k)) in *.
  assert (M : Rmax wireWidth r2 <= Rmax wireWidth r1) by (apply Rle_max_compat_l; assumption).
  assert (P1 : 0 < Rmax wireWidth r2) by (pose proof (Rmax_l wireWidth r2); rlra).
  assert (F : (Rfloor (angle / wound_distance_to_angle wireHeight (Rmax wireWidth r2)) <=
               Rfloor (angle / wound_distance_to_angle wireHeight (Rmax wireWidth r1)))%Z).
  { apply Rfloor_mono. unfold Rdiv. apply Rmult_le_compat_l; [assumption|]. apply Rinv_le_contravar.
    - apply angle_pos; [assumption|]. rlra.
    - now apply angle_antitone. }
  lia.
Qed.

(** For every wire, every section of a toroid and any number of turns: with no slots taken by leads, the rings
    take at least a turn each, never more than the chord of the wire allows, and all the turns in total. *)
Theorem C10_toroid : forall radialHeight angle wireWidth wireHeight window rectangular turns,
  0 <= angle -> 0 < wireWidth -> 0 < wireHeight -> (0 <= turns)%Z ->
  exists rings counts,
    get_number_layers_needed_and_number_physical_turns
      (ring_capacity radialHeight angle wireWidth wireHeight window rectangular []) turns = Ok (rings, counts) /\
    List.length counts = rings /\ total counts = turns /\
    forall k, (k < rings)%nat ->
      (1 <= nth k counts 0 <= ring_capacity radialHeight angle wireWidth wireHeight window rectangular [] k)%Z.
Proof.
  intros rh a ww wh window rect turns Ha Hw Hh Ht.
  set (cap := ring_capacity rh a ww wh window rect []).
  assert (C : forall k, (1 <= cap k)%Z) by (intros k; unfold cap, ring_capacity; lia).
  assert (D : forall k, (cap (S k) <= cap k)%Z) by (intros k; now apply ring_capacity_shrinks).
  destruct (C10_counts_add_up cap turns C Ht) as (rings & counts & E & HL & HT & _).
  destruct (C10_no_empty_ring cap turns C D Ht) as (rings' & counts' & E' & HB).
  rewrite E in E'. injection E' as <- <-. eauto 6.
Qed.

(** With slots taken by leads the counts still add up … *)
Theorem C10_toroid_with_leads : forall radialHeight angle wireWidth wireHeight window rectangular blocked turns,
  0 <= angle -> 0 < wireWidth -> 0 < wireHeight -> (0 <= turns)%Z ->
  exists rings counts,
    get_number_layers_needed_and_number_physical_turns
      (ring_capacity radialHeight angle wireWidth wireHeight window rectangular blocked) turns = Ok (rings, counts) /\
    List.length counts = rings /\ total counts = turns /\
    forall k, (k < rings)%nat ->
      (nth k counts 0 <= ring_capacity radialHeight angle wireWidth wireHeight window rectangular blocked k)%Z.
Proof.
  intros rh a ww wh window rect blocked turns _ _ _ Ht.
  set (cap := ring_capacity rh a ww wh window rect blocked).
  assert (C : forall k, (1 <= cap k)%Z) by (intros k; unfold cap, ring_capacity; lia).
  destruct (C10_counts_add_up cap turns C Ht) as (rings & counts & E & HL & HT & _ & _ & share & S0 & HS).
  exists rings, counts. repeat split; try assumption. intros k Hk. specialize (HS k Hk). lia.
Qed.

(** The rings follow one another a wire width closer to the centre, and the turns given to a ring fit on it: as
    chords of the ring's own circle they cover no more than the section, and one more would. *)
Theorem C10_turns_fit_on_their_ring : forall radialHeight angle wireWidth wireHeight window (rectangular : bool) k,
  0 <= angle -> 0 < wireWidth -> 0 < wireHeight ->
  let outermost := if rectangular then window - wireWidth - radialHeight
                   else window - wireWidth / 2 - radialHeight in
  let radius := outermost - INR k * wireWidth in
  wireWidth <= radius -> wireHeight <= 2 * radius ->
  let chord := 2 * asin (wireHeight / 2 / radius) * 180 / PI in
  let fits := IZR (ring_capacity radialHeight angle wireWidth wireHeight window rectangular [] k) in
  (1 < fits -> fits * chord <= angle) /\ angle < (fits + 1) * chord.
Proof.
  intros rh angle ww wh window rect k Ha Hw Hh first radius Hr Hc chord.
  assert (R : ring_radius ww first k = radius).
  { unfold radius in *. clear chord Hc. revert Hr. clearbody first. clear radius.
    induction k as [|k IH]; intros Hr; cbn [ring_radius].
    - cbn. rlra.
    - rewrite S_INR in *. rewrite IH by rlra. destruct (Rlt_dec ww (first - INR k * ww)); rlra. }
  unfold ring_capacity. fold first. rewrite R. rewrite Rmax_right by assumption.
  assert (P : 0 < wh / 2 / radius) by (apply Rdiv_lt_0_compat; rlra).
  assert (P1 : wh / 2 / radius <= 1).
  { apply Rmult_le_reg_r with radius; [rlra|]. unfold Rdiv. rewrite Rmult_assoc, Rinv_l by rlra. rlra. }
  assert (A : wound_distance_to_angle wh radius = chord).
  { unfold wound_distance_to_angle. destruct (Req_EM_T radius 0); [rlra|].
    destruct (Rle_dec (wh / 2 / radius) 1); [|rlra]. destruct (Rle_dec (-1) (wh / 2 / radius)); [|rlra]. reflexivity. }
  rewrite A. assert (C : 0 < chord) by (rewrite <- A; apply angle_pos; rlra).
  replace (nth k [] 0%Z) with 0%Z by (destruct k; reflexivity).
  set (z := Rfloor (angle / chord)). destruct (archimed (angle / chord)) as [U1 U2].
  assert (Z1 : IZR z <= angle / chord) by (unfold z, Rfloor; rewrite minus_IZR; rlra).
  assert (Z2 : angle / chord < IZR z + 1) by (unfold z, Rfloor; rewrite minus_IZR; rlra).
  rewrite Z.sub_0_r. cbv zeta. split.
  - intros H. assert (Z.max 1 z = z) as ->.
    { apply lt_IZR in H. lia. }
    apply Rmult_le_reg_r with (/ chord); [now apply Rinv_0_lt_compat|].
    rewrite Rmult_assoc, Rinv_r by rlra. rewrite Rmult_1_r. exact Z1.
  - apply Rmult_lt_reg_r with (/ chord); [now apply Rinv_0_lt_compat|].
    rewrite Rmult_assoc, Rinv_r by rlra. rewrite Rmult_1_r.
    apply Rlt_le_trans with (IZR z + 1); [exact Z2|].
    assert (IZR z <= IZR (Z.max 1 z)) by (apply IZR_le; lia). rlra.
Qed.

(** Six turns of a wire a unit wide go round a ring of radius one. *)
Lemma six_per_ring blocked k : ring_capacity 0 360 1 1 (3 / 2) false blocked k = Z.max 1 (6 - nth k blocked 0)%Z.
Proof.
  unfold ring_capacity. cbv zeta.
  assert (R : ring_radius 1 (3 / 2 - 1 / 2 - 0) k = 1).
  { induction k; cbn [ring_radius]; [rlra|]. rewrite IHk. destruct (Rlt_dec 1 1); rlra. }
  rewrite R. rewrite Rmax_left by rlra.
  assert (A : wound_distance_to_angle 1 1 = 60).
  { unfold wound_distance_to_angle. destruct (Req_EM_T 1 0); [rlra|].
    replace (1 / 2 / 1) with (1 / 2) by field.
    destruct (Rle_dec (1 / 2) 1); [|rlra]. destruct (Rle_dec (-1) (1 / 2)); [|rlra].
    rewrite <- sin_PI6. pose proof PI_RGT_0. rewrite asin_sin by rlra. field. rlra. }
  rewrite A. replace (360 / 60) with (IZR 6) by field. rewrite Rfloor_IZR. reflexivity.
Qed.

Example C10_fit_witness : 1 <= (3 / 2 - 1 / 2 - 0) - INR 0 * 1 /\ 1 <= 2 * ((3 / 2 - 1 / 2 - 0) - INR 0 * 1) /\
  ring_capacity 0 360 1 1 (3 / 2) false [] 0 = 6%Z.
Proof. rewrite six_per_ring. cbn. repeat split; rlra. Qed.

(** … but a ring can be given a negative number of turns, when the leads take the outer rings. *)
Theorem C10_with_leads_refuted : exists radialHeight angle wireWidth wireHeight window rectangular blocked turns,
  0 <= angle /\ 0 < wireWidth /\ 0 < wireHeight /\ (0 <= turns)%Z /\ Forall (fun b => 0 <= b)%Z blocked /\
  exists rings counts k,
    get_number_layers_needed_and_number_physical_turns
      (ring_capacity radialHeight angle wireWidth wireHeight window rectangular blocked) turns = Ok (rings, counts) /\
    (k < rings)%nat /\ (nth k counts 0 < 0)%Z.
Proof.
  exists 0, 360, 1, 1, (3 / 2), false, [5; 5; 0]%Z, 3%Z.
  repeat (split; [rlra || lia|]). split; [repeat constructor; lia|].
  exists 3%nat, [0; -1; 4]%Z, 1%nat. split; [|split; [lia|cbn; lia]].
  unfold get_number_layers_needed_and_number_physical_turns. change (Z.to_nat 3) with 3%nat.
  cbn [fill_rings]. rewrite !six_per_ring. reflexivity.
Qed.

Example C10_witness :
  get_number_layers_needed_and_number_physical_turns (ring_capacity 0 360 1 1 (3 / 2) false []) 15 =
  Ok (3%nat, [5; 5; 5]%Z).
Proof.
  unfold get_number_layers_needed_and_number_physical_turns. change (Z.to_nat 15) with 15%nat.
  cbn [fill_rings]. rewrite !six_per_ring. reflexivity.
Qed.
End Rings.

(** Asking for a negative number of turns reads outside a vector, and none need no ring. *)
Theorem C10_degenerate : forall capacity turns, (turns <= 0)%Z ->
  get_number_layers_needed_and_number_physical_turns capacity turns =
  if (turns <? 0)%Z then UB "index out of range" else Ok (0%nat, []).
Proof.
  intros capacity turns H. unfold get_number_layers_needed_and_number_physical_turns.
  replace (Z.to_nat turns) with 0%nat by lia. cbn [fill_rings].
  destruct (Z.ltb_spec 0 turns); [lia|]. reflexivity.
Qed.

(** ** Cases that meet the hypotheses *)

Example C04_witness : map Qred (compute_spread_turn_stations 0 10 1 4 2) = [-9 # 2; -7 # 2; 7 # 2; 9 # 2].
Proof. vm_compute. reflexivity. Qed.

Example C04_partial_witness : map Qred (compute_spread_turn_stations 0 10 1 3 2) = [-9 # 2; -7 # 2; 9 # 2].
Proof. vm_compute. reflexivity. Qed.

Example C04_full_witness : map Qred (compute_spread_turn_stations 0 2 1 4 2) = [-3 # 2; -1 # 2; 1 # 2; 3 # 2].
Proof. vm_compute. reflexivity. Qed.

Example C04_take_witness : take_many [1; 2] 1 2 0 (7, 7) = Ok [(7, 1); (7, 2)].
Proof. reflexivity. Qed.

Print Assumptions C04_spread.
Print Assumptions C04_edges_met.
Print Assumptions C04_contiguous.
Print Assumptions C04_inside.
Print Assumptions C04_symmetric.
Print Assumptions C04_symmetric_refuted.
Print Assumptions C04_degenerate.
Print Assumptions C04_stations_in_order.
Print Assumptions C10_counts_add_up.
Print Assumptions C10_no_empty_ring.
Print Assumptions C10_turns_fit_on_their_ring.
Print Assumptions C10_toroid.
Print Assumptions C10_toroid_with_leads.
Print Assumptions C10_with_leads_refuted.
Print Assumptions C10_degenerate.
