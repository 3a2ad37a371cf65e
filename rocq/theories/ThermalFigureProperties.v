(** C108: the figures of a thermal result and the queries on it. *)
From Coq Require Import ZArith QArith Qabs Qminmax List String Bool Lia Lra Lqa.
From Verif Require Import Base QAux StrMap NetworkModel NetworkProofs ThermalModel ThermalProofs ThermalLoop ThermalProperties.
Import ListNotations.
Open Scope Q_scope.

(** ** Lemmas *)

Lemma hottest_spec : forall select ambient nodes,
  let m := fold_left (fun m x => if (select x : bool) then m
    else if Qlt_bool m (t_temperature x) then t_temperature x else m) nodes ambient in
  ambient <= m /\ (forall x, In x nodes -> select x = false -> t_temperature x <= m) /\
  (m = ambient \/ exists x, In x nodes /\ select x = false /\ m = t_temperature x).
Proof.
  intros select ambient nodes. revert ambient. induction nodes as [|x l IH]; intro a; cbn [fold_left].
  - split; [lra|]. split; [contradiction|]. left. reflexivity.
  - set (a' := if select x then a else if Qlt_bool a (t_temperature x) then t_temperature x else a).
    destruct (IH a') as (A & B & C).
    assert (P : a <= a' /\ (select x = false -> t_temperature x <= a') /\ (a' = a \/ select x = false /\ a' = t_temperature x)).
    { unfold a'. destruct (select x); [split; [lra|]; split; [discriminate | left; reflexivity]|].
      destruct (Qlt_bool a (t_temperature x)) eqn:E; qb; (split; [lra|]); (split; [intros; lra|]); [right | left]; auto. }
    destruct P as (P1 & P2 & P3). split; [lra|]. split.
    + intros y [->|Y] S; [specialize (P2 S); lra | apply B; assumption].
    + destruct C as [C|(y & Y & S & C)].
      * rewrite C. destruct P3 as [P3|(S & P3)]; [left; exact P3|]. right. exists x. split; [left; reflexivity|]. split; assumption.
      * right. exists y. split; [right; exact Y|]. split; assumption.
Qed.

Lemma total_power_sum : forall nodes, total_power nodes == Qsum (map t_power nodes).
Proof.
  intro nodes. unfold total_power.
  assert (G : forall l a, fold_left (fun s x => s + t_power x) l a == a + Qsum (map t_power l)).
  { induction l as [|x l IH]; intro a; cbn [fold_left map Qsum]; [lra|]. rewrite IH. lra. }
  rewrite G. lra.
Qed.
Lemma temperature_sum : forall l, fold_left (fun s x => s + t_temperature x) l 0 == Qsum (map t_temperature l).
Proof.
  assert (G : forall l a, fold_left (fun s x => s + t_temperature x) l a == a + Qsum (map t_temperature l)).
  { induction l as [|x l IH]; intro a; cbn [fold_left map Qsum]; [lra|]. rewrite IH. lra. }
  intro l. rewrite G. lra.
Qed.

Lemma set_powers : forall nodes t, List.length t = List.length nodes ->
  map t_power (set_temperatures nodes t) = map t_power nodes /\
  map t_part (set_temperatures nodes t) = map t_part nodes /\
  map t_name (set_temperatures nodes t) = map t_name nodes.
Proof.
  unfold set_temperatures. induction nodes as [|x nodes IH]; intros [|y t] L; try discriminate; cbn in *; auto.
  destruct (IH t) as (A & B & C); [lia|]. rewrite A, B, C. auto.
Qed.

Lemma raise_spec : forall (key : thermal_node -> option string) l m k,
  let m' := fold_left (fun m x => match key x with None => m | Some k => raise_entry m k (t_temperature x) end) l m in
  match find k m' with
  | None => find k m = None /\ forall x, In x l -> key x <> Some k
  | Some v => (forall x, In x l -> key x = Some k -> t_temperature x <= v) /\
              (forall w, find k m = Some w -> w <= v) /\
              (find k m = Some v \/ exists x, In x l /\ key x = Some k /\ t_temperature x = v)
  end.
Proof.
  intros key. induction l as [|x l IH]; intros m k; cbn [fold_left].
  - destruct (find k m) as [v|] eqn:E; [|split; [reflexivity | contradiction]].
    split; [contradiction|]. split; [intros w W; injection W as <-; lra | left; reflexivity].
  - destruct (key x) as [kx|] eqn:KX.
    + specialize (IH (raise_entry m kx (t_temperature x)) k). cbn zeta in IH |- *.
      destruct (find k (fold_left _ l _)) as [v|].
      * destruct IH as (A & B & C).
        destruct (String.string_dec k kx) as [->|NE].
        -- unfold raise_entry in B, C. destruct (find kx m) as [old|] eqn:E.
           ++ rewrite find_insert_same in B, C. specialize (B _ eq_refl).
              pose proof (cmax_ge_l old (t_temperature x)). pose proof (cmax_ge_r old (t_temperature x)).
              split; [intros y [->|Y] Q; [lra | apply A; assumption]|].
              split; [intros w W; injection W as <-; lra|].
              destruct C as [C|(y & Y & Q & C)]; [|right; exists y; split; [right; exact Y | split; assumption]].
              injection C as C. destruct (cmax_case old (t_temperature x)) as [Z|Z]; rewrite Z in C; subst v;
                [left; reflexivity | right; exists x; split; [left; reflexivity | split; [exact KX | reflexivity]]].
           ++ rewrite find_insert_same in B, C. specialize (B _ eq_refl).
              split; [intros y [->|Y] Q; [lra | apply A; assumption]|].
              split; [discriminate|].
              destruct C as [C|(y & Y & Q & C)]; [|right; exists y; split; [right; exact Y | split; assumption]].
              injection C as C. right. exists x. split; [left; reflexivity | split; assumption].
        -- assert (E : find k (raise_entry m kx (t_temperature x)) = find k m).
           { unfold raise_entry. destruct (find kx m); apply find_insert_other; exact NE. }
           rewrite E in B, C. split; [intros y [->|Y] Q; [congruence | apply A; assumption]|]. split; [exact B|].
           destruct C as [C|(y & Y & Q & C)]; [left; exact C | right; exists y; split; [right; exact Y | split; assumption]].
      * destruct IH as (A & B). destruct (String.string_dec k kx) as [->|NE].
        -- unfold raise_entry in A. destruct (find kx m); rewrite find_insert_same in A; discriminate.
        -- assert (E : find k (raise_entry m kx (t_temperature x)) = find k m).
           { unfold raise_entry. destruct (find kx m); apply find_insert_other; exact NE. }
           rewrite E in A. split; [exact A|]. intros y [->|Y]; [congruence | apply B; exact Y].
    + specialize (IH m k). cbn zeta in IH |- *. destruct (find k (fold_left _ l m)) as [v|].
      * destruct IH as (A & B & C). split; [intros y [->|Y] Q; [congruence | apply A; assumption]|]. split; [exact B|].
        destruct C as [C|(y & Y & Q & C)]; [left; exact C | right; exists y; split; [right; exact Y | split; assumption]].
      * destruct IH as (A & B). split; [exact A|]. intros y [->|Y]; [congruence | apply B; exact Y].
Qed.

Lemma named_spec : forall l m k,
  find k (fold_left (fun m x => if is_ambient (t_part x) then m else insert (t_name x) (t_temperature x) m) l m)
  = match List.find (fun x => negb (is_ambient (t_part x)) && String.eqb (t_name x) k) (rev l) with
    | Some x => Some (t_temperature x)
    | None => find k m
    end.
Proof.
  intros l m k. induction l as [|x l IH] using rev_ind; [reflexivity|].
  rewrite fold_left_app, rev_app_distr. cbn [fold_left rev app List.find].
  destruct (is_ambient (t_part x)) eqn:A; cbn [negb andb]; [exact IH|].
  rewrite find_insert, String.eqb_sym. destruct (String.eqb (t_name x) k); [reflexivity | exact IH].
Qed.

Section Figures.
Variable natural : Q -> Q -> Q -> surface_orientation -> Q.
Variable forced : Q -> Q -> Q -> Q.
Notation solve_thermal := (solve_thermal natural forced).

Lemma result_nodes : forall c nodes es res, solve_thermal c nodes es = Ok res ->
  exists s, res = report c nodes s /\ List.length (l_temperatures s) = List.length nodes /\ nodes <> [].
Proof.
  intros c nodes es res H. apply solve_thermal_spec in H. destruct H as (s & IT & -> & _ & NE).
  exists s. split; [reflexivity|]. split; [eapply loop_length; exact IT | exact NE].
Qed.

(** The nodes of the result are those of the network, only hotter or colder. *)
Theorem C108_result_keeps_the_nodes : forall c nodes es res, solve_thermal c nodes es = Ok res ->
  List.length (tr_nodes res) = List.length nodes /\ map t_name (tr_nodes res) = map t_name nodes /\
  map t_part (tr_nodes res) = map t_part nodes /\ map t_power (tr_nodes res) = map t_power nodes.
Proof.
  intros c nodes es res H. destruct (result_nodes _ _ _ _ H) as (s & -> & L & _). cbn.
  destruct (set_powers nodes (l_temperatures s) L) as (A & B & C). rewrite set_temperatures_length by exact L. auto.
Qed.

(** The maximum is the hottest node, or ambient if no node is hotter. *)
Theorem C108_maximum_is_the_hottest_node : forall c nodes es res, solve_thermal c nodes es = Ok res ->
  tc_ambient c <= tr_maximum res /\
  (forall x, In x (tr_nodes res) -> t_part x <> AMBIENT -> t_temperature x <= tr_maximum res) /\
  (tr_maximum res = tc_ambient c \/
   exists x, In x (tr_nodes res) /\ t_part x <> AMBIENT /\ tr_maximum res = t_temperature x).
Proof.
  intros c nodes es res H. destruct (result_nodes _ _ _ _ H) as (s & -> & L & _). cbn [report tr_maximum tr_nodes].
  destruct (hottest_spec (fun x => is_ambient (t_part x)) (tc_ambient c) (set_temperatures nodes (l_temperatures s))) as (A & B & C).
  split; [exact A|]. split.
  - intros x X P. apply B; [exact X|]. destruct (t_part x); try reflexivity. contradiction.
  - destruct C as [C|(x & X & S & C)]; [left; exact C|]. right. exists x. split; [exact X|]. split; [|exact C].
    intro P. rewrite P in S. discriminate.
Qed.

(** The temperature listed for a name is that of the last node of this name. *)
Theorem C108_named_temperatures : forall c nodes es res name, solve_thermal c nodes es = Ok res ->
  find name (tr_temperatures res) =
  option_map t_temperature
    (List.find (fun x => negb (is_ambient (t_part x)) && String.eqb (t_name x) name) (rev (tr_nodes res))).
Proof.
  intros c nodes es res name H. destruct (result_nodes _ _ _ _ H) as (s & -> & L & _). cbn [report tr_temperatures tr_nodes].
  unfold named. rewrite named_spec. destruct (List.find _ _); reflexivity.
Qed.
Theorem C108_distinct_names_list_every_node : forall c nodes es res, solve_thermal c nodes es = Ok res ->
  NoDup (map t_name nodes) ->
  forall x, In x (tr_nodes res) -> t_part x <> AMBIENT -> find (t_name x) (tr_temperatures res) = Some (t_temperature x).
Proof.
  intros c nodes es res H ND x X P. rewrite (C108_named_temperatures c nodes es res (t_name x) H).
  destruct (C108_result_keeps_the_nodes c nodes es res H) as (_ & N & _ & _). rewrite <- N in ND.
  destruct (List.find (fun y => negb (is_ambient (t_part y)) && String.eqb (t_name y) (t_name x)) (rev (tr_nodes res))) as [y|] eqn:F.
  - apply find_some in F. destruct F as (Y & F). apply in_rev in Y. apply andb_true_iff in F. destruct F as (_ & F).
    apply String.eqb_eq in F. cbn. f_equal.
    assert (y = x); [|congruence].
    clear - ND X Y F. induction (tr_nodes res) as [|z l IH]; [contradiction|]. cbn in ND.
    apply NoDup_cons_iff in ND. destruct ND as (NI & ND).
    destruct X as [->|X], Y as [->|Y]; auto.
    + exfalso. apply NI. rewrite <- F. apply in_map. exact Y.
    + exfalso. apply NI. rewrite F. apply in_map. exact X.
  - exfalso. pose proof (find_none _ _ F x (proj1 (in_rev _ _) X)) as Z. cbn beta in Z.
    rewrite String.eqb_refl, andb_true_r in Z. destruct (t_part x); try discriminate. contradiction.
Qed.

(** The total thermal resistance times the total power is the largest rise. *)
Theorem C108_total_resistance_times_power : forall c nodes es res, solve_thermal c nodes es = Ok res ->
  0 < Qsum (map t_power nodes) ->
  tr_total_resistance res * Qsum (map t_power nodes) == tr_maximum res - tc_ambient c /\ 0 <= tr_total_resistance res.
Proof.
  intros c nodes es res H P. pose proof (C108_maximum_is_the_hottest_node c nodes es res H) as (MA & _).
  destruct (result_nodes _ _ _ _ H) as (s & -> & L & _). cbn [report tr_total_resistance tr_maximum] in *.
  pose proof (total_power_sum (set_temperatures nodes (l_temperatures s))) as T.
  rewrite (proj1 (set_powers nodes (l_temperatures s) L)) in T.
  destruct (Qlt_bool 0 (total_power _)) eqn:E; qb; [|rewrite T in E; lra].
  rewrite <- T in P |- *. split.
  - field. lra.
  - apply Qle_shift_div_l; [exact P|]. lra.
Qed.
Theorem C108_no_power_no_resistance : forall c nodes es res, solve_thermal c nodes es = Ok res ->
  Qsum (map t_power nodes) <= 0 -> tr_total_resistance res = 0.
Proof.
  intros c nodes es res H P. destruct (result_nodes _ _ _ _ H) as (s & -> & L & _). cbn [report tr_total_resistance].
  pose proof (total_power_sum (set_temperatures nodes (l_temperatures s))) as T.
  rewrite (proj1 (set_powers nodes (l_temperatures s) L)) in T.
  destruct (Qlt_bool 0 (total_power _)) eqn:E; qb; [rewrite T in E; lra | reflexivity].
Qed.

(** The nodes of the core and the turns. *)
Definition core_part (p : part) : Prop :=
  p = CORE_CENTRAL_COLUMN \/ p = CORE_LATERAL_COLUMN \/ p = CORE_TOP_YOKE \/ p = CORE_BOTTOM_YOKE \/ p = CORE_TOROIDAL_SEGMENT.

Lemma mean_spec : forall select ambient nodes,
  let l := filter (fun x => select (t_part x)) nodes in
  (l = [] -> mean_of select ambient nodes = ambient) /\
  (l <> [] -> mean_of select ambient nodes * inject_Z (Z.of_nat (List.length l)) == Qsum (map t_temperature l)) /\
  (forall lo, (l = [] -> lo <= ambient) -> (forall x, In x l -> lo <= t_temperature x) -> lo <= mean_of select ambient nodes) /\
  (forall hi, (l = [] -> ambient <= hi) -> (forall x, In x l -> t_temperature x <= hi) -> mean_of select ambient nodes <= hi).
Proof.
  intros select ambient nodes l. unfold mean_of. fold l. clearbody l. destruct l as [|x r].
  - split; [reflexivity|]. split; [contradiction|]. split; intros v A _; apply A; reflexivity.
  - remember (x :: r) as k eqn:EK.
    assert (N : 0 < inject_Z (Z.of_nat (List.length k))) by (rewrite EK; cbn [List.length]; change 0 with (inject_Z 0); rewrite <- Zlt_Qlt; lia).
    split; [intro Z; rewrite Z in EK; discriminate|]. split; [intros _; rewrite temperature_sum; field; lra|].
    assert (B : forall l lo, (forall y, In y l -> lo <= t_temperature y) -> inject_Z (Z.of_nat (List.length l)) * lo <= Qsum (map t_temperature l)).
    { clear. induction l as [|y l IH]; intros lo H; cbn [List.length map Qsum].
      - change (inject_Z (Z.of_nat 0)) with 0. lra.
      - rewrite Nat2Z.inj_succ, <- Z.add_1_l, inject_Z_plus. change (inject_Z 1) with 1.
        specialize (IH lo (fun z Z => H z (or_intror Z))). specialize (H y (or_introl eq_refl)). lra. }
    assert (B' : forall l hi, (forall y, In y l -> t_temperature y <= hi) -> Qsum (map t_temperature l) <= inject_Z (Z.of_nat (List.length l)) * hi).
    { clear. induction l as [|y l IH]; intros hi H; cbn [List.length map Qsum].
      - change (inject_Z (Z.of_nat 0)) with 0. lra.
      - rewrite Nat2Z.inj_succ, <- Z.add_1_l, inject_Z_plus. change (inject_Z 1) with 1.
        specialize (IH hi (fun z Z => H z (or_intror Z))). specialize (H y (or_introl eq_refl)). lra. }
    split; intros v _ H.
    + apply Qle_shift_div_l; [exact N|]. rewrite temperature_sum. pose proof (B k v H). lra.
    + apply Qle_shift_div_r; [exact N|]. rewrite temperature_sum. pose proof (B' k v H). lra.
Qed.

Lemma core_select : forall p, is_core p = true <-> core_part p.
Proof. intro p. unfold core_part. destruct p; cbn; split; intros H; try discriminate; try tauto; intuition discriminate. Qed.
Lemma turn_select : forall p, is_turn p = true <-> p = TURN.
Proof. intro p. destruct p; cbn; split; intros H; try discriminate; reflexivity. Qed.

(** The averages: the mean of the core nodes and the mean of the turns. *)
Theorem C108_averages : forall c nodes es res, solve_thermal c nodes es = Ok res ->
  forall select average,
  (forall x, select x = true <-> core_part (t_part x)) /\ average = tr_core res \/
  (forall x, select x = true <-> t_part x = TURN) /\ average = tr_coil res ->
  let l := filter select (tr_nodes res) in
  (l = [] -> average = tc_ambient c) /\
  (l <> [] -> average * inject_Z (Z.of_nat (List.length l)) == Qsum (map t_temperature l)).
Proof.
  intros c nodes es res H select average K.
  assert (G : exists sel, average = mean_of sel (tc_ambient c) (tr_nodes res) /\ forall x, select x = sel (t_part x)).
  { destruct (result_nodes _ _ _ _ H) as (s & -> & L & _). cbn [report tr_core tr_coil tr_nodes] in *.
    destruct K as [(S & E)|(S & E)].
    - exists is_core. split; [exact E|]. intro x. apply eq_true_iff_eq. rewrite S. symmetry. apply core_select.
    - exists is_turn. split; [exact E|]. intro x. apply eq_true_iff_eq. rewrite S. symmetry. apply turn_select. }
  destruct G as (sel & -> & E). rewrite (filter_ext _ _ E).
  destruct (mean_spec sel (tc_ambient c) (tr_nodes res)) as (A & B & _). split; assumption.
Qed.
Theorem C108_averages_below_the_maximum : forall c nodes es res, solve_thermal c nodes es = Ok res ->
  tr_core res <= tr_maximum res /\ tr_coil res <= tr_maximum res.
Proof.
  intros c nodes es res H. pose proof (C108_maximum_is_the_hottest_node c nodes es res H) as (MA & MX & _).
  destruct (result_nodes _ _ _ _ H) as (s & -> & L & _). cbn [report tr_core tr_coil tr_maximum tr_nodes] in *.
  split.
  - apply (mean_spec is_core). { intros _; exact MA. }
    intros x X. apply filter_In in X. destruct X as (X & P). apply MX; [exact X|]. intro Z. rewrite Z in P. discriminate.
  - apply (mean_spec is_turn). { intros _; exact MA. }
    intros x X. apply filter_In in X. destruct X as (X & P). apply MX; [exact X|]. intro Z. rewrite Z in P. discriminate.
Qed.

(** The bulk resistance queried afterwards is the one of the result, if the
    network has no second ambient node. *)
Theorem C108_bulk_resistance_agrees : forall c nodes es res, solve_thermal c nodes es = Ok res ->
  (1 <= tc_max_iterations c)%nat ->
  (forall r s, (r < List.length nodes)%nat -> (s < List.length nodes)%nat ->
     part_of nodes r = AMBIENT -> part_of nodes s = AMBIENT -> r = s) ->
  bulk_resistance c (tr_nodes res) == tr_total_resistance res.
Proof.
  intros c nodes es res H M U.
  pose proof (C106_boundaries_keep_their_temperature natural forced c nodes es res H M) as (BA & _).
  pose proof (C108_maximum_is_the_hottest_node c nodes es res H) as (MA & MX & MT).
  destruct (C108_result_keeps_the_nodes c nodes es res H) as (LN & _ & PN & _).
  assert (AM : forall x, In x (tr_nodes res) -> t_part x = AMBIENT -> t_temperature x == tc_ambient c).
  { intros x X P. apply (In_nth _ _ no_node) in X. destruct X as (r & R & E). rewrite LN in R.
    assert (PR : part_of nodes r = AMBIENT).
    { unfold part_of. rewrite <- (map_nth t_part), <- PN, map_nth, E. exact P. }
    rewrite <- E. apply (BA r). split; [exact R|]. left. split; [exact PR|].
    intros q Q PQ. assert (q = r) by (apply U; auto; lia). lia. }
  pose proof (hottest_spec (fun _ => false) (tc_ambient c) (tr_nodes res)) as (HA & HB & HC). cbn beta in HA, HB, HC.
  assert (E : fold_left (fun m x => if Qlt_bool m (t_temperature x) then t_temperature x else m) (tr_nodes res) (tc_ambient c)
    == tr_maximum res).
  { apply Qle_antisym.
    - destruct HC as [->|(x & X & _ & ->)]; [exact MA|].
      destruct (t_part x) eqn:P; try (apply MX; [exact X | congruence]). rewrite (AM x X P). exact MA.
    - destruct MT as [->|(x & X & P & ->)]; [exact HA | apply HB; [exact X | reflexivity]]. }
  unfold bulk_resistance. cbn zeta.
  destruct (result_nodes _ _ _ _ H) as (s & -> & L & _). cbn [report tr_total_resistance tr_maximum tr_nodes] in *.
  unfold Qlt_bool at 2. destruct (Qle_bool (total_power _) 0); [reflexivity|]. cbn [negb]. rewrite E. reflexivity.
Qed.

(** Component temperatures: for each category the hottest of its nodes. *)
Theorem C108_component_temperatures : forall show nodes key,
  match find key (by_component show nodes) with
  | Some v => (forall x, In x nodes -> category show x = Some key -> t_temperature x <= v) /\
              exists x, In x nodes /\ category show x = Some key /\ t_temperature x = v
  | None => forall x, In x nodes -> category show x <> Some key
  end.
Proof.
  intros show nodes key. unfold by_component.
  pose proof (raise_spec (category show) nodes [] key) as R. cbn zeta in R.
  destruct (find key _) as [v|].
  - destruct R as (A & _ & [C|C]); [discriminate|]. split; assumption.
  - apply R.
Qed.

(** Turn temperatures: for each turn the hottest of its nodes. *)
Theorem C108_turn_temperatures : forall nodes key,
  match find key (per_turn nodes) with
  | Some v => (forall x, In x nodes -> t_part x = TURN -> turn_key (t_name x) = key -> t_temperature x <= v) /\
              exists x, In x nodes /\ t_part x = TURN /\ turn_key (t_name x) = key /\ t_temperature x = v
  | None => forall x, In x nodes -> t_part x = TURN -> turn_key (t_name x) <> key
  end.
Proof.
  intros nodes key. unfold per_turn.
  set (kf := fun x => if is_turn (t_part x) then Some (turn_key (t_name x)) else None).
  assert (E : forall l m, fold_left (fun m x => match kf x with None => m | Some k => raise_entry m k (t_temperature x) end) l m
    = fold_left (fun m x => if is_turn (t_part x) then raise_entry m (turn_key (t_name x)) (t_temperature x) else m) l m).
  { induction l as [|x l IH]; intro m; [reflexivity|]. cbn [fold_left]. rewrite IH. unfold kf.
    destruct (is_turn (t_part x)); reflexivity. }
  pose proof (raise_spec kf nodes [] key) as R. cbn zeta in R.
  rewrite E in R. destruct (find key _) as [v|].
  - destruct R as (A & _ & [C|(x & X & K & T)]); [discriminate|]. split.
    + intros y Y P Q. apply A; [exact Y|]. unfold kf. apply turn_select in P. rewrite P, Q. reflexivity.
    + exists x. unfold kf in K. destruct (is_turn (t_part x)) eqn:P; [|discriminate]. injection K as K.
      split; [exact X|]. split; [apply turn_select; exact P|]. split; assumption.
  - destruct R as (_ & B). intros x X P Q. apply (B x X). unfold kf. apply turn_select in P. rewrite P, Q. reflexivity.
Qed.
End Figures.

(** The two halves of a turn of a toroid share a key; so do no other nodes
    unless their names say so. *)
Theorem C108_turn_halves_share_a_key : forall base,
  base <> ""%string ->
  turn_key (base ++ "_Inner") = base /\ turn_key (base ++ "_Outer") = base.
Proof.
  intros base N.
  assert (L : forall a b, String.length (a ++ b) = (String.length a + String.length b)%nat).
  { induction a as [|x a IH]; intro b; cbn; [reflexivity | rewrite IH; reflexivity]. }
  assert (P : forall a b, substring 0 (String.length a) (a ++ b) = a).
  { induction a as [|x a IH]; intro b; cbn; [destruct b; reflexivity | rewrite IH; reflexivity]. }
  assert (W : forall b, substring 0 (String.length b) b = b).
  { induction b as [|x b IH]; cbn; [reflexivity | rewrite IH; reflexivity]. }
  assert (X : forall a b, substring (String.length a) (String.length b) (a ++ b) = b).
  { induction a as [|x a IH]; intro b; cbn; [apply W | apply IH]. }
  assert (NZ : (0 < String.length base)%nat) by (destruct base; [contradiction | cbn; lia]).
  assert (E : forall s, String.length s = 6%nat -> ends_with s (base ++ s) = true).
  { intros s S. unfold ends_with. rewrite L, S. apply andb_true_iff. split; [apply Nat.ltb_lt; lia|].
    replace (String.length base + 6 - 6)%nat with (String.length base) by lia. rewrite <- S, X. apply String.eqb_refl. }
  assert (F : ends_with "_Inner" (base ++ "_Outer") = false).
  { unfold ends_with. rewrite L. apply andb_false_iff. right.
    change (String.length "_Inner") with (String.length "_Outer").
    replace (String.length base + String.length "_Outer" - String.length "_Outer")%nat with (String.length base) by lia.
    rewrite X. reflexivity. }
  unfold turn_key. split.
  - rewrite E by reflexivity. rewrite L. replace (String.length base + String.length "_Inner" - 6)%nat with (String.length base) by (cbn; lia). apply P.
  - rewrite F, E by reflexivity. rewrite L. replace (String.length base + String.length "_Outer" - 6)%nat with (String.length base) by (cbn; lia). apply P.
Qed.
