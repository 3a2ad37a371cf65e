(** C109: cooling options, radiation and the conductivity of wire materials. *)
From Coq Require Import ZArith QArith Qabs Qminmax List String Bool Lia Lra Lqa.
From Verif Require Import Base QAux StrMap NetworkModel NetworkProofs ThermalModel ThermalProofs ThermalLoop ThermalProperties ThermalFigureProperties.
Import ListNotations.
Open Scope Q_scope.
Open Scope list_scope.

(** ** Radiation *)

(** The linearised coefficient carries exactly the heat of the law of Stefan and
    Boltzmann, in kelvin. *)
Theorem C109_radiation_law : forall surface other emissivity,
  let kelvin t := t + (27315 # 100) in
  radiation_coefficient surface other emissivity * (surface - other)
  == emissivity * (5670374419 # 100000000000000000) *
     (kelvin surface * kelvin surface * kelvin surface * kelvin surface
      - kelvin other * kelvin other * kelvin other * kelvin other).
Proof.
  intros s o e kelvin. unfold radiation_coefficient, kelvin, stefan_boltzmann, kelvin_offset. ring.
Qed.

Theorem C109_radiation_is_mutual : forall t1 t2 emissivity,
  radiation_coefficient t1 t2 emissivity == radiation_coefficient t2 t1 emissivity.
Proof. intros. unfold radiation_coefficient. ring. Qed.

Lemma Qmult_pos : forall a b, 0 < a -> 0 < b -> 0 < a * b.
Proof. intros a b A B. setoid_replace 0 with (a * 0) by ring. apply Qmult_lt_l; assumption. Qed.

(** Above absolute zero the coefficient is positive, so it always replaces the
    initial resistance, and grows with the temperature of the surface. *)
Theorem C109_radiation_positive : forall surface other emissivity, 0 < emissivity ->
  - (27315 # 100) < surface -> - (27315 # 100) < other -> 0 < radiation_coefficient surface other emissivity.
Proof.
  intros s o e E S O. unfold radiation_coefficient, kelvin_offset.
  assert (0 < s + (27315 # 100)) by lra. assert (0 < o + (27315 # 100)) by lra.
  apply Qmult_pos; [apply Qmult_pos; [apply Qmult_pos; [exact E | reflexivity]|]|lra].
  pose proof (Qmult_pos _ _ H H). pose proof (Qmult_pos _ _ H0 H0). lra.
Qed.
Theorem C109_radiation_increases : forall t1 t2 other emissivity, 0 <= emissivity ->
  - (27315 # 100) <= t1 -> t1 <= t2 -> - (27315 # 100) <= other ->
  radiation_coefficient t1 other emissivity <= radiation_coefficient t2 other emissivity.
Proof.
  intros t1 t2 o e E L T O. unfold radiation_coefficient, kelvin_offset.
  set (x := t1 + (27315 # 100)). set (y := t2 + (27315 # 100)). set (z := o + (27315 # 100)).
  assert (X : 0 <= x) by (unfold x; lra). assert (XY : x <= y) by (unfold x, y; lra). assert (Z : 0 <= z) by (unfold z; lra).
  clearbody x y z. rewrite <- !(Qmult_assoc (e * stefan_boltzmann)).
  assert (ES : 0 <= e * stefan_boltzmann) by (apply Qmult_le_0_compat; [exact E | discriminate]).
  assert (XX : x * x <= y * y) by nra.
  assert (ZZ : 0 <= z * z) by nra.
  assert (XX0 : 0 <= x * x) by nra.
  set (a := x * x) in *. set (b := y * y) in *. set (d := z * z) in *. clearbody a b d.
  assert (Q : (a + d) * (x + z) <= (b + d) * (y + z)).
  { assert ((a + d) * (x + z) <= (b + d) * (x + z)) by (apply Qmult_le_compat_r; lra).
    assert ((b + d) * (x + z) <= (b + d) * (y + z)) by (rewrite !(Qmult_comm (b + d)); apply Qmult_le_compat_r; lra). lra. }
  rewrite !(Qmult_comm (e * stefan_boltzmann)). apply Qmult_le_compat_r; assumption.
Qed.

(** A view factor takes a share of it, whatever number is given. *)
Theorem C109_view_factor_takes_a_share : forall surface other emissivity view,
  0 <= radiation_coefficient surface other emissivity ->
  0 <= radiation_with_view surface other emissivity view <= radiation_coefficient surface other emissivity /\
  (0 <= view <= 1 -> radiation_with_view surface other emissivity view
     == view * radiation_coefficient surface other emissivity).
Proof.
  intros s o e v H. unfold radiation_with_view. set (h := radiation_coefficient s o e) in *. clearbody h. unfold clamp.
  destruct (Qlt_bool v 0) eqn:A; qb; [split; [lra | intros; lra]|].
  destruct (Qlt_bool 1 v) eqn:B; qb; [split; [lra | intros; lra]|].
  split; [|intros _; ring].
  assert (0 <= h * v) by (apply Qmult_le_0_compat; lra).
  assert (v * h <= 1 * h) by (apply Qmult_le_compat_r; lra). lra.
Qed.

(** ** Conductivity of a wire material *)

(** Temperatures of the table in increasing order. *)
Fixpoint ascending (table : list (Q * Q)) : Prop :=
  match table with
  | (t1, _) :: (((t2, _) :: _) as rest) => t1 < t2 /\ ascending rest
  | _ => True
  end.

Lemma bracketed_range : forall lo hi table t v, ascending table ->
  (forall p, In p table -> lo <= snd p <= hi) -> bracketed t table = Some v -> lo <= v <= hi.
Proof.
  intros lo hi table t v. induction table as [|(t1, k1) rest IH]; intros A B H; [discriminate|].
  destruct rest as [|(t2, k2) rest']; [discriminate|]. cbn [bracketed] in H.
  destruct A as (L & A).
  destruct (Qle_bool t1 t && Qle_bool t t2) eqn:E.
  - apply andb_true_iff in E. destruct E as (E1 & E2). qb. injection H as <-.
    pose proof (B (t1, k1) (or_introl eq_refl)) as B1. pose proof (B (t2, k2) (or_intror (or_introl eq_refl))) as B2. cbn [snd] in B1, B2.
    set (a := (t - t1) / (t2 - t1)).
    assert (A0 : 0 <= a) by (apply Qle_shift_div_l; lra). assert (A1 : a <= 1) by (apply Qle_shift_div_r; lra).
    setoid_replace (k1 + a * (k2 - k1)) with ((1 - a) * k1 + a * k2) by ring.
    assert (P1 : 0 <= (1 - a) * (k1 - lo)) by (apply Qmult_le_0_compat; lra).
    assert (P2 : 0 <= a * (k2 - lo)) by (apply Qmult_le_0_compat; lra).
    assert (P3 : 0 <= (1 - a) * (hi - k1)) by (apply Qmult_le_0_compat; lra).
    assert (P4 : 0 <= a * (hi - k2)) by (apply Qmult_le_0_compat; lra). clearbody a. split; nra.
  - apply IH; [exact A | | exact H]. intros p P. apply B. right. exact P.
Qed.

(** The interpolated conductivity never leaves the range of the table. *)
Theorem C109_conductivity_within_the_table : forall table t v lo hi, ascending table ->
  (forall p, In p table -> lo <= snd p <= hi) -> conductivity t table = Ok v -> lo <= v <= hi.
Proof.
  intros table t v lo hi A B H. unfold conductivity in H.
  destruct table as [|(t0, k0) rest] eqn:ET; [discriminate|].
  destruct rest as [|p rest'] eqn:ER.
  - injection H as <-. exact (B (t0, k0) (or_introl eq_refl)).
  - rewrite <- ER in *. destruct (bracketed t ((t0, k0) :: rest)) as [w|] eqn:E.
    + injection H as <-. eapply bracketed_range; eassumption.
    + destruct (Qlt_bool t t0); injection H as <-; [exact (B (t0, k0) (or_introl eq_refl))|].
      apply B.
      destruct (exists_last (l := (t0, k0) :: rest)) as (l & x & EX); [discriminate|]. change (match rest with [] => (t0, k0) | _ :: _ => last rest (0, 0) end) with (last ((t0, k0) :: rest) (0, 0)).
      rewrite EX, last_last. apply in_or_app. right. left. reflexivity.
Qed.

Lemma bracketed_below : forall table t t0 k0 rest, table = (t0, k0) :: rest -> ascending table -> t < t0 ->
  bracketed t table = None.
Proof.
  induction table as [|(t1, k1) l IH]; intros t t0 k0 rest E A L; [reflexivity|].
  injection E as -> -> ->. destruct rest as [|(t2, k2) rest']; [reflexivity|]. cbn [bracketed]. destruct A as (L2 & A).
  replace (Qle_bool t0 t) with false by (symmetry; destruct (Qle_bool t0 t) eqn:Q; [qb; lra | reflexivity]).
  cbn [andb]. eapply IH; [reflexivity | exact A | lra].
Qed.

Lemma bracketed_entry : forall table t k, ascending table -> In (t, k) table -> (2 <= List.length table)%nat ->
  exists v, bracketed t table = Some v /\ v == k.
Proof.
  induction table as [|(t1, k1) l IH]; intros t k A I L; [contradiction|].
  destruct l as [|(t2, k2) rest]; [cbn in L; lia|]. cbn [bracketed]. destruct A as (LT & A).
  destruct I as [I|[I|I]].
  - injection I as -> ->. replace (Qle_bool t t) with true by (symmetry; apply Qle_bool_iff; lra).
    replace (Qle_bool t t2) with true by (symmetry; apply Qle_bool_iff; lra). cbn [andb].
    eexists. split; [reflexivity|]. field. lra.
  - injection I as -> ->. replace (Qle_bool t1 t) with true by (symmetry; apply Qle_bool_iff; lra).
    replace (Qle_bool t t) with true by (symmetry; apply Qle_bool_iff; lra). cbn [andb].
    eexists. split; [reflexivity|]. field. lra.
  - assert (T : t2 < t).
    { clear - A I. revert t2 k2 A I. induction rest as [|(t3, k3) r IH]; intros t2 k2 A I; [contradiction|].
      destruct A as (L & A). destruct I as [I|I]; [injection I as -> _; exact L|].
      specialize (IH t3 k3 A I). lra. }
    replace (Qle_bool t t2) with false by (symmetry; destruct (Qle_bool t t2) eqn:Q; [qb; lra | reflexivity]).
    rewrite andb_false_r. apply IH; [exact A | right; exact I |]. destruct rest; [contradiction | cbn; lia].
Qed.

(** At a temperature of the table it is the value of the table; outside the
    table it is the nearest end. *)
Theorem C109_conductivity_of_the_table : forall table t k, ascending table -> In (t, k) table ->
  exists v, conductivity t table = Ok v /\ v == k.
Proof.
  intros table t k A I. destruct table as [|(t0, k0) rest]; [contradiction|]. destruct rest as [|p rest'].
  - destruct I as [I|[]]. injection I as -> ->. exists k. split; reflexivity.
  - destruct (bracketed_entry ((t0, k0) :: p :: rest') t k A I ltac:(cbn; lia)) as (v & V & E).
    exists v. unfold conductivity. rewrite V. split; [reflexivity | exact E].
Qed.
Theorem C109_conductivity_below_the_table : forall t0 k0 rest t, ascending ((t0, k0) :: rest) -> t < t0 ->
  conductivity t ((t0, k0) :: rest) = Ok k0.
Proof.
  intros t0 k0 rest t A L. unfold conductivity. destruct rest as [|p rest']; [reflexivity|].
  rewrite (bracketed_below _ t t0 k0 (p :: rest') eq_refl A L).
  replace (Qlt_bool t t0) with true by (symmetry; apply Qlt_bool_iff; exact L). reflexivity.
Qed.
Theorem C109_conductivity_above_the_table : forall table tn kn t, ascending (table ++ [(tn, kn)]) ->
  tn < t -> conductivity t (table ++ [(tn, kn)]) = Ok kn.
Proof.
  intros table tn kn t A L.
  assert (G : forall l, ascending (l ++ [(tn, kn)]) -> bracketed t (l ++ [(tn, kn)]) = None /\
    forall p, In p (l ++ [(tn, kn)]) -> fst p <= tn).
  { induction l as [|(t1, k1) l IH]; intro AS.
    - split; [reflexivity|]. intros p [<-|[]]. cbn. lra.
    - cbn [app] in *. assert (AR : ascending (l ++ [(tn, kn)])).
      { destruct (l ++ [(tn, kn)]) as [|(t2, k2) r] eqn:E; [destruct l; discriminate|]. apply AS. }
      destruct (IH AR) as (B & M). destruct (l ++ [(tn, kn)]) as [|(t2, k2) r] eqn:E; [destruct l; discriminate|].
      pose proof (M (t2, k2) (or_introl eq_refl)) as M2. cbn [fst] in M2. destruct AS as (LT & _).
      split.
      + cbn [bracketed]. replace (Qle_bool t t2) with false by (symmetry; destruct (Qle_bool t t2) eqn:Q; [qb; lra | reflexivity]).
        rewrite andb_false_r. exact B.
      + intros p [<-|P]; [cbn; lra | apply M; exact P]. }
  destruct (G table A) as (B & M). destruct table as [|(t0, k0) rest]; [reflexivity|].
  cbn [app] in *. unfold conductivity. destruct (rest ++ [(tn, kn)]) as [|p r] eqn:E; [destruct rest; discriminate|].
  rewrite B. rewrite <- E.
  pose proof (M (t0, k0) (or_introl eq_refl)) as M0. cbn [fst] in M0.
  replace (Qlt_bool t t0) with false by (symmetry; apply Qlt_bool_false; lra).
  change ((t0, k0) :: rest ++ [(tn, kn)]) with (((t0, k0) :: rest) ++ [(tn, kn)]). rewrite last_last. reflexivity.
Qed.

(** ** Which cooling is applied *)

(** A maximum temperature means a cold plate, whatever else is given; then a
    velocity means forced convection, then a resistance a heat sink. *)
Theorem C109_cooling_precedence : forall k,
  (detect_cooling k = COOL_COLD_PLATE <-> co_maximum_temperature k <> None) /\
  (detect_cooling k = COOL_FORCED <-> co_maximum_temperature k = None /\ exists v l, co_velocity k = Some (v :: l)) /\
  (detect_cooling k = COOL_HEATSINK <-> co_maximum_temperature k = None /\
     (co_velocity k = None \/ co_velocity k = Some []) /\ co_thermal_resistance k <> None) /\
  (detect_cooling k = COOL_NATURAL <-> co_maximum_temperature k = None /\
     (co_velocity k = None \/ co_velocity k = Some []) /\ co_thermal_resistance k = None /\ co_temperature k <> None).
Proof.
  intros [m v r t i h]. unfold detect_cooling. cbn.
  destruct m; [repeat split; try discriminate; try (intros (X & _); discriminate) |].
  destruct v as [[|x l]|]; destruct r; destruct t; repeat split; try discriminate; try congruence;
    try (intros (_ & [X|X] & _); discriminate); try (intros (_ & a & b & X); discriminate);
    try (intros (_ & _ & X & _); discriminate); try (intros (_ & _ & X); contradiction);
    try (intros (_ & _ & _ & X); contradiction); eauto.
Qed.

(** ** A heat sink or a cold plate added to a network *)

Lemma first_ambient_app : forall l m k a, first_ambient k l = Some a -> first_ambient k (l ++ m) = Some a.
Proof.
  induction l as [|x l IH]; intros m k a H; [discriminate|]. cbn in *. destruct (is_ambient (t_part x)); [exact H | apply IH; exact H].
Qed.
Lemma heat_leaving_app : forall l m t r, heat_leaving (l ++ m) t r == heat_leaving l t r + heat_leaving m t r.
Proof. intros. unfold heat_leaving. rewrite map_app, Qsum_app. reflexivity. Qed.
Lemma heat_leaving_outside : forall n es t r, forallb (in_range n) es = true -> (n <= r)%nat -> heat_leaving es t r == 0.
Proof.
  intros n es t r F L. unfold heat_leaving. induction es as [|e es IH]; [reflexivity|]. cbn [forallb] in F.
  apply andb_true_iff in F. destruct F as (R & F). cbn [map Qsum]. rewrite (IH F).
  unfold in_range in R. apply andb_true_iff in R. rewrite !Nat.ltb_lt in R. unfold leaving.
  destruct (Nat.eqb_spec r (e_from e)); [lia|]. destruct (Nat.eqb_spec r (e_to e)); [lia|]. ring.
Qed.
Lemma first_part_some : forall select l k a, first_part select k l = Some a ->
  (k <= a < k + List.length l)%nat /\ select (t_part (nth (a - k) l no_node)) = true.
Proof.
  induction l as [|x l IH]; intros k a H; [discriminate|]. cbn [first_part] in H. destruct (select (t_part x)) eqn:S.
  - injection H as <-. rewrite Nat.sub_diag. cbn. split; [lia | exact S].
  - apply IH in H. destruct H as (R & P). cbn [List.length]. split; [lia|].
    replace (a - k)%nat with (Datatypes.S (a - Datatypes.S k)) by lia. exact P.
Qed.

(** A network extended by one node that takes heat away from some of the others. *)
Lemma extended_cooler : forall n es extra fixed v p fixed' v' p' t t',
  forallb (in_range n) es = true -> rigid n es fixed ->
  balance n es fixed v p t -> balance (S n) (es ++ extra) fixed' v' p' t' ->
  (forall r, (r < n)%nat -> fixed' r = fixed r /\ v' r == v r /\ p' r == p r) ->
  (forall r, (r < n)%nat -> fixed r = false -> 0 <= heat_leaving extra t' r) ->
  forall r, (r < n)%nat -> t' r <= t r.
Proof.
  intros n es extra fixed v p fixed' v' p' t t' F RG B B' SM X.
  apply (balance_monotone n es fixed v (fun r => p r - heat_leaving extra t' r) t' v p t F RG); [| exact B | |].
  - intros r R. specialize (B' r ltac:(lia)). destruct (SM r R) as (E1 & E2 & E3). rewrite E1 in B'.
    destruct (fixed r); [rewrite B'; exact E2|]. rewrite heat_leaving_app in B'. rewrite <- E3, <- B'. ring.
  - intros r R Z. specialize (X r R Z). lra.
  - intros. lra.
Qed.

Section Cooling.
Variable natural : Q -> Q -> Q -> surface_orientation -> Q.
Variable forced : Q -> Q -> Q -> Q.
Notation solve_thermal := (solve_thermal natural forced).

Lemma node_at_app : forall nodes x r, (r < List.length nodes)%nat -> node_at (nodes ++ [x]) r = node_at nodes r.
Proof. intros. unfold node_at. apply app_nth1. assumption. Qed.
Lemma node_at_last : forall nodes x, node_at (nodes ++ [x]) (List.length nodes) = x.
Proof. intros. unfold node_at. rewrite app_nth2 by lia. rewrite Nat.sub_diag. reflexivity. Qed.

Lemma extended_index : forall nodes x, (exists r, (r < List.length nodes)%nat /\ part_of nodes r = AMBIENT) ->
  ambient_index (nodes ++ [x]) = ambient_index nodes /\ part_of nodes (ambient_index nodes) = AMBIENT /\
  first_ambient 0 nodes = Some (ambient_index nodes) /\ (ambient_index nodes < List.length nodes)%nat.
Proof.
  intros nodes x (r & R & P). unfold ambient_index. destruct (first_ambient 0 nodes) as [a|] eqn:E.
  - rewrite (first_ambient_app _ _ _ _ E). apply first_ambient_some in E. rewrite Nat.sub_0_r in E.
    destruct E as (A & B & _). repeat split; auto. lia.
  - exfalso. exact (first_ambient_none _ _ E r R P).
Qed.

(** A heat sink never makes a node hotter: in a network of constant resistances
    with an ambient node, losses that are not negative and no boundary below
    ambient. *)
Theorem C109_heatsink_never_heats : forall c k nodes es nodes' es' res res',
  apply_heatsink c k nodes es = Ok (nodes', es') ->
  solve_thermal c nodes es = Ok res -> solve_thermal c nodes' es' = Ok res' ->
  constant_network es -> (1 <= tc_max_iterations c)%nat ->
  (exists r, (r < List.length nodes)%nat /\ part_of nodes r = AMBIENT) ->
  (forall r, free_node nodes r -> 0 <= power_of nodes r) ->
  (forall r, fixed_node nodes r -> tc_ambient c <= t_temperature (nth r nodes no_node)) ->
  (forall r, (r < List.length nodes)%nat -> temperature res' r <= temperature res r) /\
  tc_ambient c <= temperature res' (List.length nodes).
Proof.
  intros c k nodes es nodes' es' res res' AP S1 S2 CN M AN PP FT.
  unfold apply_heatsink in AP. destruct (first_part is_top 0 nodes) as [top|] eqn:TOP; [|discriminate].
  apply first_part_some in TOP. rewrite Nat.sub_0_r in TOP. destruct TOP as (TR & TP).
  destruct (co_thermal_resistance k) as [rs|]; [|discriminate].
  set (n := List.length nodes) in *.
  set (sink := mkThermal "Heatsink" HEATSINK 0 (tc_ambient c) false None 0 _ _) in *.
  destruct (extended_index nodes sink AN) as (AI & AP' & FA & AR).
  set (a := ambient_index nodes) in *.
  rewrite (first_ambient_app nodes [sink] 0 a FA) in AP.
  set (e1 := mkElement top n _ CONDUCTION _ VERTICAL) in *.
  set (e2 := mkElement n a rs HEATSINK_CONVECTION 1 VERTICAL) in *.
  injection AP as <- <-.
  assert (CN' : constant_network (es ++ [e1; e2])).
  { intros e I. apply in_app_or in I. destruct I as [I|[<-|[<-|[]]]]; [apply CN; exact I | left; reflexivity | right; left; reflexivity]. }
  change ([e1] ++ [e2])%list with [e1; e2] in *.
  destruct (constant_balance natural forced c nodes es res S1 CN M) as (NE & _ & F & RG & B).
  destruct (constant_balance natural forced c (nodes ++ [sink]) (es ++ [e1; e2]) res' S2 CN' M) as (NE' & _ & F' & RG' & B').
  rewrite app_length in B', F', RG'. cbn [List.length] in B', F', RG'. rewrite Nat.add_1_r in B', F', RG'.
  fold n in F, RG, B, B', F', RG'.
  assert (PN : forall r, (r < n)%nat -> pinned (nodes ++ [sink]) r = pinned nodes r /\
    imposed (tc_ambient c) (nodes ++ [sink]) r == imposed (tc_ambient c) nodes r /\
    power_of (nodes ++ [sink]) r == power_of nodes r).
  { intros r R. unfold pinned, imposed, power_of. rewrite AI. fold a. fold (node_at nodes r). fold (node_at (nodes ++ [sink]) r).
    rewrite node_at_app by exact R. repeat split; reflexivity. }
  assert (PS : pinned (nodes ++ [sink]) n = false).
  { unfold pinned. rewrite AI. fold a. rewrite node_at_last. destruct (Nat.eqb_spec n a); [lia | reflexivity]. }
  assert (PW : power_of (nodes ++ [sink]) n = 0) by exact (f_equal t_power (node_at_last nodes sink)).
  (* nothing is below ambient *)
  assert (LOW : forall r, (r < S n)%nat -> tc_ambient c <= temperature res' r).
  { apply (minimum_principle _ _ _ _ _ _ (tc_ambient c) F' RG' B').
    - intros r R X. destruct (Nat.eq_dec r n) as [->|N].
      + rewrite PW. lra.
      + destruct (PN r ltac:(lia)) as (E1 & _ & E3). rewrite E3. rewrite E1 in X. apply PP. apply free_iff; [exact NE | fold n; lia | exact X].
    - intros r R X. destruct (Nat.eq_dec r n) as [->|N]; [congruence|].
      destruct (PN r ltac:(lia)) as (E1 & E2 & _). rewrite E2. rewrite E1 in X.
      apply pinned_iff in X; [|exact NE | fold n; lia]. destruct X as [X|X].
      + rewrite imposed_ambient by assumption. lra.
      + rewrite imposed_fixed by assumption. apply FT. exact X. }
  split; [|apply LOW; lia].
  assert (TA : temperature res' a == tc_ambient c).
  { specialize (B' a ltac:(lia)). destruct (PN a AR) as (E1 & E2 & _). rewrite E1 in B'.
    assert (PA : pinned nodes a = true) by (unfold pinned; fold a; rewrite Nat.eqb_refl; reflexivity).
    rewrite PA in B'. rewrite B', E2. unfold imposed. fold a. rewrite Nat.eqb_refl. reflexivity. }
  assert (DROP : temperature res' n <= temperature res' top).
  { specialize (B' n ltac:(lia)). rewrite PS in B'. rewrite heat_leaving_app, (heat_leaving_outside n es) in B' by (auto; lia).
    rewrite PW in B'. unfold heat_leaving, leaving, heat in B'. cbn [map Qsum e1 e2 e_from e_to] in B'.
    rewrite Nat.eqb_refl in B'.
    destruct (Nat.eqb_spec n top); [lia|]. destruct (Nat.eqb_spec n a); [lia|].
    pose proof (conductance_pos e1) as G1. pose proof (conductance_pos e2) as G2.
    fold e1 in B'. fold e2 in B'. pose proof (LOW n ltac:(lia)) as LN. rewrite <- TA in LN.
    set (tn := temperature res' n) in *. set (tt := temperature res' top) in *. set (ta := temperature res' a) in *.
    destruct (Qlt_le_dec tt tn) as [Q|Q]; [|exact Q]. exfalso.
    assert (0 < conductance e1 * (tn - tt)) by (apply Qmult_pos; lra).
    assert (0 <= conductance e2 * (tn - ta)) by (apply Qmult_le_0_compat; lra). lra. }
  apply (extended_cooler n es [e1; e2] _ _ _ _ _ _ _ _ F RG B B' PN).
  intros r R Z. unfold heat_leaving, leaving, heat. cbn [map Qsum e1 e2 e_from e_to].
  destruct (Nat.eqb_spec r n); [lia|].
  destruct (Nat.eqb_spec r a) as [->|]; [unfold pinned in Z; fold a in Z; rewrite Nat.eqb_refl in Z; discriminate|].
  fold e1. pose proof (conductance_pos e1) as G1.
  destruct (Nat.eqb_spec r top) as [->|]; [|lra].
  assert (0 <= conductance e1 * (temperature res' top - temperature res' n)) by (apply Qmult_le_0_compat; lra). lra.
Qed.

(** A cold plate no warmer than ambient and the other boundaries never makes a
    node hotter. *)
Theorem C109_cold_plate_never_heats : forall c k proximity nodes es nodes' es' res res' plate,
  apply_cold_plate k proximity nodes es = Ok (nodes', es') -> co_maximum_temperature k = Some plate ->
  solve_thermal c nodes es = Ok res -> solve_thermal c nodes' es' = Ok res' ->
  constant_network es -> (1 <= tc_max_iterations c)%nat ->
  (exists r, (r < List.length nodes)%nat /\ part_of nodes r = AMBIENT) ->
  (forall r, free_node nodes r -> 0 <= power_of nodes r) ->
  plate <= tc_ambient c -> (forall r, fixed_node nodes r -> plate <= t_temperature (nth r nodes no_node)) ->
  (forall r, (r < List.length nodes)%nat -> temperature res' r <= temperature res r) /\
  temperature res' (List.length nodes) == plate.
Proof.
  intros c k proximity nodes es nodes' es' res res' plate AP PT S1 S2 CN M AN PP PA FT.
  unfold apply_cold_plate in AP. rewrite PT in AP.
  destruct (plate_contacts proximity nodes) as [|c0 contacts'] eqn:EC; [discriminate|]. rewrite <- EC in AP.
  set (contacts := plate_contacts proximity nodes) in *.
  set (n := List.length nodes) in *.
  set (P := mkThermal "ColdPlate" COLD_PLATE 0 plate true None 0 _ _) in *.
  destruct (extended_index nodes P AN) as (AI & AP' & FA & AR).
  set (a := ambient_index nodes) in *.
  set (spec := match co_interface_thickness k with Some _ => _ | None => _ end) in *.
  set (link := fun i => mkElement i n (interface_resistance spec (t_surface (node_at nodes i))) CONDUCTION (t_surface (node_at nodes i)) VERTICAL) in *.
  injection AP as <- <-. set (extra := map link contacts) in *.
  assert (CN' : constant_network (es ++ extra)).
  { intros e I. apply in_app_or in I. destruct I as [I|I]; [apply CN; exact I|]. apply in_map_iff in I.
    destruct I as (i & <- & _). left. reflexivity. }
  destruct (constant_balance natural forced c nodes es res S1 CN M) as (NE & _ & F & RG & B).
  destruct (constant_balance natural forced c (nodes ++ [P]) (es ++ extra) res' S2 CN' M) as (NE' & _ & F' & RG' & B').
  rewrite app_length in B', F', RG'. cbn [List.length] in B', F', RG'. rewrite Nat.add_1_r in B', F', RG'.
  fold n in F, RG, B, B', F', RG'.
  assert (PN : forall r, (r < n)%nat -> pinned (nodes ++ [P]) r = pinned nodes r /\
    imposed (tc_ambient c) (nodes ++ [P]) r == imposed (tc_ambient c) nodes r /\
    power_of (nodes ++ [P]) r == power_of nodes r).
  { intros r R. unfold pinned, imposed, power_of. rewrite AI. fold a. fold (node_at nodes r). fold (node_at (nodes ++ [P]) r).
    rewrite node_at_app by exact R. repeat split; reflexivity. }
  assert (PS : pinned (nodes ++ [P]) n = true /\ imposed (tc_ambient c) (nodes ++ [P]) n = plate).
  { unfold pinned, imposed. rewrite AI. fold a. rewrite node_at_last. destruct (Nat.eqb_spec n a); [lia | split; reflexivity]. }
  assert (TN : temperature res' n == plate).
  { specialize (B' n ltac:(lia)). rewrite (proj1 PS) in B'. rewrite B', (proj2 PS). reflexivity. }
  split; [|exact TN].
  assert (LOW : forall r, (r < S n)%nat -> plate <= temperature res' r).
  { apply (minimum_principle _ _ _ _ _ _ plate F' RG' B').
    - intros r R X. destruct (Nat.eq_dec r n) as [->|N]; [rewrite (proj1 PS) in X; discriminate|].
      destruct (PN r ltac:(lia)) as (E1 & _ & E3). rewrite E3. rewrite E1 in X. apply PP. apply free_iff; [exact NE | fold n; lia | exact X].
    - intros r R X. destruct (Nat.eq_dec r n) as [->|N]; [rewrite (proj2 PS); lra|].
      destruct (PN r ltac:(lia)) as (E1 & E2 & _). rewrite E2. rewrite E1 in X.
      apply pinned_iff in X; [|exact NE | fold n; lia]. destruct X as [X|X].
      + rewrite imposed_ambient by assumption. exact PA.
      + rewrite imposed_fixed by assumption. apply FT. exact X. }
  apply (extended_cooler n es extra _ _ _ _ _ _ _ _ F RG B B' PN).
  intros r R Z. unfold heat_leaving, extra. rewrite map_map. apply Qsum_nonneg.
  apply Forall_forall. intros x X. apply in_map_iff in X. destruct X as (i & <- & _).
  unfold leaving, heat. cbn [link e_from e_to].
  destruct (Nat.eqb_spec r n); [lia|].
  destruct (Nat.eqb_spec r i) as [<-|]; [|lra].
  assert (0 <= conductance (link r) * (temperature res' r - temperature res' n)); [|unfold link in *; lra].
  apply Qmult_le_0_compat; [apply Qlt_le_weak, conductance_pos|]. rewrite TN. specialize (LOW r ltac:(lia)). lra.
Qed.

End Cooling.

(** The interface of a heat sink is the specific resistance over the surface of
    the yoke; the cold plate uses the same only if a thickness is given too. *)
Theorem C109_heatsink_interface : forall c k nodes es nodes' es' specific,
  apply_heatsink c k nodes es = Ok (nodes', es') -> co_interface_resistance k = Some specific ->
  exists top e, In e es' /\ e_from e = top /\ e_to e = List.length nodes /\
    (part_of nodes top = CORE_TOP_YOKE \/ part_of nodes top = BOBBIN_TOP_YOKE) /\
    (0 < t_surface (nth top nodes no_node) -> e_resistance e * t_surface (nth top nodes no_node) == specific).
Proof.
  intros c k nodes es nodes' es' specific AP SP. unfold apply_heatsink in AP.
  destruct (first_part is_top 0 nodes) as [top|] eqn:TOP; [|discriminate].
  apply first_part_some in TOP. rewrite Nat.sub_0_r in TOP. destruct TOP as (TR & TP).
  destruct (co_thermal_resistance k) as [rs|]; [|discriminate]. injection AP as <- <-.
  eexists top, _. split; [apply in_or_app; right; left; reflexivity|].
  split; [reflexivity|]. split; [reflexivity|]. split.
  - unfold part_of. destruct (t_part (nth top nodes no_node)); try discriminate; auto.
  - intro A. cbn [e_resistance]. unfold node_at, interface_resistance. rewrite SP.
    replace (Qlt_bool 0 (t_surface (nth top nodes no_node))) with true by (symmetry; apply Qlt_bool_iff; exact A).
    field. lra.
Qed.

(** ** A concrete component *)

(** Natural convection of 10 W/(m2 K) and forced convection of 30, whatever the
    temperatures; the properties hold for every other correlation. *)
Definition still_air (_ _ _ : Q) (_ : surface_orientation) : Q := 10.
Definition moving_air (_ _ _ : Q) : Q := 30.
Definition setup : thermal_config := mkConfig 25 (9 # 10) 0 20 (1 # 2) true (Some (3 # 100)).

(** A core with one watt and a half, a winding with half a watt in its inner and
    outer half turns, and the air. *)
Definition core_node : thermal_node := mkThermal "Core" CORE_TOP_YOKE (3 # 2) 25 false None (1 # 500) 0 (1 # 100).
Definition bottom_node : thermal_node := mkThermal "Bottom" CORE_BOTTOM_YOKE 0 25 false None (1 # 500) 0 (-1 # 100).
Definition inner_node : thermal_node := mkThermal "T0_Inner" TURN (1 # 4) 25 false (Some 0%nat) (1 # 1000) 0 0.
Definition air_node : thermal_node := mkThermal "Ambient" AMBIENT 0 25 false None 0 0 0.
Definition component : list thermal_node := [core_node; bottom_node; inner_node; air_node].
(** Conduction core to bottom, turn to core, and two paths to the air. *)
Definition solid : list element :=
  [ mkElement 0 1 (1 # 2) CONDUCTION (1 # 1000) VERTICAL;
    mkElement 2 0 2 CONDUCTION (1 # 1000) VERTICAL;
    mkElement 0 3 40 CONDUCTION 0 VERTICAL;
    mkElement 1 3 40 HEATSINK_CONVECTION 1 VERTICAL ].
(** The same with convection and radiation instead. *)
Definition airy : list element :=
  [ mkElement 0 1 (1 # 2) CONDUCTION (1 # 1000) VERTICAL;
    mkElement 2 0 2 CONDUCTION (1 # 1000) VERTICAL;
    mkElement 0 3 32 NATURAL_CONVECTION (1 # 300) VERTICAL;
    mkElement 1 3 41 RADIATION (1 # 300) VERTICAL ].
Definition outcome_value {A} (o : outcome A) (d : A) : A := match o with Ok a => a | _ => d end.
Definition no_result : thermal_result := mkThermalResult false 0 [] 0 [] 0 0 0 [].
Definition solid_result := outcome_value (solve_thermal still_air moving_air setup component solid) no_result.
Definition airy_result := outcome_value (solve_thermal still_air moving_air setup component airy) no_result.

Example C106_witness :
  solve_thermal still_air moving_air setup component airy = Ok airy_result /\
  tr_converged airy_result = true /\ tr_iterations airy_result = 2%nat /\
  ambient_node component 3 /\ free_node component 0 /\ free_node component 1 /\ free_node component 2 /\
  (forall r, ~ fixed_node component r) /\ (forall r, free_node component r -> 0 <= power_of component r) /\
  25 < temperature airy_result 2 /\
  In (mkElement 0 3 30 NATURAL_CONVECTION (1 # 300) VERTICAL) (tr_elements airy_result).
Proof.
  assert (AM : ambient_node component 3).
  { split; [cbn; lia|]. left. split; [reflexivity|]. intros [|[|[|r]]] R; try (cbn; discriminate). lia. }
  assert (NA : forall r, (r < 3)%nat -> ~ ambient_node component r).
  { intros r R A. apply ambient_node_index in A; [|discriminate]. change (ambient_index component) with 3%nat in A. lia. }
  assert (FR : forall r, (r < 3)%nat -> free_node component r).
  { intros r R. split; [cbn; lia|]. split; [apply NA; exact R|]. destruct r as [|[|[|r]]]; try reflexivity. lia. }
  split; [vm_compute; reflexivity|]. split; [vm_compute; reflexivity|]. split; [vm_compute; reflexivity|].
  split; [exact AM|]. split; [apply FR; lia|]. split; [apply FR; lia|]. split; [apply FR; lia|].
  split.
  { intros r (R & N & F). destruct r as [|[|[|[|r]]]]; try discriminate. cbn in R. lia. }
  split.
  { intros r (R & N & _). destruct r as [|[|[|[|r]]]]; try (vm_compute; discriminate); cbn in R; lia. }
  split; [vm_compute; reflexivity|]. vm_compute. auto.
Qed.

(** Turn and core joined to each other but to nothing else. *)
Example C106_isolated_witness :
  let nodes := [core_node; inner_node; air_node] in
  let es := [mkElement 1 0 2 CONDUCTION 0 VERTICAL] in
  let island r := Nat.ltb r 2 in
  (exists r, island r = true) /\ (forall r, island r = true -> free_node nodes r) /\
  (forall e, In e es -> island (e_from e) = island (e_to e)) /\
  exists w, solve_thermal still_air moving_air setup nodes es = Throw w.
Proof.
  cbn zeta. split; [exists 0%nat; reflexivity|]. split.
  - intros r R. apply Nat.ltb_lt in R. split; [cbn; lia|]. split.
    + intro A. apply ambient_node_index in A; [|discriminate]. cbn in A. lia.
    + destruct r as [|[|r]]; try reflexivity. lia.
  - split; [intros e [<-|[]]; reflexivity|]. eexists. vm_compute. reflexivity.
Qed.

(** A network without an ambient node: its last node is held at ambient
    temperature, here the turn that dissipates a watt. *)
Theorem C106_last_node_pinned_without_ambient_refuted : exists nodes es res r,
  solve_thermal still_air moving_air setup nodes es = Ok res /\
  part_of nodes r = TURN /\ t_fixed (nth r nodes no_node) = false /\ power_of nodes r == 1 /\
  (forall x, In x nodes -> t_part x <> AMBIENT) /\ temperature res r == tc_ambient setup /\
  ~ heat_out (tr_elements res) (temperature res) r == power_of nodes r.
Proof.
  exists [core_node; mkThermal "T" TURN 1 25 false None 0 0 0], [mkElement 0 1 2 CONDUCTION 0 VERTICAL].
  eexists (outcome_value (solve_thermal still_air moving_air setup
    [core_node; mkThermal "T" TURN 1 25 false None 0 0 0] [mkElement 0 1 2 CONDUCTION 0 VERTICAL]) no_result), 1%nat.
  split; [vm_compute; reflexivity|]. split; [reflexivity|]. split; [reflexivity|]. split; [reflexivity|].
  split; [intros x [<-|[<-|[]]]; discriminate|]. split; [vm_compute; reflexivity|]. vm_compute. discriminate.
Qed.

(** The same component with more losses, and with the losses of the turn only. *)
Definition busier : list thermal_node :=
  [ mkThermal "Core" CORE_TOP_YOKE 3 25 false None (1 # 500) 0 (1 # 100); bottom_node;
    mkThermal "T0_Inner" TURN (1 # 2) 25 false (Some 0%nat) (1 # 1000) 0 0; air_node ].
Definition busier_result := outcome_value (solve_thermal still_air moving_air setup busier solid) no_result.
Example C107_witness :
  solve_thermal still_air moving_air setup component solid = Ok solid_result /\
  solve_thermal still_air moving_air setup busier solid = Ok busier_result /\
  constant_network solid /\ same_network component busier /\
  (forall r, free_node component r -> power_of component r <= power_of busier r) /\
  temperature solid_result 0 == 1385 # 23 /\ temperature solid_result 2 == 2793 # 46 /\
  temperature busier_result 0 - 25 == 2 * (temperature solid_result 0 - 25) /\
  tr_iterations solid_result = 2%nat /\ tr_converged solid_result = true.
Proof.
  split; [vm_compute; reflexivity|]. split; [vm_compute; reflexivity|].
  split. { intros e [<-|[<-|[<-|[<-|[]]]]]; cbn; auto. }
  split; [split; reflexivity|].
  split. { intros r (R & _). destruct r as [|[|[|[|r]]]]; try (vm_compute; discriminate); cbn in R; lia. }
  repeat split; vm_compute; reflexivity.
Qed.

Example C108_witness :
  NoDup (map t_name component) /\
  find "Core" (tr_temperatures solid_result) = Some (temperature solid_result 0) /\
  find "core" (by_component (fun _ => "0"%string) (tr_nodes solid_result)) = Some (temperature solid_result 0) /\
  find "winding 0" (by_component (fun _ => "0"%string) (tr_nodes solid_result)) = Some (temperature solid_result 2) /\
  find "T0" (per_turn (tr_nodes solid_result)) = Some (temperature solid_result 2) /\
  tr_maximum solid_result == 2793 # 46 /\ tr_core solid_result == 60 /\
  tr_coil solid_result == 2793 # 46 /\ tr_total_resistance solid_result == 3286 # 161 /\
  0 < Qsum (map t_power component).
Proof.
  split. { repeat constructor; cbn; intuition discriminate. }
  repeat split; vm_compute; reflexivity.
Qed.

Example C109_radiation_witness :
  radiation_coefficient 100 25 (9 # 10) * (100 - 25) == (9 # 10) * (5670374419 # 100000000000000000) *
    ((37315 # 100) * (37315 # 100) * (37315 # 100) * (37315 # 100) - (29815 # 100) * (29815 # 100) * (29815 # 100) * (29815 # 100)) /\
  7 < radiation_coefficient 100 25 (9 # 10) < 8.
Proof. split; [vm_compute; reflexivity|]. split; vm_compute; reflexivity. Qed.

Definition copper : list (Q * Q) := [(0, 401); (100, 391); (200, 389)].
Example C109_conductivity_witness :
  ascending copper /\ (forall p, In p copper -> 389 <= snd p <= 401) /\
  conductivity 50 copper = Ok (401 + (50 - 0) / (100 - 0) * (391 - 401)) /\ 401 + (50 - 0) / (100 - 0) * (391 - 401) == 396 /\
  conductivity (-20) copper = Ok 401 /\ conductivity 300 copper = Ok 389.
Proof.
  split; [cbn; repeat split; lra|]. split; [intros p [<-|[<-|[<-|[]]]]; cbn; lra|].
  repeat split; vm_compute; reflexivity.
Qed.

(** The component on a heat sink and on a cold plate. *)
Definition sink_cooling : cooling := mkCooling None None (Some 5) None (Some (1 # 5000)) None.
Definition plate_cooling : cooling := mkCooling (Some 20) None None None (Some (1 # 5000)) (Some (1 # 1000)).
Definition with_sink := outcome_value (apply_heatsink setup sink_cooling component solid) ([], []).
Definition with_plate := outcome_value (apply_cold_plate plate_cooling (5 # 1000) component solid) ([], []).
Definition sink_result := outcome_value (solve_thermal still_air moving_air setup (fst with_sink) (snd with_sink)) no_result.
Definition plate_result := outcome_value (solve_thermal still_air moving_air setup (fst with_plate) (snd with_plate)) no_result.
Example C109_cooling_witness :
  detect_cooling sink_cooling = COOL_HEATSINK /\ detect_cooling plate_cooling = COOL_COLD_PLATE /\
  apply_heatsink setup sink_cooling component solid = Ok (fst with_sink, snd with_sink) /\
  apply_cold_plate plate_cooling (5 # 1000) component solid = Ok (fst with_plate, snd with_plate) /\
  solve_thermal still_air moving_air setup (fst with_sink) (snd with_sink) = Ok sink_result /\
  solve_thermal still_air moving_air setup (fst with_plate) (snd with_plate) = Ok plate_result /\
  (exists r, (r < List.length component)%nat /\ part_of component r = AMBIENT) /\
  temperature sink_result 0 < temperature solid_result 0 /\ temperature plate_result 0 < temperature solid_result 0 /\
  25 < temperature sink_result 4 /\ temperature plate_result 4 == 20.
Proof.
  split; [reflexivity|]. split; [reflexivity|]. split; [vm_compute; reflexivity|]. split; [vm_compute; reflexivity|].
  split; [vm_compute; reflexivity|]. split; [vm_compute; reflexivity|].
  split; [exists 3%nat; split; [cbn; lia | reflexivity]|]. repeat split; vm_compute; reflexivity.
Qed.

(** A cold plate given an interface resistance but no thickness keeps the default
    of half a kelvin per watt: a hundred times better an interface changes
    nothing, while the heat sink honours it. *)
Theorem C109_cold_plate_ignores_its_interface_refuted : exists nodes es specific better out,
  better == specific / 100 /\ ~ better == specific /\
  apply_cold_plate (mkCooling (Some 20) None None None (Some specific) None) (5 # 1000) nodes es = Ok out /\
  apply_cold_plate (mkCooling (Some 20) None None None (Some better) None) (5 # 1000) nodes es = Ok out /\
  apply_heatsink setup (mkCooling None None (Some 5) None (Some specific) None) nodes es <>
  apply_heatsink setup (mkCooling None None (Some 5) None (Some better) None) nodes es.
Proof.
  exists component, solid, (1 # 50), (1 # 5000).
  exists (outcome_value (apply_cold_plate (mkCooling (Some 20) None None None (Some (1 # 50)) None) (5 # 1000) component solid) ([], [])).
  split; [reflexivity|]. split; [discriminate|]. split; [vm_compute; reflexivity|]. split; [vm_compute; reflexivity|].
  vm_compute. discriminate.
Qed.

(** A heat sink on a network without an ambient node: its resistance is never
    used, for the sink itself is held at ambient temperature. *)
Theorem C109_heatsink_without_ambient_refuted : exists nodes es good bad out,
  ~ good == bad /\
  apply_heatsink setup (mkCooling None None (Some good) None None None) nodes es = Ok out /\
  apply_heatsink setup (mkCooling None None (Some bad) None None None) nodes es = Ok out /\
  exists res, solve_thermal still_air moving_air setup (fst out) (snd out) = Ok res /\
    temperature res (List.length nodes) == tc_ambient setup.
Proof.
  exists [core_node], [], 5, 500.
  exists (outcome_value (apply_heatsink setup (mkCooling None None (Some 5) None None None) [core_node] []) ([], [])).
  split; [discriminate|]. split; [vm_compute; reflexivity|]. split; [vm_compute; reflexivity|].
  exists (outcome_value (solve_thermal still_air moving_air setup
    (fst (outcome_value (apply_heatsink setup (mkCooling None None (Some 5) None None None) [core_node] []) ([], [])))
    (snd (outcome_value (apply_heatsink setup (mkCooling None None (Some 5) None None None) [core_node] []) ([], [])))) no_result).
  split; vm_compute; reflexivity.
Qed.

Print Assumptions C106_converged_heat_balance.
Print Assumptions C106_no_node_below_its_boundaries.
Print Assumptions C107_reciprocity.
Print Assumptions C108_bulk_resistance_agrees.
Print Assumptions C109_heatsink_never_heats.
