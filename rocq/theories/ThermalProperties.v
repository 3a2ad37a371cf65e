(** C106, C107: what the temperatures of the thermal network satisfy. *)
From Coq Require Import ZArith QArith Qabs Qminmax List String Bool Lia Lra Lqa.
From Verif Require Import Base QAux StrMap NetworkModel NetworkProofs ThermalModel ThermalProofs ThermalLoop.
Import ListNotations.
Open Scope Q_scope.

(** ** Vocabulary *)

(** The heat an element carries from its first node to its second one; a
    resistance below a nanokelvin per watt counts as that. *)
Definition flow (t : nat -> Q) (e : element) : Q :=
  (t (e_from e) - t (e_to e)) / Qmax (e_resistance e) (1 # 1000000000).
(** The heat that leaves node [r] through the elements. *)
Definition heat_out (es : list element) (t : nat -> Q) (r : nat) : Q :=
  Qsum (map (flow t) (filter (fun e => Nat.eqb (e_from e) r) es))
  - Qsum (map (flow t) (filter (fun e => Nat.eqb (e_to e) r) es)).
(** The conductances that meet at node [r]. *)
Definition meeting (es : list element) (r : nat) : Q :=
  Qsum (map (fun e => 1 / Qmax (e_resistance e) (1 # 1000000000))
    (filter (fun e => Nat.eqb (e_from e) r || Nat.eqb (e_to e) r) es)).

Definition temperature (res : thermal_result) (r : nat) : Q := t_temperature (nth r (tr_nodes res) no_node).
Definition part_of (nodes : list thermal_node) (r : nat) : part := t_part (nth r nodes no_node).
Definition power_of (nodes : list thermal_node) (r : nat) : Q := t_power (nth r nodes no_node).

(** The node held at ambient temperature: the first ambient node; a network
    without one holds its last node there. *)
Definition ambient_node (nodes : list thermal_node) (a : nat) : Prop :=
  (a < List.length nodes)%nat /\
  ((part_of nodes a = AMBIENT /\ forall r, (r < a)%nat -> part_of nodes r <> AMBIENT) \/
   (S a = List.length nodes /\ forall r, (r < List.length nodes)%nat -> part_of nodes r <> AMBIENT)).
(** Another node of fixed temperature, such as a cold plate. *)
Definition fixed_node (nodes : list thermal_node) (r : nat) : Prop :=
  (r < List.length nodes)%nat /\ ~ ambient_node nodes r /\ t_fixed (nth r nodes no_node) = true.
Definition free_node (nodes : list thermal_node) (r : nat) : Prop :=
  (r < List.length nodes)%nat /\ ~ ambient_node nodes r /\ t_fixed (nth r nodes no_node) = false.

(** ** The vocabulary and the model *)

Lemma Qmax_cmax : forall a b, cmax a b == Qmax a b.
Proof.
  intros a b. unfold cmax. destruct (Qlt_bool a b) eqn:E; qb.
  - rewrite Q.max_r by lra. reflexivity.
  - rewrite Q.max_l by lra. reflexivity.
Qed.
Lemma flow_heat : forall t e, flow t e == heat e t.
Proof.
  intros t e. unfold flow, heat, conductance. rewrite Qmax_cmax. unfold Qdiv. ring.
Qed.
Lemma heat_out_leaving : forall es t r, heat_out es t r == heat_leaving es t r.
Proof.
  intros es t r. unfold heat_out, heat_leaving. induction es as [|e es IH]; cbn [filter map Qsum]; [lra|].
  rewrite <- IH. unfold leaving. rewrite (Nat.eqb_sym r (e_from e)), (Nat.eqb_sym r (e_to e)). pose proof (flow_heat t e).
  destruct (Nat.eqb (e_from e) r), (Nat.eqb (e_to e) r); cbn [map Qsum]; lra.
Qed.

Lemma ambient_node_index : forall nodes a, nodes <> [] -> (ambient_node nodes a <-> a = ambient_index nodes).
Proof.
  intros nodes a N. pose proof (ambient_index_range nodes N) as R. unfold ambient_node, ambient_index, part_of in *.
  destruct (first_ambient 0 nodes) as [k|] eqn:E.
  - apply first_ambient_some in E. rewrite Nat.sub_0_r in E. destruct E as (K & P & F). split.
    + intros (A & [(X & Y)|(X & Y)]).
      * destruct (Nat.lt_trichotomy a k) as [L|[L|L]]; [exfalso; exact (F a L X) | exact L | exfalso; exact (Y k L P)].
      * exfalso. apply (Y k); [lia | exact P].
    + intros ->. split; [lia|]. left. split; assumption.
  - pose proof (first_ambient_none _ _ E) as F. split.
    + intros (A & [(X & Y)|(X & Y)]); [exfalso; exact (F a A X) | lia].
    + intros ->. split; [exact R|]. right. split; [lia | exact F].
Qed.

Lemma pinned_iff : forall nodes r, nodes <> [] -> (r < List.length nodes)%nat ->
  (pinned nodes r = true <-> ambient_node nodes r \/ fixed_node nodes r).
Proof.
  intros nodes r N R. unfold pinned, fixed_node. rewrite orb_true_iff, Nat.eqb_eq, <- (ambient_node_index nodes r N).
  unfold node_at. split.
  - intros [H|H]; [left; exact H|].
    destruct (Nat.eq_dec r (ambient_index nodes)) as [E|E]; [left; apply ambient_node_index; assumption|].
    right. split; [exact R|]. split; [|exact H]. intro A. apply E, ambient_node_index; assumption.
  - intros [H|(_ & _ & H)]; [left | right]; exact H.
Qed.
Lemma free_iff : forall nodes r, nodes <> [] -> (r < List.length nodes)%nat ->
  (pinned nodes r = false <-> free_node nodes r).
Proof.
  intros nodes r N R. unfold pinned, free_node, node_at. rewrite orb_false_iff, Nat.eqb_neq, (ambient_node_index nodes r N).
  tauto.
Qed.

Lemma imposed_ambient : forall a nodes r, nodes <> [] -> ambient_node nodes r -> imposed a nodes r = a.
Proof. intros a nodes r N A. apply ambient_node_index in A; [|exact N]. unfold imposed. rewrite A, Nat.eqb_refl. reflexivity. Qed.
Lemma imposed_fixed : forall a nodes r, nodes <> [] -> fixed_node nodes r ->
  imposed a nodes r = t_temperature (nth r nodes no_node).
Proof.
  intros a nodes r N (_ & A & _). unfold imposed, node_at. destruct (Nat.eqb_spec r (ambient_index nodes)) as [E|E]; [|reflexivity].
  exfalso. apply A, ambient_node_index; assumption.
Qed.

Section Properties.
Variable natural : Q -> Q -> Q -> surface_orientation -> Q.
Variable forced : Q -> Q -> Q -> Q.
Notation solve_thermal := (solve_thermal natural forced).

(** The loop keeps the number of temperatures. *)
Lemma loop_length : forall c nodes es s,
  iterate natural forced (tc_max_iterations c) c nodes 0 es (repeat (tc_ambient c) (List.length nodes)) = Ok s ->
  List.length (l_temperatures s) = List.length nodes.
Proof.
  intros c nodes es s H.
  refine (proj1 (iterate_spec natural forced (fun _ _ t => List.length t = List.length nodes) c nodes _ _ _ _ _ _ _ H)).
  - intros it es0 t es' fresh new _ P. eapply pass_length. exact P.
  - apply repeat_length.
Qed.
Lemma temperature_at : forall c nodes s r, List.length (l_temperatures s) = List.length nodes ->
  (r < List.length nodes)%nat -> temperature (report c nodes s) r = at_ (l_temperatures s) r.
Proof. intros c nodes s r L R. unfold temperature, report. cbn. rewrite set_temperatures_at by assumption. reflexivity. Qed.

(** ** C106 *)

(** Boundaries: after at least one iteration the ambient node is exactly at
    ambient temperature and a node of fixed temperature at the one given. *)
Theorem C106_boundaries_keep_their_temperature : forall c nodes es res,
  solve_thermal c nodes es = Ok res -> (1 <= tc_max_iterations c)%nat ->
  (forall a, ambient_node nodes a -> temperature res a == tc_ambient c) /\
  (forall r, fixed_node nodes r -> temperature res r == t_temperature (nth r nodes no_node)).
Proof.
  intros c nodes es res H M. apply solve_thermal_spec in H. destruct H as (s & IT & -> & _ & NE).
  pose proof (loop_length _ _ _ _ IT) as L.
  assert (K : forall r, (r < List.length nodes)%nat -> pinned nodes r = true ->
    at_ (l_temperatures s) r == imposed (tc_ambient c) nodes r).
  { pose proof (iterate_spec natural forced (fun it _ t => it = O \/ forall r, (r < List.length nodes)%nat -> pinned nodes r = true ->
      at_ t r == imposed (tc_ambient c) nodes r) c nodes) as S.
    destruct (S ltac:(intros it es0 t es' fresh new _ P; right; intros r; eapply pass_pinned; exact P)
      _ _ _ _ _ ltac:(left; reflexivity) IT) as ([Z|Z] & B & C & D); [|exact Z].
    destruct (l_converged s) eqn:CV; [destruct (D eq_refl) as (it' & _ & _ & _ & E & _); congruence|].
    specialize (C eq_refl). lia. }
  split; intros r A.
  - pose proof (proj1 A) as R. rewrite temperature_at by assumption. rewrite K; [|exact R|].
    + rewrite imposed_ambient by assumption. reflexivity.
    + apply pinned_iff; auto.
  - pose proof (proj1 A) as R. rewrite temperature_at by assumption. rewrite K; [|exact R|].
    + rewrite imposed_fixed by assumption. reflexivity.
    + apply pinned_iff; auto.
Qed.

(** No node colder than its surroundings: whatever the resistances do, converged
    or not, no node ends below a temperature that neither ambient nor a fixed
    node is below, if no free node has negative losses. *)
Theorem C106_no_node_below_its_boundaries : forall c nodes es res m,
  solve_thermal c nodes es = Ok res ->
  (forall r, free_node nodes r -> 0 <= power_of nodes r) ->
  m <= tc_ambient c -> (forall r, fixed_node nodes r -> m <= t_temperature (nth r nodes no_node)) ->
  forall r, (r < List.length nodes)%nat -> m <= temperature res r.
Proof.
  intros c nodes es res m H P MA MF. apply solve_thermal_spec in H. destruct H as (s & IT & -> & _ & NE).
  pose proof (loop_length _ _ _ _ IT) as L.
  pose proof (iterate_spec natural forced (fun it _ t => forall r, (r < List.length nodes)%nat -> m <= at_ t r) c nodes) as S.
  edestruct S as (Z & _); [| | exact IT |].
  - intros it es0 t es' fresh new T PA. apply (pass_lower natural forced c nodes it es0 t es' fresh new m PA); [|exact T].
    destruct PA as (_ & SV & _). apply solve_network_spec in SV. destruct SV as (_ & F & RG & B).
    apply (minimum_principle _ _ _ _ _ _ m F RG B).
    + intros r R X. apply free_iff in X; [|exact NE|exact R]. exact (P r X).
    + intros r R X. apply pinned_iff in X; [|exact NE|exact R]. destruct X as [X|X].
      * rewrite imposed_ambient by assumption. exact MA.
      * rewrite imposed_fixed by assumption. apply MF; exact X.
  - intros r R. rewrite at_start by exact R. exact MA.
  - intros r R. rewrite temperature_at by assumption. apply Z. exact R.
Qed.

Theorem C106_no_node_above_its_boundaries_without_losses : forall c nodes es res m,
  solve_thermal c nodes es = Ok res ->
  (forall r, free_node nodes r -> power_of nodes r <= 0) ->
  tc_ambient c <= m -> (forall r, fixed_node nodes r -> t_temperature (nth r nodes no_node) <= m) ->
  forall r, (r < List.length nodes)%nat -> temperature res r <= m.
Proof.
  intros c nodes es res m H P MA MF. apply solve_thermal_spec in H. destruct H as (s & IT & -> & _ & NE).
  pose proof (loop_length _ _ _ _ IT) as L.
  pose proof (iterate_spec natural forced (fun it _ t => forall r, (r < List.length nodes)%nat -> at_ t r <= m) c nodes) as S.
  edestruct S as (Z & _); [| | exact IT |].
  - intros it es0 t es' fresh new T PA. apply (pass_upper natural forced c nodes it es0 t es' fresh new m PA); [|exact T].
    destruct PA as (_ & SV & _). apply solve_network_spec in SV. destruct SV as (_ & F & RG & B).
    apply (maximum_principle _ _ _ _ _ _ m F RG B).
    + intros r R X. apply free_iff in X; [|exact NE|exact R]. exact (P r X).
    + intros r R X. apply pinned_iff in X; [|exact NE|exact R]. destruct X as [X|X].
      * rewrite imposed_ambient by assumption. exact MA.
      * rewrite imposed_fixed by assumption. apply MF; exact X.
  - intros r R. rewrite at_start by exact R. exact MA.
  - intros r R. rewrite temperature_at by assumption. apply Z. exact R.
Qed.

(** A component without losses, cooled by air alone, is at ambient temperature
    everywhere. *)
Theorem C106_unpowered_component_is_at_ambient : forall c nodes es res,
  solve_thermal c nodes es = Ok res ->
  (forall r, free_node nodes r -> power_of nodes r == 0) -> (forall r, ~ fixed_node nodes r) ->
  forall r, (r < List.length nodes)%nat -> temperature res r == tc_ambient c.
Proof.
  intros c nodes es res H P F r R. apply Qle_antisym.
  - eapply C106_no_node_above_its_boundaries_without_losses; eauto; try lra.
    + intros k K. rewrite (P k K). lra.
    + intros k K. exfalso. exact (F k K).
  - eapply C106_no_node_below_its_boundaries; eauto; try lra.
    + intros k K. rewrite (P k K). lra.
    + intros k K. exfalso. exact (F k K).
Qed.

Lemma leaving_bound : forall es x r tol, 0 <= tol ->
  (forall e, In e es -> Qabs (x (e_from e)) <= tol /\ Qabs (x (e_to e)) <= tol) ->
  Qabs (heat_leaving es x r) <= 2 * tol * meeting es r.
Proof.
  intros es x r tol T. unfold heat_leaving, meeting. induction es as [|e es IH]; intro H; cbn [map Qsum filter].
  - change (Qabs 0) with 0. lra.
  - assert (B : Qabs (leaving x r e) <= 2 * tol *
      (if Nat.eqb (e_from e) r || Nat.eqb (e_to e) r then 1 / Qmax (e_resistance e) (1 # 1000000000) else 0)).
    { destruct (H e (or_introl eq_refl)) as (H1 & H2).
      unfold leaving. rewrite (Nat.eqb_sym r (e_from e)), (Nat.eqb_sym r (e_to e)).
      assert (G : Qabs (heat e x) <= 2 * tol * (1 / Qmax (e_resistance e) (1 # 1000000000))).
      { unfold heat. rewrite Qabs_Qmult. pose proof (conductance_pos e) as C.
        rewrite (Qabs_pos (conductance e)) by lra. unfold conductance in *. rewrite Qmax_cmax in *.
        assert (D : Qabs (x (e_from e) - x (e_to e)) <= 2 * tol).
        { rewrite Qabs_Qle_condition in *. lra. }
        rewrite (Qmult_comm (2 * tol)). apply Qmult_le_l; [exact C | exact D]. }
      assert (Z : 0 <= 2 * tol * (1 / Qmax (e_resistance e) (1 # 1000000000))) by (pose proof (Qabs_nonneg (heat e x)); lra).
      destruct (Nat.eqb (e_from e) r), (Nat.eqb (e_to e) r); cbn [orb].
      - setoid_replace (heat e x - heat e x) with 0 by ring. exact Z.
      - setoid_replace (heat e x - 0) with (heat e x) by ring. exact G.
      - setoid_replace (0 - heat e x) with (- heat e x) by ring. rewrite Qabs_opp. exact G.
      - change (Qabs (0 - 0)) with 0. lra. }
    specialize (IH (fun d D => H d (or_intror D))).
    eapply Qle_trans; [apply Qabs_triangle|].
    destruct (Nat.eqb (e_from e) r || Nat.eqb (e_to e) r); cbn [map Qsum]; lra.
Qed.

(** Heat balance: in a converged result the heat that leaves a free node through
    the reported resistances is its loss, up to twice the tolerance times the
    conductances that meet there. *)
Theorem C106_converged_heat_balance : forall c nodes es res,
  solve_thermal c nodes es = Ok res -> tr_converged res = true -> 0 <= tc_tolerance c ->
  forall r, free_node nodes r ->
  Qabs (heat_out (tr_elements res) (temperature res) r - power_of nodes r)
  <= 2 * tc_tolerance c * meeting (tr_elements res) r.
Proof.
  intros c nodes es res H CV TOL r FR. apply solve_thermal_spec in H. destruct H as (s & IT & -> & _ & NE).
  pose proof (loop_length _ _ _ _ IT) as L. cbn in CV.
  pose proof (iterate_spec natural forced (fun _ _ _ => True) c nodes) as S.
  edestruct S as (_ & _ & _ & D); [| | exact IT |]; auto.
  destruct (D CV) as (it & es' & t' & fresh & _ & _ & PA & SE).
  pose proof (pass_near _ _ _ _ _ _ _ _ _ _ PA SE) as NR.
  destruct PA as (_ & SV & _). apply solve_network_spec in SV. destruct SV as (_ & F & RG & B).
  pose proof (proj1 FR) as R. pose proof (B r R) as BR.
  apply free_iff in FR; [|exact NE|exact R]. rewrite FR in BR. cbn [report tr_elements].
  rewrite heat_out_leaving.
  rewrite (heat_ext (List.length nodes) (l_elements s) (temperature (report c nodes s)) (at_ (l_temperatures s)) r F)
    by (intros k K; rewrite temperature_at by assumption; reflexivity).
  unfold power_of. unfold node_at in BR. rewrite <- BR.
  assert (E : heat_leaving (l_elements s) (at_ (l_temperatures s)) r - heat_leaving (l_elements s) (at_ fresh) r
    == heat_leaving (l_elements s) (fun k => 1 * at_ (l_temperatures s) k + -(1) * at_ fresh k) r)
    by (rewrite heat_linear; ring).
  rewrite E. apply leaving_bound; [exact TOL|]. intros e I.
  rewrite forallb_forall in F. specialize (F e I). unfold in_range in F. apply andb_true_iff in F.
  rewrite !Nat.ltb_lt in F. destruct F as (F1 & F2).
  split.
  - setoid_replace (1 * at_ (l_temperatures s) (e_from e) + -(1) * at_ fresh (e_from e))
      with (at_ (l_temperatures s) (e_from e) - at_ fresh (e_from e)) by ring. apply NR; assumption.
  - setoid_replace (1 * at_ (l_temperatures s) (e_to e) + -(1) * at_ fresh (e_to e))
      with (at_ (l_temperatures s) (e_to e) - at_ fresh (e_to e)) by ring. apply NR; assumption.
Qed.

(** No heat is lost on the way: what leaves the free nodes arrives at the
    boundaries, for any temperatures at all. *)
Theorem C106_heat_reaches_the_boundaries : forall c nodes es res,
  solve_thermal c nodes es = Ok res -> (1 <= tc_max_iterations c)%nat ->
  Qsum (map (heat_out (tr_elements res) (temperature res)) (seq 0 (List.length nodes))) == 0.
Proof.
  intros c nodes es res H M. apply solve_thermal_spec in H. destruct H as (s & IT & -> & _ & NE).
  pose proof (iterate_spec natural forced (fun it es _ => it = O \/ forallb (in_range (List.length nodes)) es = true) c nodes) as S.
  edestruct S as (Z & B & C & D); [| | exact IT |].
  - intros it es0 t es' fresh new _ (_ & SV & _). right. apply solve_network_spec in SV. apply SV.
  - left. reflexivity.
  - assert (F : forallb (in_range (List.length nodes)) (l_elements s) = true).
    { destruct Z as [Z|Z]; [|exact Z]. destruct (l_converged s) eqn:CV.
      - destruct (D eq_refl) as (it' & _ & _ & _ & E & _). congruence.
      - specialize (C eq_refl). lia. }
    rewrite <- (heat_conserved (List.length nodes) (l_elements s) (temperature (report c nodes s)) F).
    cbn [report tr_elements]. generalize (temperature (report c nodes s)). intro t.
    clear. generalize (List.length nodes). induction n as [|n IH]; [reflexivity|].
    rewrite seq_S, map_app, Qsum_app, IH. cbn [map Qsum sum Nat.add]. rewrite heat_out_leaving. lra.
Qed.

(** The reported resistances belong to the reported temperatures: when the loop
    converged after recalculating, each of them was evaluated at temperatures
    within the tolerance of the reported ones. *)
Definition evaluated (c : thermal_config) (t : nat -> Q) (e : element) : Prop :=
  0 < e_area e ->
  exists h length, tc_height c = Some length /\ 0 < length /\
  match e_kind e with
  | NATURAL_CONVECTION => h = natural (t (e_from e)) (tc_ambient c) length (e_orientation e)
  | FORCED_CONVECTION => h = forced (tc_velocity c) length (t (e_from e))
  | RADIATION => h = radiation_coefficient (t (e_from e)) (t (e_to e)) (tc_emissivity c)
  | _ => h = 0
  end /\ (0 < h -> e_resistance e * (h * e_area e) == 1).
Theorem C106_resistances_match_temperatures : forall c nodes es res,
  solve_thermal c nodes es = Ok res -> tr_converged res = true -> (2 <= tr_iterations res)%nat ->
  exists before, (forall r, (r < List.length nodes)%nat -> Qabs (temperature res r - before r) <= tc_tolerance c) /\
    forall e, In e (tr_elements res) -> evaluated c before e.
Proof.
  intros c nodes es res H CV TWO. apply solve_thermal_spec in H. destruct H as (s & IT & -> & _ & NE).
  pose proof (loop_length _ _ _ _ IT) as L. cbn in CV, TWO.
  pose proof (iterate_spec natural forced (fun _ _ t => List.length t = List.length nodes) c nodes) as S.
  edestruct S as (_ & _ & _ & D); [| | exact IT |].
  { intros it0 es0 t0 es1 fresh0 new0 _ P. eapply pass_length. exact P. }
  { apply repeat_length. }
  destruct (D CV) as (it & es' & t' & fresh & EQ & LT & PA & SE).
  exists (at_ t'). split.
  - intros r R. rewrite temperature_at by assumption. apply (settled_at _ _ _ _ SE r R).
  - destruct PA as (RC & SV & _). destruct it as [|it]; [lia|]. cbn [report tr_elements].
    apply solve_network_spec in SV. destruct SV as (_ & F & _).
    unfold recalculate in RC. destruct (tc_height c) as [h|] eqn:HC; [|discriminate].
    destruct (Qle_bool h 0) eqn:HP; [discriminate|]. qb. injection RC as RC.
    intros e I A. rewrite <- RC in I. apply in_map_iff in I. destruct I as (d & ED & I).
    rewrite forallb_forall in F.
    assert (FD : in_range (List.length nodes) e = true).
    { apply F. rewrite <- RC, <- ED. apply in_map. exact I. }
    destruct (recalculate_links natural forced c h t' d) as (K1 & K2 & K3 & K4 & K5). rewrite ED in K1, K2, K3, K4, K5.
    unfold in_range in FD. apply andb_true_iff in FD. rewrite !Nat.ltb_lt in FD. destruct FD as (F1 & F2).
    unfold recalculate_one in ED.
    replace (Nat.leb (List.length t') (e_from d)) with false in ED by (symmetry; apply Nat.leb_gt; rewrite <- K1, LT; exact F1).
    replace (Qlt_bool 0 (e_area d)) with true in ED by (symmetry; apply Qlt_bool_iff; rewrite <- K4; exact A).
    replace (Nat.ltb (e_to d) (List.length t')) with true in ED by (symmetry; apply Nat.ltb_lt; rewrite <- K2, LT; exact F2).
    assert (U : forall v, update_resistance d v = e -> 0 < v -> e_resistance e * (v * e_area e) == 1).
    { intros v E P. unfold update_resistance in E. replace (Qlt_bool 0 v) with true in E by (symmetry; apply Qlt_bool_iff; exact P).
      rewrite <- E. cbn [with_resistance e_resistance e_area]. rewrite Qred_correct. rewrite K4 in A. field. split; lra. }
    destruct (e_kind d); rewrite K3, ?K1, ?K2, ?K5.
    + exists 0, h. split; [exact HC|]. split; [lra|]. split; [reflexivity|]. intros X. exfalso. revert X. apply Qlt_irrefl.
    + eexists _, h. split; [exact HC|]. split; [lra|]. split; [reflexivity|]. intro X. apply U; assumption.
    + eexists _, h. split; [exact HC|]. split; [lra|]. split; [reflexivity|]. intro X. apply U; assumption.
    + eexists _, h. split; [exact HC|]. split; [lra|]. split; [reflexivity|]. intro X. apply U; assumption.
    + exists 0, h. split; [exact HC|]. split; [lra|]. split; [reflexivity|]. intros X. exfalso. revert X. apply Qlt_irrefl.
Qed.

(** The links of the network are never touched by the iteration. *)
Theorem C106_network_keeps_its_links : forall c nodes es res,
  solve_thermal c nodes es = Ok res ->
  map (fun e => (e_from e, e_to e, e_kind e, e_area e, e_orientation e)) (tr_elements res)
  = map (fun e => (e_from e, e_to e, e_kind e, e_area e, e_orientation e)) es.
Proof.
  intros c nodes es res H. apply solve_thermal_spec in H. destruct H as (s & IT & -> & _ & NE).
  set (f := fun e => (e_from e, e_to e, e_kind e, e_area e, e_orientation e)).
  pose proof (iterate_spec natural forced (fun _ es' _ => map f es' = map f es) c nodes) as S.
  edestruct S as (Z & _); [| | exact IT | exact Z]; [|reflexivity].
  intros it es0 t es' fresh new I (RC & _). destruct it; [injection RC as <-; exact I|].
  unfold recalculate in RC. destruct (tc_height c) as [h|]; [|discriminate].
  destruct (Qle_bool h 0); [discriminate|]. injection RC as <-. rewrite map_map, <- I. apply map_ext. intro e.
  destruct (recalculate_links natural forced c h t e) as (K1 & K2 & K3 & K4 & K5). unfold f. congruence.
Qed.

(** The loop ends: never more than the allowed iterations; an unconverged result
    used all of them and is never returned where convergence is required. *)
Theorem C106_convergence_is_reported : forall c nodes es res,
  solve_thermal c nodes es = Ok res ->
  (tr_iterations res <= tc_max_iterations c)%nat /\
  (tr_converged res = false -> tr_iterations res = tc_max_iterations c /\ tc_require c = false) /\
  (tc_max_iterations c = 0%nat -> tr_converged res = false).
Proof.
  intros c nodes es res H. apply solve_thermal_spec in H. destruct H as (s & IT & -> & RQ & NE). cbn.
  pose proof (iterate_spec natural forced (fun _ _ _ => True) c nodes) as S.
  edestruct S as (_ & B & C & D); [| | exact IT |]; auto.
  split; [lia|]. split.
  - intro F. split; [rewrite (C F); lia|]. destruct (tc_require c); [|reflexivity]. rewrite (RQ eq_refl) in F. discriminate.
  - intro Z. destruct (l_converged s) eqn:CV; [|reflexivity].
    destruct (D eq_refl) as (it & _ & _ & _ & E & _). lia.
Qed.

(** A part of the network that no element joins to a boundary is refused. *)
Theorem C106_isolated_part_is_refused : forall c nodes es island,
  (1 <= tc_max_iterations c)%nat -> (exists r, island r = true) ->
  (forall r, island r = true -> free_node nodes r) ->
  (forall e, In e es -> island (e_from e) = island (e_to e)) ->
  forall res, solve_thermal c nodes es <> Ok res.
Proof.
  intros c nodes es island M (k & K) FR CL res H. apply solve_thermal_spec in H. destruct H as (s & IT & _ & _ & NE).
  destruct (tc_max_iterations c) as [|m]; [lia|]. cbn [iterate bind] in IT.
  destruct (solve_network (tc_ambient c) nodes es) as [t| | |] eqn:SV; cbn [bind] in IT; try discriminate.
  apply solve_network_spec in SV. destruct SV as (_ & F & RG & _).
  pose proof (FR k K) as FK. pose proof (RG (fun r => if island r then 1 else 0)) as Z.
  assert (X : (if island k then 1 else 0) == 0).
  { apply Z; [|exact (proj1 FK)]. intros r R. destruct (pinned nodes r) eqn:P.
    - destruct (island r) eqn:I; [|reflexivity]. apply FR in I. apply free_iff in I; [|exact NE|exact R]. congruence.
    - unfold heat_leaving.
      assert (A : forall e, In e es -> leaving (fun r => if island r then 1 else 0) r e == 0).
      { intros e I. unfold leaving, heat. rewrite (CL e I).
        destruct (Nat.eqb r (e_from e)), (Nat.eqb r (e_to e)), (island (e_to e)); lra. }
      clear - A. induction es as [|d es' IH]; cbn [map Qsum]; [reflexivity|].
      rewrite IH by (intros; apply A; right; assumption). rewrite A by (left; reflexivity). reflexivity. }
  rewrite K in X. discriminate.
Qed.

(** ** C107: networks of constant resistances *)

(** No temperature changes any resistance: conduction and heat sinks only. *)
Definition constant_network (es : list element) : Prop :=
  forall e, In e es -> e_kind e = CONDUCTION \/ e_kind e = HEATSINK_CONVECTION \/ e_area e <= 0.

Lemma constant_forall : forall es, constant_network es -> Forall constant es.
Proof. intros es H. apply Forall_forall. exact H. Qed.

Lemma constant_result : forall c nodes es res, solve_thermal c nodes es = Ok res -> constant_network es ->
  (1 <= tc_max_iterations c)%nat ->
  exists t, solve_network (tc_ambient c) nodes es = Ok t /\ tr_elements res = es /\
    forall r, (r < List.length nodes)%nat -> temperature res r == at_ t r.
Proof.
  intros c nodes es res H CN M. apply constant_forall in CN.
  apply solve_thermal_spec in H. destruct H as (s & IT & -> & _ & NE).
  pose proof (loop_length _ _ _ _ IT) as L.
  assert (SV : exists t, solve_network (tc_ambient c) nodes es = Ok t).
  { destruct (tc_max_iterations c) as [|m]; [lia|]. cbn [iterate bind] in IT.
    destruct (solve_network (tc_ambient c) nodes es) as [t| | |]; cbn [bind] in IT; try discriminate. eauto. }
  destruct SV as (t & SV). exists t. split; [exact SV|].
  pose proof (iterate_spec natural forced (fun it es' t' => es' = es /\ (it = O \/
    forall r, (r < List.length nodes)%nat -> at_ t' r == at_ t r)) c nodes) as S.
  edestruct S as ((E & Z) & B & C & D); [| | exact IT |].
  - intros it es0 t0 es' fresh new (-> & I) (RC & SV' & ->).
    assert (es' = es).
    { destruct it; [congruence|]. eapply recalculate_constant; eassumption. }
    subst es'. split; [reflexivity|]. right. rewrite SV in SV'. injection SV' as <-.
    intros r R. destruct it; [reflexivity|]. rewrite relaxed_at by exact R.
    destruct I as [I|I]; [discriminate|]. specialize (I r R). destruct (pinned nodes r); lra.
  - split; [reflexivity | left; reflexivity].
  - split; [exact E|]. intros r R. rewrite temperature_at by assumption.
    destruct Z as [Z|Z]; [|apply Z; exact R]. exfalso. destruct (l_converged s) eqn:CV.
    + destruct (D eq_refl) as (it' & _ & _ & _ & EI & _). congruence.
    + specialize (C eq_refl). lia.
Qed.

(** A network of constant resistances settles at once. *)
Theorem C107_constant_network_converges : forall c nodes es res,
  solve_thermal c nodes es = Ok res -> constant_network es -> 0 <= tc_tolerance c ->
  (tr_iterations res <= 2)%nat /\ ((2 <= tc_max_iterations c)%nat -> tr_converged res = true).
Proof.
  intros c nodes es res H CN TOL. apply constant_forall in CN.
  apply solve_thermal_spec in H. destruct H as (s & IT & -> & _ & NE). cbn [report tr_iterations tr_converged].
  destruct (tc_max_iterations c) as [|m]; cbn [iterate] in IT; [injection IT as <-; cbn; split; lia|]. cbn [bind] in IT.
  destruct (solve_network (tc_ambient c) nodes es) as [t| | |] eqn:SV; cbn [bind] in IT; try discriminate.
  destruct (settled _ _ _ _); [injection IT as <-; cbn; split; [lia | reflexivity]|].
  destruct m as [|m]; cbn [iterate] in IT; [injection IT as <-; cbn; split; lia|].
  destruct (recalculate natural forced c t es) as [es'| | |] eqn:RC; cbn [bind] in IT; try discriminate.
  apply recalculate_constant in RC; [|exact CN]. subst es'. rewrite SV in IT. cbn [bind] in IT.
  assert (SE : settled (List.length nodes) (tc_tolerance c) (relaxed nodes t t) t = true).
  { unfold settled. apply forallb_forall. intros r R. apply in_seq in R. apply negb_true_iff, Qlt_bool_false.
    rewrite relaxed_at by lia.
    setoid_replace ((if pinned nodes r then at_ t r else (1 # 2) * at_ t r + (1 # 2) * at_ t r) - at_ t r) with 0
      by (destruct (pinned nodes r); ring). exact TOL. }
  rewrite SE in IT. injection IT as <-. cbn. split; [lia | reflexivity].
Qed.

Lemma constant_balance : forall c nodes es res, solve_thermal c nodes es = Ok res -> constant_network es ->
  (1 <= tc_max_iterations c)%nat ->
  nodes <> [] /\ tr_elements res = es /\ forallb (in_range (List.length nodes)) es = true /\
  rigid (List.length nodes) es (pinned nodes) /\
  balance (List.length nodes) es (pinned nodes) (imposed (tc_ambient c) nodes) (power_of nodes) (temperature res).
Proof.
  intros c nodes es res H CN M. pose proof (constant_result c nodes es res H CN M) as (t & SV & E & T).
  apply solve_thermal_spec in H. destruct H as (_ & _ & _ & _ & NE).
  apply solve_network_spec in SV. destruct SV as (_ & F & RG & B).
  split; [exact NE|]. split; [exact E|]. split; [exact F|]. split; [exact RG|].
  intros r R. specialize (B r R). destruct (pinned nodes r); [rewrite (T r R); exact B|].
  rewrite (heat_ext (List.length nodes) es _ (at_ t) r F T). exact B.
Qed.

(** Exact heat balance at every free node. *)
Theorem C107_exact_heat_balance : forall c nodes es res,
  solve_thermal c nodes es = Ok res -> constant_network es -> (1 <= tc_max_iterations c)%nat ->
  forall r, free_node nodes r -> heat_out es (temperature res) r == power_of nodes r.
Proof.
  intros c nodes es res H CN M r FR. destruct (constant_balance c nodes es res H CN M) as (NE & _ & _ & _ & B).
  pose proof (proj1 FR) as R. specialize (B r R). apply free_iff in FR; [|exact NE|exact R].
  rewrite FR in B. rewrite heat_out_leaving. exact B.
Qed.

(** The losses of the free nodes all arrive at the boundaries. *)
Theorem C107_all_losses_reach_the_boundaries : forall c nodes es res,
  solve_thermal c nodes es = Ok res -> constant_network es -> (1 <= tc_max_iterations c)%nat ->
  (forall r, ~ fixed_node nodes r) -> forall a, ambient_node nodes a ->
  - heat_out es (temperature res) a
  == Qsum (map (fun r => if Nat.eqb r a then 0 else power_of nodes r) (seq 0 (List.length nodes))).
Proof.
  intros c nodes es res H CN M NF a A.
  pose proof (C107_exact_heat_balance c nodes es res H CN M) as B.
  destruct (constant_balance c nodes es res H CN M) as (NE & E & F & _ & _).
  pose proof (heat_conserved (List.length nodes) es (temperature res) F) as C.
  assert (S : sum (List.length nodes) (fun r => heat_leaving es (temperature res) r)
    == sum (List.length nodes) (fun r => (if Nat.eqb r a then 0 else power_of nodes r)
         + (if Nat.eqb r a then heat_out es (temperature res) a else 0))).
  { apply sum_ext. intros r R. rewrite <- heat_out_leaving. destruct (Nat.eqb_spec r a) as [->|N]; [ring|].
    rewrite B; [ring|]. apply free_iff; [exact NE | exact R |].
    destruct (pinned nodes r) eqn:P; [|reflexivity]. apply pinned_iff in P; [|exact NE|exact R].
    destruct P as [P|P]; [|exfalso; exact (NF r P)]. exfalso. apply N.
    apply ambient_node_index in P; [|exact NE]. apply ambient_node_index in A; [|exact NE]. congruence. }
  rewrite sum_update in S by exact (proj1 A). rewrite S in C.
  assert (G : forall n f, sum n f == Qsum (map f (seq 0 n))).
  { clear. induction n as [|n IH]; intro f; [reflexivity|]. rewrite seq_S, map_app, Qsum_app. cbn [sum map Qsum Nat.add].
    rewrite IH. ring. }
  rewrite <- G. lra.
Qed.

(** The balance decides the temperatures: no other assignment satisfies it. *)
Theorem C107_temperatures_are_unique : forall c nodes es res other,
  solve_thermal c nodes es = Ok res -> constant_network es -> (1 <= tc_max_iterations c)%nat ->
  (forall a, ambient_node nodes a -> other a == tc_ambient c) ->
  (forall r, fixed_node nodes r -> other r == t_temperature (nth r nodes no_node)) ->
  (forall r, free_node nodes r -> heat_out es other r == power_of nodes r) ->
  forall r, (r < List.length nodes)%nat -> temperature res r == other r.
Proof.
  intros c nodes es res other H CN M OA OF OB. destruct (constant_balance c nodes es res H CN M) as (NE & _ & F & RG & B).
  apply (balance_unique _ es (pinned nodes) (imposed (tc_ambient c) nodes) (power_of nodes)); auto.
  intros r R. destruct (pinned nodes r) eqn:P.
  - apply pinned_iff in P; [|exact NE|exact R]. destruct P as [P|P].
    + rewrite imposed_ambient by assumption. apply OA; exact P.
    + rewrite imposed_fixed by assumption. apply OF; exact P.
  - apply free_iff in P; [|exact NE|exact R]. rewrite <- heat_out_leaving. apply OB; exact P.
Qed.

(** Two sets of losses and boundary temperatures on one network. *)
Definition same_network (nodes1 nodes2 : list thermal_node) : Prop :=
  map t_part nodes1 = map t_part nodes2 /\ map t_fixed nodes1 = map t_fixed nodes2.

Lemma same_length : forall l m, same_network l m -> List.length l = List.length m.
Proof. intros l m (H & _). rewrite <- (map_length t_part l), H, map_length. reflexivity. Qed.
Lemma same_pinned : forall l m, same_network l m -> forall r, pinned l r = pinned m r.
Proof.
  intros l m S r. pose proof (same_length l m S) as L. destruct S as (P & F). unfold pinned, ambient_index.
  rewrite (first_ambient_parts l m 0 P), L. f_equal. unfold node_at.
  change false with (t_fixed no_node) in *.
  transitivity (nth r (map t_fixed l) (t_fixed no_node)); [symmetry; apply map_nth|]. rewrite F. apply map_nth.
Qed.
Lemma same_ambient_index : forall l m, same_network l m -> ambient_index l = ambient_index m.
Proof.
  intros l m S. pose proof (same_length l m S) as L. destruct S as (P & F). unfold ambient_index.
  rewrite (first_ambient_parts l m 0 P), L. reflexivity.
Qed.
Lemma same_nodes : forall l m, same_network l m -> l <> [] -> forall r,
  (ambient_node l r <-> ambient_node m r) /\ (fixed_node l r <-> fixed_node m r).
Proof.
  intros l m S NE r. pose proof (same_length l m S) as L.
  assert (NM : m <> []) by (intro Z; subst m; destruct l; [contradiction | discriminate]).
  assert (A : ambient_node l r <-> ambient_node m r).
  { rewrite !ambient_node_index by assumption. rewrite (same_ambient_index l m S). reflexivity. }
  split; [exact A|]. unfold fixed_node. rewrite L, A.
  assert (E : t_fixed (nth r l no_node) = t_fixed (nth r m no_node)).
  { rewrite <- !(map_nth t_fixed). rewrite (proj2 S). reflexivity. }
  rewrite E. reflexivity.
Qed.

(** More losses, a warmer ambient or warmer fixed nodes never cool any node. *)
Theorem C107_monotone : forall c1 nodes1 res1 c2 nodes2 res2 es,
  solve_thermal c1 nodes1 es = Ok res1 -> solve_thermal c2 nodes2 es = Ok res2 -> constant_network es ->
  (1 <= tc_max_iterations c1)%nat -> (1 <= tc_max_iterations c2)%nat -> same_network nodes1 nodes2 ->
  tc_ambient c1 <= tc_ambient c2 ->
  (forall r, fixed_node nodes1 r -> t_temperature (nth r nodes1 no_node) <= t_temperature (nth r nodes2 no_node)) ->
  (forall r, free_node nodes1 r -> power_of nodes1 r <= power_of nodes2 r) ->
  forall r, (r < List.length nodes1)%nat -> temperature res1 r <= temperature res2 r.
Proof.
  intros c1 nodes1 res1 c2 nodes2 res2 es H1 H2 CN M1 M2 SN LA LF LP.
  destruct (constant_balance c1 nodes1 es res1 H1 CN M1) as (NE1 & _ & F & RG & B1).
  destruct (constant_balance c2 nodes2 es res2 H2 CN M2) as (NE2 & _ & _ & _ & B2).
  rewrite <- (same_length _ _ SN) in B2.
  assert (B2' : balance (List.length nodes1) es (pinned nodes1) (imposed (tc_ambient c2) nodes2) (power_of nodes2) (temperature res2)).
  { intros r R. rewrite (same_pinned _ _ SN r). apply B2. exact R. }
  apply (balance_monotone _ _ _ _ _ _ _ _ _ F RG B1 B2').
  - intros r R X. apply LP. apply free_iff; assumption.
  - intros r R X. apply pinned_iff in X; [|exact NE1|exact R]. destruct X as [X|X].
    + rewrite imposed_ambient by assumption. rewrite imposed_ambient; [exact LA | exact NE2 | apply (same_nodes _ _ SN NE1 r); exact X].
    + rewrite imposed_fixed by assumption. rewrite imposed_fixed; [apply LF; exact X | exact NE2 | apply (same_nodes _ _ SN NE1 r); exact X].
Qed.

(** Superposition: combined losses and boundary temperatures give the combined
    temperatures. *)
Theorem C107_superposition : forall a b c1 nodes1 res1 c2 nodes2 res2 c3 nodes3 res3 es,
  solve_thermal c1 nodes1 es = Ok res1 -> solve_thermal c2 nodes2 es = Ok res2 ->
  solve_thermal c3 nodes3 es = Ok res3 -> constant_network es ->
  (1 <= tc_max_iterations c1)%nat -> (1 <= tc_max_iterations c2)%nat -> (1 <= tc_max_iterations c3)%nat ->
  same_network nodes1 nodes3 -> same_network nodes2 nodes3 ->
  tc_ambient c3 == a * tc_ambient c1 + b * tc_ambient c2 ->
  (forall r, fixed_node nodes3 r -> t_temperature (nth r nodes3 no_node)
     == a * t_temperature (nth r nodes1 no_node) + b * t_temperature (nth r nodes2 no_node)) ->
  (forall r, free_node nodes3 r -> power_of nodes3 r == a * power_of nodes1 r + b * power_of nodes2 r) ->
  forall r, (r < List.length nodes3)%nat -> temperature res3 r == a * temperature res1 r + b * temperature res2 r.
Proof.
  intros a b c1 nodes1 res1 c2 nodes2 res2 c3 nodes3 res3 es H1 H2 H3 CN M1 M2 M3 S1 S2 LA LF LP.
  destruct (constant_balance c1 nodes1 es res1 H1 CN M1) as (NE1 & _ & _ & _ & B1).
  destruct (constant_balance c2 nodes2 es res2 H2 CN M2) as (NE2 & _ & _ & _ & B2).
  destruct (constant_balance c3 nodes3 es res3 H3 CN M3) as (NE3 & _ & F & RG & B3).
  rewrite (same_length _ _ S1) in B1. rewrite (same_length _ _ S2) in B2.
  assert (B1' : balance (List.length nodes3) es (pinned nodes3) (imposed (tc_ambient c1) nodes1) (power_of nodes1) (temperature res1)).
  { intros r R. rewrite <- (same_pinned _ _ S1 r). apply B1. exact R. }
  assert (B2' : balance (List.length nodes3) es (pinned nodes3) (imposed (tc_ambient c2) nodes2) (power_of nodes2) (temperature res2)).
  { intros r R. rewrite <- (same_pinned _ _ S2 r). apply B2. exact R. }
  pose proof (balance_linear _ _ _ a _ _ _ b _ _ _ B1' B2') as BL. cbn beta in BL.
  assert (SY : forall l m, same_network l m -> same_network m l) by (intros l m (X & Y); split; symmetry; assumption).
  intros r R.
  pose proof (balance_unique (List.length nodes3) es (pinned nodes3) (imposed (tc_ambient c3) nodes3) (power_of nodes3)
    (temperature res3) (fun r => a * temperature res1 r + b * temperature res2 r) RG B3) as U. cbn beta in U.
  apply U; [|exact R]. clear U r R.
  intros r R. specialize (BL r R). destruct (pinned nodes3 r) eqn:P; cbn beta in BL |- *; rewrite BL.
  - apply pinned_iff in P; [|exact NE3|exact R]. destruct P as [P|P].
    + rewrite !imposed_ambient; try assumption; try (symmetry; exact LA);
        [apply (same_nodes _ _ (SY _ _ S2) NE3 r); exact P | apply (same_nodes _ _ (SY _ _ S1) NE3 r); exact P].
    + rewrite !imposed_fixed; try assumption; [symmetry; apply LF; exact P | |];
        [apply (same_nodes _ _ (SY _ _ S2) NE3 r); exact P | apply (same_nodes _ _ (SY _ _ S1) NE3 r); exact P].
  - apply free_iff in P; [|exact NE3|exact R]. symmetry. apply LP. exact P.
Qed.

(** Reciprocity: with air as the only boundary, losses of one case weighted by
    the temperature rises of another equal the converse. *)
Theorem C107_reciprocity : forall c1 nodes1 res1 c2 nodes2 res2 es,
  solve_thermal c1 nodes1 es = Ok res1 -> solve_thermal c2 nodes2 es = Ok res2 -> constant_network es ->
  (1 <= tc_max_iterations c1)%nat -> (1 <= tc_max_iterations c2)%nat -> same_network nodes1 nodes2 ->
  (forall r, ~ fixed_node nodes1 r) ->
  Qsum (map (fun r => power_of nodes1 r * (temperature res2 r - tc_ambient c2)) (seq 0 (List.length nodes1)))
  == Qsum (map (fun r => power_of nodes2 r * (temperature res1 r - tc_ambient c1)) (seq 0 (List.length nodes1))).
Proof.
  intros c1 nodes1 res1 c2 nodes2 res2 es H1 H2 CN M1 M2 SN NF.
  destruct (constant_balance c1 nodes1 es res1 H1 CN M1) as (NE1 & _ & F & _ & B1).
  destruct (constant_balance c2 nodes2 es res2 H2 CN M2) as (NE2 & _ & _ & _ & B2).
  rewrite <- (same_length _ _ SN) in B2.
  set (n := List.length nodes1) in *.
  set (u := fun r => temperature res1 r - tc_ambient c1). set (w := fun r => temperature res2 r - tc_ambient c2).
  assert (SH : forall t v r, heat_leaving es (fun k => t k - v) r == heat_leaving es t r).
  { intros t v r. transitivity (heat_leaving es (fun k => 1 * t k + -(1) * (fun _ => v) k) r).
    - apply (heat_ext n); [exact F|]. intros. ring.
    - rewrite heat_linear, heat_constant. ring. }
  assert (E1 : forall r, (r < n)%nat -> power_of nodes1 r * w r == w r * heat_leaving es u r).
  { intros r R. unfold u. rewrite SH. specialize (B1 r R). specialize (B2 r R). rewrite <- (same_pinned _ _ SN r) in B2.
    destruct (pinned nodes1 r) eqn:P.
    - apply pinned_iff in P; [|exact NE1|exact R]. destruct P as [P|P]; [|exfalso; exact (NF r P)].
      apply (proj1 (proj1 (same_nodes _ _ SN NE1 r))) in P. rewrite imposed_ambient in B2 by assumption.
      assert (W : w r == 0) by (unfold w; rewrite B2; ring). rewrite W. ring.
    - rewrite B1. ring. }
  assert (E2 : forall r, (r < n)%nat -> power_of nodes2 r * u r == u r * heat_leaving es w r).
  { intros r R. unfold w. rewrite SH. specialize (B1 r R). specialize (B2 r R). rewrite <- (same_pinned _ _ SN r) in B2.
    destruct (pinned nodes1 r) eqn:P.
    - apply pinned_iff in P; [|exact NE1|exact R]. destruct P as [P|P]; [|exfalso; exact (NF r P)].
      rewrite imposed_ambient in B1 by assumption.
      assert (W : u r == 0) by (unfold u; rewrite B1; ring). rewrite W. ring.
    - rewrite B2. ring. }
  assert (G : forall n f, sum n f == Qsum (map f (seq 0 n))).
  { clear. induction n as [|n IH]; intro f; [reflexivity|]. rewrite seq_S, map_app, Qsum_app. cbn [sum map Qsum Nat.add].
    rewrite IH. ring. }
  change (fun r => power_of nodes1 r * (temperature res2 r - tc_ambient c2)) with (fun r => power_of nodes1 r * w r).
  change (fun r => power_of nodes2 r * (temperature res1 r - tc_ambient c1)) with (fun r => power_of nodes2 r * u r).
  rewrite <- !G. rewrite (sum_ext n _ _ E1), (sum_ext n _ _ E2). apply heat_symmetric. exact F.
Qed.

End Properties.
