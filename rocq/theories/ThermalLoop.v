(** Lemmas about the fixed-point iteration of the thermal network. *)
From Coq Require Import ZArith QArith Qabs List String Bool Lia Lra Lqa.
From Verif Require Import Base QAux StrMap NetworkModel NetworkProofs ThermalModel ThermalProofs.
Import ListNotations.
Open Scope Q_scope.

Section Loop.
Variable natural : Q -> Q -> Q -> surface_orientation -> Q.
Variable forced : Q -> Q -> Q -> Q.

(** One pass of the loop: from resistances and temperatures to the next ones. *)
Definition pass (c : thermal_config) (nodes : list thermal_node) (it : nat) (es : list element) (t : list Q)
  (es' : list element) (fresh new : list Q) : Prop :=
  match it with O => Ok es | _ => recalculate natural forced c t es end = Ok es' /\
  solve_network (tc_ambient c) nodes es' = Ok fresh /\
  new = match it with O => fresh | _ => relaxed nodes fresh t end.

Lemma iterate_spec : forall (I : nat -> list element -> list Q -> Prop) c nodes,
  (forall it es t es' fresh new, I it es t -> pass c nodes it es t es' fresh new -> I (S it) es' new) ->
  forall n it es t s, I it es t -> iterate natural forced n c nodes it es t = Ok s ->
  I (l_iteration s) (l_elements s) (l_temperatures s) /\
  (it <= l_iteration s <= it + n)%nat /\
  (l_converged s = false -> l_iteration s = (it + n)%nat) /\
  (l_converged s = true -> exists it' es' t' fresh, l_iteration s = S it' /\ I it' es' t' /\
     pass c nodes it' es' t' (l_elements s) fresh (l_temperatures s) /\
     settled (List.length nodes) (tc_tolerance c) (l_temperatures s) t' = true).
Proof.
  intros I c nodes ST. induction n as [|n IH]; intros it es t s H E; cbn [iterate] in E.
  - injection E as <-. cbn. split; [exact H|]. split; [lia|]. split; [intros; lia | discriminate].
  - destruct (match it with O => Ok es | _ => recalculate natural forced c t es end) as [es'| | |] eqn:R;
      cbn [bind] in E; try discriminate.
    destruct (solve_network (tc_ambient c) nodes es') as [fresh| | |] eqn:SV; cbn [bind] in E; try discriminate.
    set (new := match it with O => fresh | _ => relaxed nodes fresh t end) in *.
    assert (P : pass c nodes it es t es' fresh new) by (split; [exact R|]; split; [exact SV | reflexivity]).
    pose proof (ST _ _ _ _ _ _ H P) as H'.
    destruct (settled (List.length nodes) (tc_tolerance c) new t) eqn:SE.
    + injection E as <-. cbn. split; [exact H'|]. split; [lia|]. split; [discriminate|].
      intros _. exists it, es, t, fresh. repeat split; auto.
    + destruct (IH _ _ _ _ H' E) as (A & B & C & D). split; [exact A|]. split; [lia|]. split; [|exact D].
      intro F. rewrite (C F). lia.
Qed.

Lemma relaxed_length : forall nodes fresh old, List.length (relaxed nodes fresh old) = List.length nodes.
Proof. intros. unfold relaxed. rewrite map_length, seq_length. reflexivity. Qed.

Lemma relaxed_at : forall nodes fresh old r, (r < List.length nodes)%nat ->
  at_ (relaxed nodes fresh old) r ==
  if pinned nodes r then at_ fresh r else (1 # 2) * at_ fresh r + (1 # 2) * at_ old r.
Proof.
  intros nodes fresh old r R. unfold relaxed, at_ at 1. rewrite nth_map_seq by exact R.
  destruct (pinned nodes r); [reflexivity | apply Qred_correct].
Qed.

Lemma pass_length : forall c nodes it es t es' fresh new, pass c nodes it es t es' fresh new ->
  List.length new = List.length nodes.
Proof.
  intros c nodes it es t es' fresh new (_ & S & ->). destruct it; [|apply relaxed_length].
  apply solve_network_spec in S. apply S.
Qed.

(** A bound kept by every fresh solution is kept by every relaxed one. *)
Lemma pass_lower : forall c nodes it es t es' fresh new m, pass c nodes it es t es' fresh new ->
  (forall r, (r < List.length nodes)%nat -> m <= at_ fresh r) ->
  (forall r, (r < List.length nodes)%nat -> m <= at_ t r) ->
  forall r, (r < List.length nodes)%nat -> m <= at_ new r.
Proof.
  intros c nodes it es t es' fresh new m (_ & _ & ->) F T r R. destruct it; [apply F; exact R|].
  rewrite relaxed_at by exact R. specialize (F r R). specialize (T r R). destruct (pinned nodes r); lra.
Qed.
Lemma pass_upper : forall c nodes it es t es' fresh new m, pass c nodes it es t es' fresh new ->
  (forall r, (r < List.length nodes)%nat -> at_ fresh r <= m) ->
  (forall r, (r < List.length nodes)%nat -> at_ t r <= m) ->
  forall r, (r < List.length nodes)%nat -> at_ new r <= m.
Proof.
  intros c nodes it es t es' fresh new m (_ & _ & ->) F T r R. destruct it; [apply F; exact R|].
  rewrite relaxed_at by exact R. specialize (F r R). specialize (T r R). destruct (pinned nodes r); lra.
Qed.

Lemma pass_pinned : forall c nodes it es t es' fresh new, pass c nodes it es t es' fresh new ->
  forall r, (r < List.length nodes)%nat -> pinned nodes r = true -> at_ new r == imposed (tc_ambient c) nodes r.
Proof.
  intros c nodes it es t es' fresh new (_ & S & ->) r R P.
  apply solve_network_spec in S. destruct S as (_ & _ & _ & B). specialize (B r R). rewrite P in B.
  destruct it; [exact B|]. rewrite relaxed_at by exact R. rewrite P. exact B.
Qed.

Lemma settled_at : forall n tol new old, settled n tol new old = true ->
  forall r, (r < n)%nat -> Qabs (at_ new r - at_ old r) <= tol.
Proof.
  intros n tol new old H r R. unfold settled in H. rewrite forallb_forall in H.
  specialize (H r (proj2 (in_seq _ _ _) (conj (Nat.le_0_l _) R))).
  apply negb_true_iff in H. qb. exact H.
Qed.

(** When the loop settles, the fresh solution is as near as the last one. *)
Lemma pass_near : forall c nodes it es t es' fresh new, pass c nodes it es t es' fresh new ->
  settled (List.length nodes) (tc_tolerance c) new t = true ->
  forall r, (r < List.length nodes)%nat -> 0 <= tc_tolerance c ->
  Qabs (at_ new r - at_ fresh r) <= tc_tolerance c.
Proof.
  intros c nodes it es t es' fresh new (_ & S & ->) H r R T.
  pose proof (settled_at _ _ _ _ H r R) as A. destruct it.
  - setoid_replace (at_ fresh r - at_ fresh r) with 0 by ring. exact T.
  - rewrite (relaxed_at nodes fresh t r R) in *. destruct (pinned nodes r).
    + setoid_replace (at_ fresh r - at_ fresh r) with 0 by ring. exact T.
    + rewrite Qabs_Qle_condition in *. lra.
Qed.

Lemma update_links : forall e h, e_from (update_resistance e h) = e_from e /\ e_to (update_resistance e h) = e_to e.
Proof. intros e h. unfold update_resistance. destruct (Qlt_bool 0 h); split; reflexivity. Qed.

Lemma recalculate_links : forall c height t e,
  e_from (recalculate_one natural forced c height t e) = e_from e /\
  e_to (recalculate_one natural forced c height t e) = e_to e /\
  e_kind (recalculate_one natural forced c height t e) = e_kind e /\
  e_area (recalculate_one natural forced c height t e) = e_area e /\
  e_orientation (recalculate_one natural forced c height t e) = e_orientation e.
Proof.
  intros c height t e. unfold recalculate_one, update_resistance.
  destruct (Nat.leb _ _); [repeat split|].
  destruct (e_kind e) eqn:K; destruct (Qlt_bool 0 (e_area e));
    repeat match goal with |- context [Qlt_bool 0 ?h] => destruct (Qlt_bool 0 h) end;
    cbn; repeat split; auto.
Qed.

(** An element whose resistance no temperature changes. *)
Definition constant (e : element) : Prop :=
  e_kind e = CONDUCTION \/ e_kind e = HEATSINK_CONVECTION \/ e_area e <= 0.

Lemma recalculate_constant : forall c t es es', Forall constant es ->
  recalculate natural forced c t es = Ok es' -> es' = es.
Proof.
  intros c t es es' F H. unfold recalculate in H. destruct (tc_height c) as [h|]; [|discriminate].
  destruct (Qle_bool h 0); [discriminate|]. injection H as <-.
  induction F as [|e l C F IH]; [reflexivity|]. cbn [map]. rewrite IH. f_equal.
  unfold recalculate_one. destruct (Nat.leb _ _); [reflexivity|].
  destruct C as [->|[->|A]]; try reflexivity.
  replace (Qlt_bool 0 (e_area e)) with false by (symmetry; apply Qlt_bool_false; assumption).
  destruct (e_kind e); reflexivity.
Qed.

Lemma set_temperatures_length : forall nodes t, List.length t = List.length nodes ->
  List.length (set_temperatures nodes t) = List.length nodes.
Proof. intros. unfold set_temperatures. rewrite map_length, combine_length. lia. Qed.

Lemma set_temperatures_at : forall nodes t r d, List.length t = List.length nodes -> (r < List.length nodes)%nat ->
  nth r (set_temperatures nodes t) d = with_temperature (node_at nodes r) (at_ t r).
Proof.
  induction nodes as [|x nodes IH]; intros t r d L R; [cbn in R; lia|].
  destruct t as [|y t]; [discriminate|]. destruct r as [|r]; [reflexivity|].
  cbn in *. apply IH; lia.
Qed.

(** What the solver returns, in terms of its loop. *)
Lemma solve_thermal_spec : forall c nodes es res, solve_thermal natural forced c nodes es = Ok res ->
  exists s, iterate natural forced (tc_max_iterations c) c nodes 0 es (repeat (tc_ambient c) (List.length nodes)) = Ok s /\
    res = report c nodes s /\ (tc_require c = true -> l_converged s = true) /\ nodes <> [].
Proof.
  intros c nodes es res H. unfold solve_thermal in H. destruct nodes as [|x l] eqn:E; [discriminate|].
  rewrite <- E in *. destruct (iterate _ _ _ _ _ _ _ _) as [s| | |] eqn:IT; cbn [bind] in H; try discriminate.
  exists s. split; [reflexivity|].
  destruct (negb (l_converged s) && tc_require c) eqn:N; [discriminate|]. injection H as <-.
  split; [reflexivity|]. split; [|rewrite E; discriminate].
  intro Q. rewrite Q, andb_true_r in N. apply negb_false_iff in N. exact N.
Qed.

Lemma at_start : forall v n r, (r < n)%nat -> at_ (repeat v n) r = v.
Proof. intros v n. unfold at_. induction n as [|n IH]; intros [|r] R; cbn; try lia; auto. apply IH. lia. Qed.

End Loop.

(** Positions that depend on the parts alone. *)
Lemma first_ambient_some : forall l k a, first_ambient k l = Some a ->
  (k <= a < k + List.length l)%nat /\ t_part (nth (a - k) l no_node) = AMBIENT /\
  forall r, (r < a - k)%nat -> t_part (nth r l no_node) <> AMBIENT.
Proof.
  induction l as [|x l IH]; intros k a H; [discriminate|]. cbn [first_ambient] in H.
  destruct (is_ambient (t_part x)) eqn:A.
  - injection H as <-. rewrite Nat.sub_diag. cbn. split; [lia|]. split; [destruct (t_part x); try discriminate; reflexivity | intros; lia].
  - apply IH in H. destruct H as (R & P & N). cbn [List.length]. split; [lia|].
    replace (a - k)%nat with (S (a - S k)) by lia. cbn [nth]. split; [exact P|].
    intros [|r] L; [intro E; rewrite E in A; discriminate | apply N; lia].
Qed.

Lemma first_ambient_none : forall l k, first_ambient k l = None ->
  forall r, (r < List.length l)%nat -> t_part (nth r l no_node) <> AMBIENT.
Proof.
  induction l as [|x l IH]; intros k H r R; [cbn in R; lia|]. cbn [first_ambient] in H.
  destruct (is_ambient (t_part x)) eqn:A; [discriminate|].
  destruct r as [|r]; [intro E; cbn in E; rewrite E in A; discriminate|]. cbn in *. apply (IH (S k)); [exact H | lia].
Qed.

Lemma first_ambient_parts : forall l m k, map t_part l = map t_part m -> first_ambient k l = first_ambient k m.
Proof.
  induction l as [|x l IH]; intros [|y m] k H; try discriminate; [reflexivity|]. cbn in *.
  injection H as E H. rewrite E. destruct (is_ambient (t_part y)); [reflexivity | apply IH; exact H].
Qed.

Lemma ambient_index_range : forall nodes, nodes <> [] -> (ambient_index nodes < List.length nodes)%nat.
Proof.
  intros nodes N. unfold ambient_index. destruct (first_ambient 0 nodes) as [a|] eqn:E.
  - apply first_ambient_some in E. lia.
  - destruct nodes; [contradiction | cbn; lia].
Qed.
