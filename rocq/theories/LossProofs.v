(** Facts about the winding losses model. *)
From Coq Require Import ZArith QArith List String Bool Lia Lra Lqa.
From Verif Require Import Base QAux LossModel LossSpec.
Import ListNotations.
Open Scope outcome_scope.
Open Scope string_scope.
Open Scope list_scope.
Open Scope Q_scope.

Lemma bind_ok : forall A B (x : outcome A) (f : A -> outcome B) y,
  bind x f = Ok y -> exists a, x = Ok a /\ f a = Ok y.
Proof. intros A B [a|e|e|] f y H; try discriminate. exists a; auto. Qed.

Ltac step H :=
  match type of H with
  | bind _ _ = Ok _ => let E := fresh "E" in apply bind_ok in H as (? & E & H)
  end.

Definition fin (x : ext) : Q := match x with Some q => q | None => 0 end.

(** ** Sums over ranges *)
Lemma Qsum_map_ext : forall A (f g : A -> Q) l,
  (forall x, In x l -> f x == g x) -> Qsum (map f l) == Qsum (map g l).
Proof.
  induction l as [|a l IH]; intros H; simpl; [reflexivity|].
  rewrite (H a) by now left. rewrite IH; [reflexivity|]. intros; apply H; now right.
Qed.
Lemma Qsum_map_add : forall A (f g : A -> Q) l,
  Qsum (map (fun x => f x + g x) l) == Qsum (map f l) + Qsum (map g l).
Proof. induction l as [|a l IH]; simpl; [ring|]. rewrite IH. ring. Qed.
Lemma Qsum_map_mul : forall A (f : A -> Q) k l,
  Qsum (map (fun x => k * f x) l) == k * Qsum (map f l).
Proof. induction l as [|a l IH]; simpl; [ring|]. rewrite IH. ring. Qed.
Lemma Qsum_map_zero : forall A (f : A -> Q) l,
  (forall x, In x l -> f x == 0) -> Qsum (map f l) == 0.
Proof.
  induction l as [|a l IH]; intros H; simpl; [reflexivity|].
  rewrite (H a) by now left. rewrite IH; [ring|]. intros; apply H; now right.
Qed.
Lemma Qsum_map_le : forall A (f g : A -> Q) l,
  (forall x, In x l -> f x <= g x) -> Qsum (map f l) <= Qsum (map g l).
Proof.
  induction l as [|a l IH]; intros H; simpl; [lra|].
  assert (f a <= g a) by (apply H; now left).
  assert (Qsum (map f l) <= Qsum (map g l)) by (apply IH; intros; apply H; now right). lra.
Qed.
Lemma Qsum_map_pos : forall A (f : A -> Q) l,
  (forall x, In x l -> 0 < f x) -> l <> [] -> 0 < Qsum (map f l).
Proof.
  intros A f [|a l] H N; [congruence|]. simpl.
  assert (0 < f a) by (apply H; now left).
  assert (0 <= Qsum (map f l)).
  { apply Qsum_nonneg, Forall_map, Forall_forall. intros x Hx. apply Qlt_le_weak, H. now right. }
  lra.
Qed.
Lemma Qsum_pick : forall (f : nat -> Q) k n, (k < n)%nat ->
  Qsum (map (fun i => if Nat.eqb i k then f i else 0) (seq 0 n)) == f k.
Proof.
  intros f k n H.
  assert (G : forall m s, (s <= k < s + m)%nat ->
    Qsum (map (fun i => if Nat.eqb i k then f i else 0) (seq s m)) == f k).
  { induction m as [|m IH]; intros s Hs; [lia|]. simpl.
    destruct (Nat.eqb_spec s k) as [->|N].
    - rewrite Qsum_map_zero; [ring|]. intros x Hx. apply in_seq in Hx.
      destruct (Nat.eqb_spec x k); [lia|reflexivity].
    - rewrite IH by lia. ring. }
  apply G. lia.
Qed.

(** ** Names and indices *)
Lemma index_by_name_some : forall l n i, index_by_name l n = Some i ->
  exists w, nth_error l i = Some w /\ w_name w = n.
Proof.
  induction l as [|w l IH]; simpl; intros n i H; [discriminate|].
  destruct (String.eqb_spec (w_name w) n) as [E|N].
  - injection H as <-. exists w. auto.
  - destruct (index_by_name l n) as [j|] eqn:E; [|discriminate]. injection H as <-. exact (IH _ _ E).
Qed.
Lemma index_by_name_nth : forall l i w, NoDup (map w_name l) -> nth_error l i = Some w ->
  index_by_name l (w_name w) = Some i.
Proof.
  induction l as [|x l IH]; intros i w D H; [destruct i; discriminate|].
  inversion D as [|a b Ni D']; subst. destruct i as [|i]; simpl in *.
  - injection H as ->. now rewrite String.eqb_refl.
  - destruct (String.eqb_spec (w_name x) (w_name w)) as [E|N].
    + exfalso. apply Ni. rewrite E. apply in_map. eapply nth_error_In; eauto.
    + now rewrite (IH i w).
Qed.
Lemma winding_index_ok : forall c n i, winding_index c n = Ok i ->
  exists w, nth_error (windings c) i = Some w /\ w_name w = n.
Proof.
  unfold winding_index. intros c n i H. destruct (index_by_name _ _) eqn:E; [|discriminate].
  injection H as <-. now apply index_by_name_some.
Qed.
Lemma winding_index_nth : forall c i w, distinct c -> nth_error (windings c) i = Some w ->
  winding_index c (w_name w) = Ok i.
Proof. intros c i w D H. unfold winding_index. now rewrite (index_by_name_nth _ i w D H). Qed.
Lemma same_index : forall c i x n, distinct c -> nth_error (windings c) i = Some x ->
  forall j, winding_index c n = Ok j -> Nat.eqb j i = String.eqb n (w_name x).
Proof.
  intros c i x n D H j J. apply winding_index_ok in J as (y & Hy & En).
  destruct (String.eqb_spec n (w_name x)) as [->|N].
  - pose proof (winding_index_nth c j y D Hy) as A. rewrite En in A.
    rewrite (winding_index_nth c i x D H) in A. injection A as ->. apply Nat.eqb_refl.
  - destruct (Nat.eqb_spec j i) as [->|]; [|reflexivity].
    exfalso. rewrite H in Hy. injection Hy as ->. congruence.
Qed.
Lemma index_in_some : forall p n i, index_in p n = Some i -> p = Z.of_nat i /\ (i < n)%nat.
Proof.
  unfold index_in. intros p n i H. destruct (_ && _) eqn:E; [|discriminate].
  injection H as <-. apply andb_prop in E as [A B]. apply Z.leb_le in A. apply Z.ltb_lt in B. lia.
Qed.
Lemma index_in_nat : forall i n, (i < n)%nat -> index_in (Z.of_nat i) n = Some i.
Proof.
  unfold index_in. intros i n H.
  replace (0 <=? Z.of_nat i)%Z with true by (symmetry; apply Z.leb_le; lia).
  replace (Z.of_nat i <? Z.of_nat n)%Z with true by (symmetry; apply Z.ltb_lt; lia).
  simpl. now rewrite Nat2Z.id.
Qed.
Lemma parallels_nth : forall c i w, nth_error (windings c) i = Some w -> parallels c i = w_parallels w.
Proof. unfold parallels. intros c i w H. now rewrite H. Qed.

(** ** Leads *)
Lemma fold_given : forall l a,
  fold_left (fun a (x : option Q) => match x with Some q => a + q | None => a end) l a
  == a + Qsum (map (fun o : option Q => match o with Some q => q | None => 0 end) l).
Proof.
  induction l as [|[q|] l IH]; intros a; simpl; [ring| |]; rewrite IH; ring.
Qed.
Lemma provided_length_given : forall x, provided_length x == given_metres x.
Proof.
  intros x. unfold provided_length, given_metres. destruct (w_connections x); [|reflexivity].
  rewrite fold_given. ring.
Qed.

Lemma reserve_ok : forall c l cr te cr' te',
  distinct c -> reserve c l cr te = Ok (cr', te') ->
  forall i x p, nth_error (windings c) i = Some x -> (p < w_parallels x)%nat ->
  let sel b := Qsum (map (fun s => match s_routed s with Some q => q | None => 0 end)
    (filter (fun s => String.eqb (s_winding s) (w_name x) && (s_parallel s =? Z.of_nat p)%Z
                      && Bool.eqb (s_terminal s) b) l)) in
  cr' i p == cr i p + sel false /\ te' i p == te i p + sel true.
Proof.
  intros c l. induction l as [|s l IH]; intros cr te cr' te' D H i x p Hx Hp sel.
  { simpl in H. injection H as <- <-. subst sel. simpl. split; ring. }
  simpl in H. step H. rename x0 into j.
  pose proof (same_index c i x (s_winding s) D Hx j E) as SJ.
  destruct (winding_index_ok c _ _ E) as (y & Hy & Ey).
  rewrite (parallels_nth c j y Hy) in H.
  assert (K : forall b, sel b ==
    (if String.eqb (s_winding s) (w_name x) && (s_parallel s =? Z.of_nat p)%Z && Bool.eqb (s_terminal s) b
     then match s_routed s with Some q => q | None => 0 end else 0)
    + Qsum (map (fun s => match s_routed s with Some q => q | None => 0 end)
    (filter (fun s => String.eqb (s_winding s) (w_name x) && (s_parallel s =? Z.of_nat p)%Z
                      && Bool.eqb (s_terminal s) b) l))).
  { intros b. subst sel. cbn [filter map].
    destruct (String.eqb (s_winding s) (w_name x) && (s_parallel s =? Z.of_nat p)%Z && Bool.eqb (s_terminal s) b);
      cbn [map Qsum]; ring. }
  rewrite !K. clear K sel.
  destruct (index_in (s_parallel s) (w_parallels y)) as [k|] eqn:EK.
  - destruct (index_in_some _ _ _ EK) as [PK LK].
    assert (PE : (s_parallel s =? Z.of_nat p)%Z = Nat.eqb k p).
    { rewrite PK. destruct (Nat.eqb_spec k p) as [->|N]; [apply Z.eqb_refl|apply Z.eqb_neq; lia]. }
    rewrite PE, <- SJ. destruct (s_routed s) as [run|] eqn:ER; [|discriminate].
    destruct (s_terminal s) eqn:ET;
      destruct (IH _ _ _ _ D H i x p Hx Hp) as [A B]; rewrite A, B; unfold add_to;
      rewrite (Nat.eqb_sym i j), (Nat.eqb_sym p k);
      destruct (Nat.eqb j i), (Nat.eqb k p); cbn [andb Bool.eqb]; split; ring.
  - destruct (IH _ _ _ _ D H i x p Hx Hp) as [A B]. rewrite A, B.
    assert (Z0 : forall b, (String.eqb (s_winding s) (w_name x) && (s_parallel s =? Z.of_nat p)%Z
                            && Bool.eqb (s_terminal s) b) = false).
    { intros b. destruct (String.eqb (s_winding s) (w_name x)) eqn:EN; [|reflexivity].
      destruct (s_parallel s =? Z.of_nat p)%Z eqn:EP; [|reflexivity]. exfalso.
      apply Z.eqb_eq in EP. apply Nat.eqb_eq in SJ. subst j.
      rewrite Hx in Hy. injection Hy as <-. rewrite EP, index_in_nat in EK by assumption. discriminate. }
    rewrite !Z0. split; ring.
Qed.

Lemma Qlt_bool_eq : forall a b, a == b -> Qlt_bool 0 a = Qlt_bool 0 b.
Proof.
  intros a b E. destruct (Qlt_bool 0 a) eqn:A, (Qlt_bool 0 b) eqn:B; auto; exfalso.
  - apply Qlt_bool_iff in A. apply Qlt_bool_false in B. lra.
  - apply Qlt_bool_iff in B. apply Qlt_bool_false in A. lra.
Qed.

Lemma connection_length_ok : forall c len, distinct c -> connection_length c = Ok len ->
  forall i x p, nth_error (windings c) i = Some x -> (p < w_parallels x)%nat ->
  len i p == lead_metres c x p.
Proof.
  unfold connection_length, lead_metres. intros c len D H i x p Hx Hp.
  destruct (real_geometry c); cbn [negb] in H; [|injection H as <-; reflexivity].
  destruct (existsb _ _); [discriminate|]. step H. destruct x0 as [cr te]. injection H as <-.
  rewrite Hx. destruct (reserve_ok c _ _ _ _ _ D E i x p Hx Hp) as [A B].
  unfold routed_metres. rewrite A, (Qlt_bool_eq _ _ (provided_length_given x)).
  destruct (Qlt_bool 0 (given_metres x)).
  - rewrite provided_length_given. ring.
  - rewrite B. ring.
Qed.

(** ** Resistances *)
Lemma Qle_bool_false' : forall a b, Qle_bool a b = false -> b < a.
Proof. intros a b H. now apply Qle_bool_false in H. Qed.

Lemma per_meter_ok : forall x T m, per_meter x T = Ok m ->
  match m with
  | Some q => q = ohm_per_metre x T /\ 0 < q
  | None => w_area x == 0
  end.
Proof.
  unfold per_meter, ohm_per_metre, resistivity. intros x T m H.
  destruct (Qeq_bool (w_area x) 0) eqn:A.
  - apply Qeq_bool_iff in A. destruct (Qeq_bool _ 0); [discriminate|].
    destruct (Qlt_bool _ 0); [discriminate|]. injection H as <-. exact A.
  - destruct (Qle_bool _ 0) eqn:L; [discriminate|]. injection H as <-. split; [reflexivity|].
    now apply Qle_bool_false' in L.
Qed.

Lemma existsb_eq : forall A (f g : A -> bool) l, (forall x, In x l -> f x = g x) -> existsb f l = existsb g l.
Proof.
  induction l as [|a l IH]; intros H; simpl; [reflexivity|].
  rewrite (H a) by now left. rewrite IH; [reflexivity|]. intros; apply H; now right.
Qed.

Lemma connection_resistance_ok : forall T len l i rows,
  connection_resistance T len l i = Ok rows ->
  forall k x, nth_error l k = Some x ->
  exists row, nth_error rows k = Some row /\
    (if existsb (fun p => Qlt_bool 0 (len (i + k)%nat p)) (seq 0 (w_parallels x))
     then exists m, per_meter x T = Ok m /\ forall p, row p = escale (len (i + k)%nat p) m
     else forall p, row p = Some 0).
Proof.
  induction l as [|w l IH]; intros i rows H k x Hk; [destruct k; discriminate|].
  simpl in H. step H. step H. injection H as <-.
  destruct k as [|k].
  - simpl in Hk. injection Hk as <-. exists x0. split; [reflexivity|].
    rewrite Nat.add_0_r. destruct (existsb _ _).
    + step E. injection E as <-. exists x. auto.
    + injection E as <-. reflexivity.
  - simpl in Hk. destruct (IH (S i) x1 E0 k x Hk) as (row & A & B). exists row.
    split; [exact A|]. rewrite Nat.add_succ_r. exact B.
Qed.

(** the branch a turn is in *)
Definition belongs (c : coil) (t : turn) (w p : nat) : bool :=
  match branch_of c t with Ok (w', p') => Nat.eqb w' w && Nat.eqb p' p | _ => false end.

Lemma branch_of_ok : forall c t w p, branch_of c t = Ok (w, p) ->
  exists x, nth_error (windings c) w = Some x /\ w_name x = t_winding t /\
    t_parallel t = Z.of_nat p /\ (p < w_parallels x)%nat.
Proof.
  unfold branch_of. intros c t w p H. step H.
  destruct (winding_index_ok c _ _ E) as (x' & Hx & En). rewrite (parallels_nth c x x' Hx) in H.
  destruct (index_in _ _) as [k|] eqn:EK; [|discriminate]. injection H as <- <-.
  destruct (index_in_some _ _ _ EK). exists x'. auto.
Qed.

Lemma belongs_in_branch : forall c t w0 p0, distinct c -> branch_of c t = Ok (w0, p0) ->
  forall i x p, nth_error (windings c) i = Some x ->
  belongs c t i p = in_branch x p t.
Proof.
  intros c t w0 p0 D H i x p Hx. unfold belongs, in_branch. rewrite H.
  pose proof (branch_of_ok _ _ _ _ H) as (y & Hy & En & Ep & Lp).
  assert (I : winding_index c (t_winding t) = Ok w0) by (rewrite <- En; now apply winding_index_nth).
  rewrite (same_index c i x _ D Hx _ I). f_equal. rewrite Ep.
  destruct (Nat.eqb_spec p0 p) as [->|N]; [symmetry; apply Z.eqb_refl|symmetry; apply Z.eqb_neq; lia].
Qed.

Definition turn_fact (c : coil) (T : Q) (t : turn) (r : ext) : Prop :=
  exists w p x len m, branch_of c t = Ok (w, p) /\ nth_error (windings c) w = Some x /\
    t_length t = Some len /\ per_meter x T = Ok m /\ r = escale len m.

Lemma turn_loop_ok : forall c T l s0 rs s, turn_loop c T l s0 = Ok (rs, s) ->
  Forall2 (turn_fact c T) l rs /\
  forall w p, s w p =
    fold_left (fun a '(t, r) => if belongs c t w p then eadd a r else a) (combine l rs) (s0 w p).
Proof.
  induction l as [|t l IH]; intros s0 rs s H.
  { simpl in H. injection H as <- <-. split; [constructor|reflexivity]. }
  simpl in H. step H. destruct (nth_error (windings c) x) as [y|] eqn:Hy; [|discriminate].
  step H. step H. destruct x1 as [w p]. step H. destruct x1 as [rs' s']. injection H as <- <-.
  apply IH in E2 as [F S']. split.
  - constructor; [|exact F]. unfold turn_resistance in E0.
    destruct (t_length t) as [len|] eqn:EL; [|discriminate]. step E0. injection E0 as <-.
    assert (W : w = x).
    { unfold branch_of in E1. rewrite E in E1. cbn [bind] in E1.
      destruct (index_in _ _); [|discriminate]. injection E1. congruence. }
    subst w. exists x, p, y, len, x1. auto 8.
  - intros i j. rewrite S'. cbn [combine fold_left fst snd]. f_equal.
    unfold eadd_to, belongs. rewrite E1, (Nat.eqb_sym i w), (Nat.eqb_sym j p). reflexivity.
Qed.

Lemma efold_some : forall (f : turn -> bool) l a q,
  fold_left (fun a '(t, r) => if f t then eadd a r else a) l a = Some q ->
  exists a0, a = Some a0 /\
    (forall t r, In (t, r) l -> f t = true -> exists v, r = Some v) /\
    q == a0 + Qsum (map (fun '(t, r) => if f t then fin r else 0) l).
Proof.
  induction l as [|[t r] l IH]; intros a q H; simpl in H.
  { exists q. subst a. split; [reflexivity|]. split; [intros ? ? []|]. simpl. ring. }
  apply IH in H as (a0 & E & F & S'). destruct (f t) eqn:Ft.
  - destruct a as [a|]; [|discriminate]. destruct r as [r|]; [|discriminate].
    simpl in E. injection E as <-. exists a. split; [reflexivity|]. split.
    + intros t' r' [I|I] Ht; [injection I as <- <-; eauto|eauto].
    + cbn [map Qsum]. rewrite Ft. cbn [fin]. rewrite S'. ring.
  - exists a0. split; [exact E|]. split.
    + intros t' r' [I|I] Ht; [injection I as <- <-; congruence|eauto].
    + cbn [map Qsum]. rewrite Ft, S'. ring.
Qed.

Lemma conductance_ok : forall s ps a g, conductance s ps a = Ok g ->
  (forall p, In p ps -> exists r, s p = Some r /\ 0 < r) /\
  g == a + Qsum (map (fun p => 1 / fin (s p)) ps).
Proof.
  induction ps as [|p ps IH]; intros a g H; simpl in H.
  { injection H as <-. split; [intros ? []|]. simpl. ring. }
  destruct (s p) as [r|] eqn:E; [|discriminate]. destruct (Qlt_bool 0 r) eqn:L; [|discriminate].
  apply Qlt_bool_iff in L. apply IH in H as [F S']. split.
  - intros p' [<-|I]; [eauto|auto].
  - cbn [map Qsum]. rewrite E. cbn [fin]. rewrite S'. ring.
Qed.
Lemma conductance_intro : forall s ps a, (forall p, In p ps -> exists r, s p = Some r /\ 0 < r) ->
  exists g, conductance s ps a = Ok g.
Proof.
  induction ps as [|p ps IH]; intros a H; simpl; [eauto|].
  destruct (H p (or_introl eq_refl)) as (r & E & L). rewrite E.
  apply Qlt_bool_iff in L. rewrite L. apply IH. intros; apply H; now right.
Qed.

Lemma resistance_loop_ok : forall s l i rs, resistance_loop s l i = Ok rs ->
  List.length rs = List.length l /\
  forall k w, nth_error l k = Some w ->
    exists g, conductance (s (i + k)%nat) (seq 0 (w_parallels w)) 0 = Ok g /\
      nth_error rs k = Some (inverse g).
Proof.
  induction l as [|w l IH]; intros i rs H; simpl in H.
  { injection H as <-. split; [reflexivity|]. intros [|]; discriminate. }
  step H. step H. injection H as <-. destruct (IH _ _ E0) as [L F]. split; [simpl; congruence|].
  intros [|k] x' Hk; simpl in Hk.
  - injection Hk as <-. exists x. rewrite Nat.add_0_r. auto.
  - destruct (F k x' Hk) as (g & A & B). exists g. rewrite Nat.add_succ_r. auto.
Qed.

(** branches of a coil the losses were computed for *)
Lemma turn_sum : forall c T l rs, distinct c -> Forall2 (turn_fact c T) l rs ->
  forall i x p, nth_error (windings c) i = Some x ->
  (forall t r, In (t, r) (combine l rs) -> belongs c t i p = true -> exists v, r = Some v) ->
  Qsum (map (fun '(t, r) => if belongs c t i p then fin r else 0) (combine l rs))
  == ohm_per_metre x T * turn_metres l x p.
Proof.
  intros c T l rs D F i x p Hx. unfold turn_metres.
  induction F as [|t r l rs (w & q & y & len & m & B & Hy & EL & PM & ->) F IH]; intros V; [simpl; ring|].
  assert (IH' := IH (fun t' r' I => V t' r' (or_intror I))). clear IH.
  cbn [combine map Qsum filter]. rewrite IH'.
  rewrite (belongs_in_branch c t w q D B i x p Hx).
  destruct (in_branch x p t) eqn:IB; cbn [map Qsum]; [|ring].
  rewrite <- (belongs_in_branch c t w q D B i x p Hx) in IB.
  destruct (V t (escale len m)) as (v & Ev); [now left|exact IB|].
  unfold belongs in IB. rewrite B in IB. apply andb_prop in IB as [W _]. apply Nat.eqb_eq in W. subst w.
  rewrite Hx in Hy. injection Hy as <-. destruct m as [m|]; [|discriminate].
  apply per_meter_ok in PM as [-> _]. cbn [escale fin]. unfold metres. rewrite EL. ring.
Qed.

Lemma belongs_dec : forall c t i p q, belongs c t i p = true -> belongs c t i q = true -> p = q.
Proof.
  unfold belongs. intros c t i p q. destruct (branch_of c t) as [[w p']|e|e|]; try discriminate.
  intros A B. apply andb_prop in A as [_ A]. apply andb_prop in B as [_ B].
  apply Nat.eqb_eq in A, B. congruence.
Qed.

Lemma branches_ok : forall c T l rs s, distinct c -> branches c T l = Ok (rs, s) ->
  Forall2 (turn_fact c T) l rs /\
  forall i x p q, nth_error (windings c) i = Some x -> (p < w_parallels x)%nat -> s i p = Some q ->
    q == branch_ohms c l T x p /\
    (forall t r, In (t, r) (combine l rs) -> belongs c t i p = true -> exists v, r = Some v) /\
    (0 < q -> 0 < ohm_per_metre x T).
Proof.
  intros c T l rs s D H. unfold branches in H. step H. destruct x as [rs' s0]. step H. step H.
  injection H as <- <-. apply turn_loop_ok in E as [F S0]. split; [exact F|].
  intros i x' p q Hx Hp Hq. cbn [snd] in Hq. unfold with_leads in Hq.
  destruct (connection_resistance_ok _ _ _ _ _ E1 i x' Hx) as (row & Er & Rr).
  rewrite (nth_error_nth _ _ _ Er) in Hq.
  destruct (s0 i p) as [a|] eqn:Ea; [|discriminate]. destruct (row p) as [b|] eqn:Eb; [|discriminate].
  simpl in Hq. injection Hq as <-. rewrite S0 in Ea. apply efold_some in Ea as (a0 & Ez & V & Sa).
  unfold no_resistance in Ez. injection Ez as <-.
  cut (a + b == branch_ohms c l T x' p /\ (0 < a + b -> 0 < ohm_per_metre x' T)).
  { intros [A B]. split; [exact A|]. split; [exact V|exact B]. }
  assert (PO : 0 < a -> 0 < ohm_per_metre x' T).
  { intros Pa. destruct (existsb (fun '(t, _) => belongs c t i p) (combine l rs')) eqn:EX.
    - apply existsb_exists in EX as ([t r] & It & Bt).
      destruct (V t r It Bt) as (v & Ev).
      assert (TF : turn_fact c T t r).
      { clear -F It. induction F as [|t' r' l rs A F IH]; [destruct It|].
        destruct It as [E|I]; [injection E as <- <-; exact A|auto]. }
      destruct TF as (w & q' & y & len & m & B & Hy & EL & PM & Ert).
      unfold belongs in Bt. rewrite B in Bt. apply andb_prop in Bt as [W _]. apply Nat.eqb_eq in W. subst w.
      rewrite Hx in Hy. injection Hy as <-. destruct m as [m|]; [|rewrite Ev in Ert; discriminate].
      apply per_meter_ok in PM as [<- Pm]. exact Pm.
    - exfalso. rewrite Qsum_map_zero in Sa; [lra|]. intros [t r] It.
      destruct (belongs c t i p) eqn:Bt; [|reflexivity]. exfalso.
      assert (existsb (fun '(t, _) => belongs c t i p) (combine l rs') = true)
        by (apply existsb_exists; exists (t, r); auto). congruence. }
  assert (Sa' := Sa). rewrite (turn_sum c T l rs' D F i x' p Hx V) in Sa'. rewrite Sa, (turn_sum c T l rs' D F i x' p Hx V). unfold branch_ohms.
  cbn [Nat.add] in Rr.
  assert (LE : forall p, In p (seq 0 (w_parallels x')) ->
    Qlt_bool 0 (x i p) = Qlt_bool 0 (lead_metres c x' p)).
  { intros p' I. apply in_seq in I. apply Qlt_bool_eq.
    apply (connection_length_ok c x D E0 i x' p' Hx). lia. }
  rewrite (existsb_eq _ _ _ _ LE) in Rr. unfold charged_lead.
  destruct (existsb _ _).
  - destruct Rr as (m & PM & Rp). rewrite Rp in Eb. destruct m as [m|]; [|discriminate].
    simpl in Eb. injection Eb as <-. apply per_meter_ok in PM as [-> Pm].
    split; [rewrite (connection_length_ok c x D E0 i x' p Hx Hp); ring|intros _; exact Pm].
  - rewrite Rr in Eb. injection Eb as <-. split; [ring|]. intros Pq. apply PO. rewrite Sa'. lra.
Qed.

(** ** Currents *)
Lemma winding_currents_ok : forall op ws is, winding_currents op ws = Ok is ->
  Forall2 (fun w i => winding_current op w = Ok i) ws is.
Proof.
  induction ws as [|w ws IH]; intros is H; simpl in H; [injection H as <-; constructor|].
  step H. step H. injection H as <-. constructor; auto.
Qed.
Lemma winding_currents_nth : forall op n is, winding_currents op (seq 0 n) = Ok is ->
  forall w, (w < n)%nat -> winding_current op w = Ok (nth w is 0).
Proof.
  intros op n is H w Hw. apply winding_currents_ok in H.
  assert (G : forall m s is, Forall2 (fun w i => winding_current op w = Ok i) (seq s m) is ->
    forall k, (k < m)%nat -> winding_current op (s + k)%nat = Ok (nth k is 0)).
  { induction m as [|m IH]; intros s is' F k Hk; [lia|]. inversion F as [|a b c d A B]; subst.
    destruct k as [|k]; [now rewrite Nat.add_0_r|]. rewrite Nat.add_succ_r. simpl. apply (IH (S s)); [exact B|lia]. }
  exact (G n 0%nat is H w Hw).
Qed.

Lemma turn_losses_ok : forall c is b l rs es ds,
  List.length l = List.length rs -> turn_losses c is b l rs = Ok (es, ds) ->
  List.length es = List.length l /\ List.length ds = List.length l /\
  forall k t, nth_error l k = Some t -> exists w p r d,
    branch_of c t = Ok (w, p) /\ nth_error rs k = Some r /\ nth_error ds k = Some (Some d) /\
    nth_error es k = Some (mkElement (t_name t) (dissipation (b w p) r) None None) /\
    (if Qeq_bool (nth w is 0) 0 then d = 0 else ediv (b w p) (nth w is 0) = Some d).
Proof.
  induction l as [|t l IH]; intros rs es ds L H; destruct rs as [|r rs]; try discriminate.
  { simpl in H. injection H as <- <-. split; [reflexivity|]. split; [reflexivity|].
    intros [|]; discriminate. }
  simpl in H. step H. destruct x as [w p]. cbn [fst snd] in H.
  destruct (if Qeq_bool (nth w is 0) 0 then Some 0 else ediv (b w p) (nth w is 0)) as [d|] eqn:Ed;
    [|discriminate].
  step H. destruct x as [es' ds']. injection H as <- <-. simpl in L. injection L as L.
  destruct (IH _ _ _ L E0) as (A & B & C). split; [simpl; congruence|]. split; [simpl; congruence|].
  intros [|k] t' Hk; simpl in Hk; [|apply (C k t' Hk)].
  injection Hk as <-. exists w, p, r, d. repeat split; auto.
  destruct (Qeq_bool _ 0); [congruence|exact Ed].
Qed.

(** a sum of finite numbers *)
Lemma esum_fold : forall l a q, fold_left eadd l a = Some q ->
  exists a0, a = Some a0 /\ (forall x, In x l -> exists v, x = Some v) /\ q == a0 + Qsum (map fin l).
Proof.
  induction l as [|x l IH]; intros a q H; simpl in H.
  { exists q. subst. split; [reflexivity|]. split; [intros ? []|]. simpl. ring. }
  apply IH in H as (a0 & E & F & S'). destruct a as [a|]; [|discriminate].
  destruct x as [x|]; [|discriminate]. simpl in E. injection E as <-.
  exists a. split; [reflexivity|]. split.
  - intros y [<-|I]; eauto.
  - cbn [map fin Qsum]. rewrite S'. ring.
Qed.
Lemma esum_fold_intro : forall l a0, (forall x, In x l -> exists v, x = Some v) ->
  exists q, fold_left eadd l (Some a0) = Some q /\ q == a0 + Qsum (map fin l).
Proof.
  induction l as [|x l IH]; intros a0 F; simpl.
  { exists a0. split; [reflexivity|ring]. }
  destruct (F x (or_introl eq_refl)) as (v & ->). cbn [eadd].
  destruct (IH (a0 + v)) as (q & A & B); [intros; apply F; now right|].
  exists q. split; [exact A|]. rewrite B. cbn [fin]. ring.
Qed.
Lemma esum_intro : forall l, (forall x, In x l -> exists v, x = Some v) ->
  exists q, esum l = Some q /\ q == Qsum (map fin l).
Proof.
  intros l F. destruct (esum_fold_intro l 0 F) as (q & A & B). exists q. split; [exact A|].
  rewrite B. ring.
Qed.
Lemma esum_some : forall l q, esum l = Some q ->
  (forall x, In x l -> exists v, x = Some v) /\ q == Qsum (map fin l).
Proof.
  intros l q H. apply esum_fold in H as (a0 & E & F & S'). injection E as <-. split; [exact F|].
  rewrite S'. ring.
Qed.

Lemma winding_loss_fold : forall (s b : nat -> ext) ps a q,
  fold_left (fun a p => eadd a (dissipation (b p) (s p))) ps a = Some q ->
  exists a0, a = Some a0 /\ q == a0 + Qsum (map (fun p => fin (b p) * fin (b p) * fin (s p)) ps).
Proof.
  induction ps as [|p ps IH]; intros a q H; simpl in H.
  { exists q. subst. split; [reflexivity|]. simpl. ring. }
  apply IH in H as (a0 & E & S'). destruct a as [a|]; [|discriminate].
  destruct (b p) as [x|] eqn:Eb; [|discriminate]. destruct (s p) as [y|] eqn:Es; [|discriminate].
  simpl in E. injection E as <-. exists a. split; [reflexivity|].
  cbn [map Qsum]. rewrite Eb, Es. cbn [fin]. rewrite S'. ring.
Qed.
Lemma winding_loss_intro : forall (s b : nat -> ext) ps a,
  (forall p, In p ps -> (exists x, b p = Some x) /\ exists y, s p = Some y) ->
  exists q, fold_left (fun a p => eadd a (dissipation (b p) (s p))) ps (Some a) = Some q.
Proof.
  induction ps as [|p ps IH]; intros a H; simpl; [eauto|].
  destruct (H p (or_introl eq_refl)) as [(x & ->) (y & ->)]. cbn [dissipation eadd].
  apply IH. intros; apply H; now right.
Qed.

(** ** The ohmic losses of a coil, in terms of its conductors *)
Definition each_branch (f : nat -> Q) (n : nat) : Q := Qsum (map f (seq 0 n)).

Lemma in_seq0 : forall p n, In p (seq 0 n) <-> (p < n)%nat.
Proof. intros. rewrite in_seq. lia. Qed.

Lemma one_over_pos : forall q, 0 < q -> 0 < 1 / q.
Proof. intros q H. unfold Qdiv. rewrite Qmult_1_l. now apply Qinv_lt_0_compat. Qed.

Lemma Qinv_eq' : forall a b, a == b -> 1 / a == 1 / b.
Proof. intros a b E. now rewrite E. Qed.

Lemma ohmic_core : forall c op T o, distinct c -> ohmic_losses c op T = Ok o ->
  exists l, turns c = Some l /\
  List.length (per_turn o) = List.length l /\
  List.length (divider_of_turn o) = List.length l /\
  List.length (resistance_of_turn o) = List.length l /\
  List.length (per_winding o) = List.length (windings c) /\
  per_layer o = [] /\ per_section o = [] /\ excitations o = op /\
  dc_resistance_per_winding c T = Ok (resistance_of_winding o) /\
  (forall w x, nth_error (windings c) w = Some x ->
    (forall p, (p < w_parallels x)%nat -> 0 < branch_ohms c l T x p /\ 0 < ohm_per_metre x T) /\
    exists I R q,
    winding_current op w = Ok I /\
    ((0 < w_parallels x)%nat ->
       nth_error (resistance_of_winding o) w = Some (Some R) /\ 0 < R /\
       R * each_branch (fun p => 1 / branch_ohms c l T x p) (w_parallels x) == 1) /\
    nth_error (per_winding o) w = Some (mkElement (w_name x) (Some q) None None) /\
    q == each_branch (fun p => (I * R / branch_ohms c l T x p) * (I * R / branch_ohms c l T x p)
                               * branch_ohms c l T x p) (w_parallels x)) /\
  (forall k t, nth_error l k = Some t -> exists w x p I R d q r,
    winding_index c (t_winding t) = Ok w /\
    nth_error (windings c) w = Some x /\ w_name x = t_winding t /\
    t_parallel t = Z.of_nat p /\ (p < w_parallels x)%nat /\
    winding_current op w = Ok I /\
    nth_error (resistance_of_winding o) w = Some (Some R) /\
    nth_error (divider_of_turn o) k = Some (Some d) /\
    (I == 0 -> d == 0) /\ (~ I == 0 -> d * branch_ohms c l T x p == R) /\
    nth_error (per_turn o) k = Some (mkElement (t_name t) (Some q) None None) /\
    q == (d * I) * (d * I) * r /\
    nth_error (resistance_of_turn o) k = Some (Some r) /\
    (exists m, t_length t = Some m /\ r == ohm_per_metre x T * m /\ 0 < ohm_per_metre x T)) /\
  exists q, total o = Some q /\ q == Qsum (map (fun e => fin (e_ohmic e)) (per_winding o)).
Proof.
  intros c op T o D H. unfold ohmic_losses in H.
  destruct (turns c) as [l|] eqn:ET; [|discriminate]. exists l. split; [reflexivity|].
  step H. rename x into is. step H. destruct x as [rs s]. step H. rename x into Rs.
  step H. destruct x as [es ds]. cbn [fst snd] in H. injection H as <-.
  cbn [per_turn per_layer per_section per_winding total resistance_of_turn resistance_of_winding
       divider_of_turn excitations].
  destruct (branches_ok c T l rs s D E0) as [F S'].
  pose proof (Forall2_length _ _ _ _ _ F) as LR.
  destruct (turn_losses_ok _ _ _ _ _ _ _ LR E2) as (L1 & L2 & TL).
  destruct (resistance_loop_ok _ _ _ _ E1) as [LRs RL]. cbn [Nat.add] in RL.
  assert (LW : List.length (winding_losses c s
      (fun w p => branch_current (nth w is 0) (nth w Rs None) (s w p))) = List.length (windings c)).
  { unfold winding_losses. now rewrite map_length, seq_length. }
  split; [exact L1|]. split; [exact L2|]. split; [now rewrite LR|].
  split; [exact LW|]. split; [reflexivity|]. split; [reflexivity|]. split; [reflexivity|].
  split. { unfold dc_resistance_per_winding. rewrite ET, E0. cbn [bind snd]. exact E1. }
  (* facts about each branch *)
  assert (BR : forall w x p, nth_error (windings c) w = Some x -> (p < w_parallels x)%nat ->
    exists q, s w p = Some q /\ 0 < q /\ q == branch_ohms c l T x p /\ 0 < ohm_per_metre x T).
  { intros w x p Hx Hp. destruct (RL w x Hx) as (g & G & _).
    apply conductance_ok in G as [G _]. destruct (G p) as (q & Eq & Lq); [now apply in_seq0|].
    exists q. split; [exact Eq|]. split; [exact Lq|].
    destruct (S' w x p q Hx Hp Eq) as (A & _ & B). auto. }
  assert (RW : forall w x, nth_error (windings c) w = Some x -> (0 < w_parallels x)%nat ->
    exists R, nth_error Rs w = Some (Some R) /\ 0 < R /\
       R * each_branch (fun p => 1 / branch_ohms c l T x p) (w_parallels x) == 1).
  { intros w x Hx Hn. destruct (RL w x Hx) as (g & G & Eg). apply conductance_ok in G as [_ G].
    rewrite Qplus_0_l in G.
    assert (G' : g == each_branch (fun p => 1 / branch_ohms c l T x p) (w_parallels x)).
    { rewrite G. apply Qsum_map_ext. intros p Ip. apply in_seq0 in Ip.
      destruct (BR w x p Hx Ip) as (q & Eq & _ & Bq & _). rewrite Eq. cbn [fin]. now apply Qinv_eq'. }
    assert (Pg : 0 < g).
    { rewrite G'. apply Qsum_map_pos.
      - intros p Ip. apply in_seq0 in Ip. destruct (BR w x p Hx Ip) as (q & _ & Lq & Bq & _).
        apply one_over_pos. now rewrite <- Bq.
      - destruct (w_parallels x); [lia|discriminate]. }
    unfold inverse in Eg. destruct (Qeq_bool g 0) eqn:Z0.
    { apply Qeq_bool_iff in Z0. lra. }
    exists (1 / g). split; [exact Eg|]. split; [now apply one_over_pos|].
    rewrite <- G'. field. lra. }
  assert (WC : forall w x, nth_error (windings c) w = Some x -> winding_current op w = Ok (nth w is 0)).
  { intros w x Hx. apply (winding_currents_nth _ _ _ E). apply nth_error_Some. congruence. }
  assert (WE : forall w x, nth_error (windings c) w = Some x -> exists q,
    nth_error (winding_losses c s (fun w p => branch_current (nth w is 0) (nth w Rs None) (s w p))) w
      = Some (mkElement (w_name x) (Some q) None None) /\
    forall R, ((0 < w_parallels x)%nat -> nth_error Rs w = Some (Some R)) ->
    q == each_branch (fun p => (nth w is 0 * R / branch_ohms c l T x p) * (nth w is 0 * R / branch_ohms c l T x p)
                               * branch_ohms c l T x p) (w_parallels x)).
  { intros w x Hx.
    assert (Hw : (w < List.length (windings c))%nat) by (apply nth_error_Some; congruence).
    set (b := fun p => branch_current (nth w is 0) (nth w Rs None) (s w p)).
    destruct (winding_loss_intro (s w) b (seq 0 (w_parallels x)) 0) as (q & Eq).
    { intros p Ip. apply in_seq0 in Ip. destruct (BR w x p Hx Ip) as (y & Ey & Ly & _).
      split; [|eauto]. unfold b, branch_current. rewrite Ey.
      destruct (RW w x Hx) as (R & ER & _); [lia|]. rewrite (nth_error_nth _ _ _ ER).
      destruct (Qeq_bool y 0) eqn:Z0; [apply Qeq_bool_iff in Z0; lra|eauto]. }
    exists q. split.
    - unfold winding_losses. rewrite nth_error_map.
      rewrite (nth_error_nth' (seq 0 (List.length (windings c))) O) by now rewrite seq_length.
      rewrite seq_nth by exact Hw. cbn [option_map Nat.add]. rewrite Hx, (parallels_nth c w x Hx).
      do 2 f_equal. exact Eq.
    - intros R ER. apply winding_loss_fold in Eq as (a0 & A & Eq). injection A as <-.
      rewrite Eq, Qplus_0_l. apply Qsum_map_ext. intros p Ip. apply in_seq0 in Ip.
      destruct (BR w x p Hx Ip) as (y & Ey & Ly & By & _). unfold b, branch_current. rewrite Ey.
      rewrite (nth_error_nth _ _ _ (ER ltac:(lia))).
      destruct (Qeq_bool y 0) eqn:Z0; [apply Qeq_bool_iff in Z0; lra|]. cbn [fin]. now rewrite By. }
  split; [|split].
  - intros w x Hx. split.
    { intros p Hp. destruct (BR w x p Hx Hp) as (q & _ & Lq & Bq & Po). rewrite <- Bq. auto. }
    destruct (WE w x Hx) as (q & Eq & Vq).
    destruct (Nat.eq_0_gt_0_cases (w_parallels x)) as [Z0|Pn].
    + exists (nth w is 0), 0, q. split; [now apply WC with x|]. split; [intros; lia|].
      split; [exact Eq|]. apply Vq. lia.
    + destruct (RW w x Hx Pn) as (R & ER & PR & SR). exists (nth w is 0), R, q.
      split; [now apply WC with x|]. split; [auto|]. split; [exact Eq|]. apply Vq. auto.
  - intros k t Hk. destruct (TL k t Hk) as (w & p & r & d & B & Er & Ed & Ee & Dd).
    destruct (branch_of_ok _ _ _ _ B) as (x & Hx & En & Ep & Lp).
    destruct (BR w x p Hx Lp) as (y & Ey & Ly & By & _).
    destruct (RW w x Hx) as (R & ER & PR & SR); [lia|].
    assert (TF : turn_fact c T t r).
    { clear -F Hk Er. revert k Hk Er. induction F as [|t' r' l rs A F IH]; intros [|k] Hk Er;
        try discriminate; simpl in *; [injection Hk as <-; injection Er as <-; exact A|eauto]. }
    destruct TF as (w' & p' & x' & len & m & B' & Hx' & EL & PM & Er').
    rewrite B in B'. injection B' as <- <-. rewrite Hx in Hx'. injection Hx' as <-.
    assert (IN : In (t, r) (combine l rs)).
    { clear -Hk Er LR. revert rs k Hk Er LR. induction l as [|a l IH]; intros [|b rs] [|k] Hk Er LR;
        try discriminate; simpl in *.
      - injection Hk as ->. injection Er as ->. now left.
      - right. eapply IH; eauto. }
    destruct (proj1 (proj2 (S' w x p y Hx Lp Ey)) t r IN) as (v & Ev).
    { unfold belongs. rewrite B. now rewrite !Nat.eqb_refl. }
    destruct m as [m|]; [|subst r; discriminate]. apply per_meter_ok in PM as [Em Pm].
    rewrite Er' in Ev. cbn [escale] in Ev. injection Ev as Ev.
    set (I := nth w is 0) in *.
    assert (BC : branch_current I (nth w Rs None) (s w p) = Some (I * R / y)).
    { unfold branch_current. rewrite (nth_error_nth _ _ _ ER), Ey.
      destruct (Qeq_bool y 0) eqn:Z0; [apply Qeq_bool_iff in Z0; lra|reflexivity]. }
    rewrite BC in *.
    exists w, x, p, I, R, d, (I * R / y * (I * R / y) * v), v.
    assert (DI : d * I == I * R / y).
    { destruct (Qeq_bool I 0) eqn:Z0.
      - apply Qeq_bool_iff in Z0. subst d. rewrite Z0. field. lra.
      - cbn [ediv] in Dd. injection Dd as <-. apply Qeq_bool_neq in Z0. field. split; lra. }
    repeat split; auto.
    + rewrite <- En. now apply winding_index_nth.
    + now apply WC with x.
    + intros Z0. destruct (Qeq_bool I 0) eqn:Z1; [now subst d|]. apply Qeq_bool_neq in Z1. contradiction.
    + intros N. rewrite <- By. assert (d == R / y).
      { assert (X : d * I * / I == I * R / y * / I) by now rewrite DI.
        assert (d == d * I * / I) by (field; exact N). rewrite H, X. field. split; [lra|exact N]. }
      rewrite H. field. lra.
    + rewrite Ee, Er'. cbn [escale]. rewrite Ev. reflexivity.
    + now rewrite DI.
    + rewrite Er, Er'. cbn [escale]. now rewrite Ev.
    + exists len. repeat split; auto; rewrite <- Em; [rewrite <- Ev; ring|exact Pm].
  - set (ws := winding_losses _ _ _) in *.
    destruct (esum_intro (map e_ohmic ws)) as (q & A & B).
    { intros y Iy. apply in_map_iff in Iy as (e & <- & Ie). apply In_nth_error in Ie as (w & Ew).
      assert (Hw : (w < List.length (windings c))%nat).
      { rewrite <- LW. apply nth_error_Some. congruence. }
      destruct (nth_error (windings c) w) as [x|] eqn:Hx; [|apply nth_error_None in Hx; lia].
      destruct (WE w x Hx) as (q & Eq & _). fold ws in Eq. rewrite Ew in Eq. injection Eq as ->.
      cbn [e_ohmic]. eauto. }
    exists q. split; [exact A|]. rewrite B, map_map. reflexivity.
Qed.
