(** Ohmic losses of a coil: how the current of a winding divides, what it
    dissipates, which coils are refused (C89 to C92, C94). *)
From Coq Require Import ZArith QArith List String Bool Lia Lra Lqa.
From Verif Require Import Base QAux LossModel LossSpec LossProofs.
Import ListNotations.
Open Scope outcome_scope.
Open Scope string_scope.
Open Scope list_scope.
Open Scope Q_scope.

(** the RMS current the caller asks for in a winding: none means zero *)
Definition carries (op : operating_point) (w : nat) (I : Q) : Prop :=
  match nth_error op w with
  | None | Some None => I = 0
  | Some (Some i) => c_rms i = Some I \/ (c_rms i = None /\ c_derived i = Some (Ok (Some I)))
  end.
(** a number reported as such *)
Definition reported (x : option ext) (q : Q) : Prop := x = Some (Some q).
Definition ohmic_of (x : option element) (q : Q) : Prop :=
  exists e, x = Some e /\ e_ohmic e = Some q.

Lemma carries_current : forall op w I, carries op w I <-> winding_current op w = Ok I.
Proof.
  unfold carries, winding_current. intros op w I.
  destruct (nth_error op w) as [[i|]|]; try (split; congruence).
  destruct (c_rms i) as [r|].
  - split; [intros [[= ->]|[? _]]; [reflexivity|discriminate]|intros [= ->]; now left].
  - destruct (c_derived i) as [[[r|]|e|e|]|]; cbn [bind];
      (split; [intros [?|[_ ?]]; congruence|intros ?; right; split; congruence]).
Qed.

(** ** C89: how the current divides *)

(** every turn carries a share of its winding's current, between none and all
    of it, such that the voltage drop over each of the parallel conductors is the
    drop over the winding: share times ohms of the conductor is the same for all *)
Theorem C89_equal_drop : forall c op T o l k t w x p I,
  distinct c -> ohmic_losses c op T = Ok o -> turns c = Some l ->
  nth_error l k = Some t -> nth_error (windings c) w = Some x -> in_branch x p t = true ->
  carries op w I -> ~ I == 0 ->
  exists d R, reported (nth_error (divider_of_turn o) k) d /\
    reported (nth_error (resistance_of_winding o) w) R /\
    0 < d /\ d <= 1 /\ d * branch_ohms c l T x p == R.
Proof.
  intros c op T o l k t w x p I D H ET Hk Hx IB CI NI.
  destruct (ohmic_core c op T o D H) as (l' & ET' & _ & _ & _ & _ & _ & _ & _ & _ & W & K & _).
  rewrite ET in ET'. injection ET' as <-.
  destruct (K k t Hk) as (w' & x' & p' & I' & R & d & q & r & Iw & Hx' & En & Ep & Lp & CI' & ER & Ed & _ & DR & _).
  unfold in_branch in IB. apply andb_prop in IB as [N P]. apply String.eqb_eq in N. apply Z.eqb_eq in P.
  rewrite N in Iw. rewrite (winding_index_nth c w x D Hx) in Iw. injection Iw as <-.
  rewrite Hx in Hx'. injection Hx' as <-. assert (p' = p) by lia. subst p'.
  apply carries_current in CI. rewrite CI in CI'. injection CI' as <-.
  exists d, R. split; [exact Ed|]. split; [exact ER|]. specialize (DR NI).
  destruct (W w x Hx) as (BP & I2 & R2 & q2 & _ & RW & _).
  destruct RW as (ER2 & PR & SR); [lia|]. rewrite ER in ER2. injection ER2 as <-.
  destruct (BP p Lp) as [BPp _].
  assert (PD : 0 < d).
  { destruct (Qlt_le_dec 0 d) as [G|G]; [exact G|]. exfalso.
    assert (d * branch_ohms c l T x p <= 0 * branch_ohms c l T x p).
    { apply Qmult_le_compat_r; [exact G|lra]. } lra. }
  split; [exact PD|]. split; [|exact DR].
  (* R is no more than the branch *)
  assert (LE : R <= branch_ohms c l T x p).
  { assert (A : 1 / branch_ohms c l T x p
      <= each_branch (fun p => 1 / branch_ohms c l T x p) (w_parallels x)).
    { unfold each_branch.
      rewrite <- (Qsum_pick (fun p => 1 / branch_ohms c l T x p) p (w_parallels x) Lp).
      apply Qsum_map_le. intros p0 Ip. apply in_seq0 in Ip.
      destruct (Nat.eqb_spec p0 p) as [->|_]; [lra|]. apply Qlt_le_weak, one_over_pos.
      destruct (W w x Hx) as (BP' & _). now apply BP'. }
    set (b := branch_ohms c l T x p) in *.
    set (S' := each_branch _ _) in *.
    assert (X : R * (1 / b) <= R * S').
    { rewrite !(Qmult_comm R). apply Qmult_le_compat_r; [exact A|lra]. }
    rewrite SR in X. assert (Y : R * (1 / b) * b <= 1 * b) by (apply Qmult_le_compat_r; [exact X|lra]).
    assert (Z0 : R * (1 / b) * b == R) by (field; lra). lra. }
  assert (X : d * branch_ohms c l T x p <= 1 * branch_ohms c l T x p) by lra.
  apply Qmult_lt_0_le_reg_r in X; [exact X|exact BPp].
Qed.

(** the shares of the parallel conductors, one turn being taken of each, add up
    to the whole current *)
Theorem C89_shares_add_up : forall c op T o l w x I pick,
  distinct c -> ohmic_losses c op T = Ok o -> turns c = Some l ->
  nth_error (windings c) w = Some x -> (0 < w_parallels x)%nat ->
  carries op w I -> ~ I == 0 ->
  (forall p, (p < w_parallels x)%nat ->
     exists t, nth_error l (pick p) = Some t /\ in_branch x p t = true) ->
  exists share : nat -> Q,
    (forall p, (p < w_parallels x)%nat -> reported (nth_error (divider_of_turn o) (pick p)) (share p)) /\
    Qsum (map share (seq 0 (w_parallels x))) == 1.
Proof.
  intros c op T o l w x I pick D H ET Hx Hn CI NI Hp.
  exists (fun p => match nth_error (divider_of_turn o) (pick p) with Some (Some d) => d | _ => 0 end).
  destruct (ohmic_core c op T o D H) as (l' & ET' & _ & _ & _ & _ & _ & _ & _ & _ & W & _ & _).
  rewrite ET in ET'. injection ET' as <-.
  destruct (W w x Hx) as (BP & I2 & R2 & q2 & _ & RW & _). destruct (RW Hn) as (ER & PR & SR).
  assert (K : forall p, (p < w_parallels x)%nat ->
    exists d, reported (nth_error (divider_of_turn o) (pick p)) d /\ d == R2 * (1 / branch_ohms c l T x p)).
  { intros p Lp. destruct (Hp p Lp) as (t & Et & IB).
    destruct (C89_equal_drop c op T o l (pick p) t w x p I D H ET Et Hx IB CI NI)
      as (d & R & Ed & ER' & _ & _ & DR).
    unfold reported in ER'. rewrite ER in ER'. injection ER' as <-.
    exists d. split; [exact Ed|]. destruct (BP p Lp) as [BPp _]. rewrite <- DR. field. lra. }
  split.
  - intros p Lp. destruct (K p Lp) as (d & Ed & _). unfold reported in *. now rewrite Ed.
  - rewrite <- SR. unfold each_branch. rewrite <- Qsum_map_mul. apply Qsum_map_ext.
    intros p Ip. apply in_seq0 in Ip. destruct (K p Ip) as (d & Ed & V).
    unfold reported in Ed. rewrite Ed. exact V.
Qed.

(** without current nothing flows and nothing is dissipated *)
Theorem C89_no_current : forall c op T o l k t w x,
  distinct c -> ohmic_losses c op T = Ok o -> turns c = Some l ->
  nth_error l k = Some t -> nth_error (windings c) w = Some x -> t_winding t = w_name x ->
  carries op w 0 ->
  exists d q, reported (nth_error (divider_of_turn o) k) d /\ d == 0 /\
    ohmic_of (nth_error (per_turn o) k) q /\ q == 0.
Proof.
  intros c op T o l k t w x D H ET Hk Hx En CI.
  destruct (ohmic_core c op T o D H) as (l' & ET' & _ & _ & _ & _ & _ & _ & _ & _ & W & K & _).
  rewrite ET in ET'. injection ET' as <-.
  destruct (K k t Hk) as (w' & x' & p' & I' & R & d & q & r & Iw & Hx' & En' & Ep & Lp & CI' & ER & Ed & D0 & DR & Eq & Vq & _).
  rewrite En in Iw. rewrite (winding_index_nth c w x D Hx) in Iw. injection Iw as <-.
  apply carries_current in CI. rewrite CI in CI'. injection CI' as <-.
  exists d, q. split; [exact Ed|]. split; [apply D0; reflexivity|].
  split; [eexists; split; [exact Eq|reflexivity]|]. rewrite Vq. ring.
Qed.

(** ** C90: what is dissipated *)

(** a winding dissipates its current squared times its resistance, and its
    resistance is that of its conductors in parallel *)
Theorem C90_winding : forall c op T o l w x I,
  distinct c -> ohmic_losses c op T = Ok o -> turns c = Some l ->
  nth_error (windings c) w = Some x -> (0 < w_parallels x)%nat -> carries op w I ->
  exists q R, ohmic_of (nth_error (per_winding o) w) q /\
    (exists e, nth_error (per_winding o) w = Some e /\ e_name e = w_name x) /\
    reported (nth_error (resistance_of_winding o) w) R /\ 0 < R /\
    q == I * I * R /\
    R * Qsum (map (fun p => 1 / branch_ohms c l T x p) (seq 0 (w_parallels x))) == 1.
Proof.
  intros c op T o l w x I D H ET Hx Hn CI.
  destruct (ohmic_core c op T o D H) as (l' & ET' & _ & _ & _ & _ & _ & _ & _ & _ & W & _ & _).
  rewrite ET in ET'. injection ET' as <-.
  destruct (W w x Hx) as (BP & I2 & R & q & CI2 & RW & Ee & Vq). destruct (RW Hn) as (ER & PR & SR).
  apply carries_current in CI. rewrite CI in CI2. injection CI2 as <-.
  exists q, R. split; [eexists; split; [exact Ee|reflexivity]|].
  split; [eexists; split; [exact Ee|reflexivity]|]. split; [exact ER|]. split; [exact PR|].
  split; [|exact SR]. rewrite Vq.
  transitivity (I * I * R * (R * each_branch (fun p => 1 / branch_ohms c l T x p) (w_parallels x)));
    [|rewrite SR; ring].
  unfold each_branch. rewrite <- !Qsum_map_mul. apply Qsum_map_ext. intros p Ip. apply in_seq0 in Ip.
  destruct (BP p Ip) as [BPp _]. field. lra.
Qed.

(** a turn dissipates the square of its share of the current times the ohms of
    its length *)
Theorem C90_turn : forall c op T o l k t w x I,
  distinct c -> ohmic_losses c op T = Ok o -> turns c = Some l ->
  nth_error l k = Some t -> nth_error (windings c) w = Some x -> t_winding t = w_name x ->
  carries op w I ->
  exists d q r m, reported (nth_error (divider_of_turn o) k) d /\
    ohmic_of (nth_error (per_turn o) k) q /\
    (exists e, nth_error (per_turn o) k = Some e /\ e_name e = t_name t) /\
    reported (nth_error (resistance_of_turn o) k) r /\
    t_length t = Some m /\ r == ohm_per_metre x T * m /\ q == (d * I) * (d * I) * r.
Proof.
  intros c op T o l k t w x I D H ET Hk Hx En CI.
  destruct (ohmic_core c op T o D H) as (l' & ET' & _ & _ & _ & _ & _ & _ & _ & _ & W & K & _).
  rewrite ET in ET'. injection ET' as <-.
  destruct (K k t Hk) as (w' & x' & p' & I' & R & d & q & r & Iw & Hx' & En' & Ep & Lp & CI' & ER & Ed & D0 & DR & Eq & Vq & Er & m & Em & Vr & _).
  rewrite En in Iw. rewrite (winding_index_nth c w x D Hx) in Iw. injection Iw as <-.
  rewrite Hx in Hx'. injection Hx' as <-.
  apply carries_current in CI. rewrite CI in CI'. injection CI' as <-.
  exists d, q, r, m. split; [exact Ed|]. split; [eexists; split; [exact Eq|reflexivity]|].
  split; [eexists; split; [exact Eq|reflexivity]|]. auto.
Qed.

(** the total is the sum over the windings, all of them numbers *)
Theorem C90_total : forall c op T o, distinct c -> ohmic_losses c op T = Ok o ->
  exists q qs, total o = Some q /\ map e_ohmic (per_winding o) = map Some qs /\
    List.length qs = List.length (windings c) /\ q == Qsum qs.
Proof.
  intros c op T o D H.
  destruct (ohmic_core c op T o D H) as (l & _ & _ & _ & _ & LW & _ & _ & _ & _ & W & _ & q & Eq & Vq).
  exists q, (map (fun e => fin (e_ohmic e)) (per_winding o)). split; [exact Eq|].
  split; [|split; [now rewrite map_length|exact Vq]].
  rewrite map_map. apply map_ext_in. intros e Ie. apply In_nth_error in Ie as (w & Ew).
  assert (Hw : (w < List.length (windings c))%nat).
  { rewrite <- LW. apply nth_error_Some. congruence. }
  destruct (nth_error (windings c) w) as [x|] eqn:Hx; [|apply nth_error_None in Hx; lia].
  destruct (W w x Hx) as (_ & I & R & q' & _ & _ & Ee & _). rewrite Ew in Ee. injection Ee as ->. reflexivity.
Qed.

(** the resistances reported with the losses are those the DC resistance call
    gives *)
Theorem C90_same_resistance : forall c op T o, distinct c -> ohmic_losses c op T = Ok o ->
  dc_resistance_per_winding c T = Ok (resistance_of_winding o).
Proof. intros c op T o D H. destruct (ohmic_core c op T o D H) as (l & F). tauto. Qed.

(** sums over turns as sums over conductors *)
Lemma exchange : forall c (G : nat -> nat -> Q) l, distinct c ->
  (forall t, In t l -> exists w p, branch_of c t = Ok (w, p)) ->
  Qsum (map (fun t => match branch_of c t with Ok (w, p) => G w p * metres t | _ => 0 end) l)
  == Qsum (map (fun w => match nth_error (windings c) w with
                         | Some x => each_branch (fun p => G w p * turn_metres l x p) (w_parallels x)
                         | None => 0 end) (seq 0 (List.length (windings c)))).
Proof.
  intros c G l D. unfold turn_metres. induction l as [|t l IH]; intros F.
  { cbn [map Qsum filter]. symmetry. apply Qsum_map_zero. intros w _.
    destruct (nth_error (windings c) w); [|reflexivity]. apply Qsum_map_zero. intros p _. cbn [Qsum map]. ring. }
  assert (IH' := IH (fun t' I => F t' (or_intror I))). clear IH.
  destruct (F t (or_introl eq_refl)) as (w0 & p0 & B). cbn [map Qsum]. rewrite B, IH'.
  destruct (branch_of_ok _ _ _ _ B) as (x0 & Hx0 & En & Ep & Lp).
  assert (Lw : (w0 < List.length (windings c))%nat) by (apply nth_error_Some; congruence).
  rewrite <- (Qsum_pick (fun _ => G w0 p0 * metres t) w0 (List.length (windings c)) Lw).
  rewrite <- Qsum_map_add. apply Qsum_map_ext. intros w Iw.
  destruct (nth_error (windings c) w) as [x|] eqn:Hx.
  2:{ destruct (Nat.eqb_spec w w0) as [->|]; [congruence|ring]. }
  unfold each_branch.
  assert (E1 : (if Nat.eqb w w0 then G w0 p0 * metres t else 0)
    == Qsum (map (fun p => if in_branch x p t then G w p * metres t else 0) (seq 0 (w_parallels x)))).
  { destruct (Nat.eqb_spec w w0) as [->|N].
    - rewrite Hx0 in Hx. injection Hx as <-.
      rewrite <- (Qsum_pick (fun p => G w0 p * metres t) p0 (w_parallels x0) Lp).
      apply Qsum_map_ext. intros p _. unfold in_branch. rewrite En, String.eqb_refl, Ep. cbn [andb].
      destruct (Nat.eqb_spec p p0) as [->|N]; [now rewrite Z.eqb_refl|].
      replace (Z.of_nat p0 =? Z.of_nat p)%Z with false by (symmetry; apply Z.eqb_neq; lia). reflexivity.
    - symmetry. apply Qsum_map_zero. intros p _.
      rewrite <- (belongs_in_branch c t w0 p0 D B w x p Hx). unfold belongs. rewrite B.
      destruct (Nat.eqb_spec w0 w); [congruence|reflexivity]. }
  rewrite E1, <- Qsum_map_add. apply Qsum_map_ext. intros p _. cbn [filter].
  destruct (in_branch x p t); cbn [map Qsum]; ring.
Qed.

Lemma Qsum_nth : forall A (d : A) (f : A -> Q) l,
  Qsum (map f l) == Qsum (map (fun k => match nth_error l k with Some a => f a | None => 0 end)
                              (seq 0 (List.length l))).
Proof.
  intros A d f l. induction l as [|a l IH]; [reflexivity|].
  cbn [List.length seq map Qsum nth_error]. rewrite <- seq_shift, map_map, IH. reflexivity.
Qed.

Lemma each_zero_add : forall f g n,
  each_branch (fun p => f p + g p) n == each_branch f n + each_branch g n.
Proof. intros. apply Qsum_map_add. Qed.

(** what is dissipated is dissipated in the turns or in the leads *)
Theorem C90_turns_and_leads : forall c op T o l (I R : nat -> Q) (x : nat -> winding),
  distinct c -> ohmic_losses c op T = Ok o -> turns c = Some l ->
  (forall w, (w < List.length (windings c))%nat ->
     nth_error (windings c) w = Some (x w) /\ carries op w (I w) /\
     ((0 < w_parallels (x w))%nat -> reported (nth_error (resistance_of_winding o) w) (R w))) ->
  exists q qs, total o = Some q /\ map e_ohmic (per_turn o) = map Some qs /\
    q == Qsum qs +
      Qsum (map (fun w => Qsum (map (fun p =>
        let J := I w * R w / branch_ohms c l T (x w) p in
        J * J * (ohm_per_metre (x w) T * charged_lead c (x w) p)) (seq 0 (w_parallels (x w)))))
        (seq 0 (List.length (windings c)))).
Proof.
  intros c op T o l I R x D H ET Hw.
  destruct (ohmic_core c op T o D H) as (l' & ET' & LT & _ & _ & LW & _ & _ & _ & _ & W & K & q & Eq & Vq).
  rewrite ET in ET'. injection ET' as <-.
  exists q, (map (fun e => fin (e_ohmic e)) (per_turn o)). split; [exact Eq|].
  assert (KT : forall e, In e (per_turn o) -> exists k t, nth_error (per_turn o) k = Some e /\ nth_error l k = Some t).
  { intros e Ie. apply In_nth_error in Ie as (k & Ek). exists k.
    assert ((k < List.length l)%nat) by (rewrite <- LT; apply nth_error_Some; congruence).
    destruct (nth_error l k) as [t|] eqn:Et; [exists t; auto|apply nth_error_None in Et; lia]. }
  split.
  { rewrite map_map. apply map_ext_in. intros e Ie. destruct (KT e Ie) as (k & t & Ek & Et).
    destruct (K k t Et) as (w' & x' & p' & I' & R' & d & q' & r & _ & _ & _ & _ & _ & _ & _ & _ & _ & _ & Ee & _).
    rewrite Ek in Ee. injection Ee as ->. reflexivity. }
  set (J := fun w p => I w * R w / branch_ohms c l T (x w) p).
  (* the turns *)
  assert (TS : Qsum (map (fun e => fin (e_ohmic e)) (per_turn o))
    == Qsum (map (fun t => match branch_of c t with
         Ok (w, p) => (J w p * J w p * ohm_per_metre (x w) T) * metres t | _ => 0 end) l)).
  { rewrite (Qsum_nth _ (mkElement "" None None None)), (Qsum_nth turn (mkTurn "" "" 0 None None None) _ l), LT.
    apply Qsum_map_ext. intros k Ik. apply in_seq0 in Ik.
    destruct (nth_error l k) as [t|] eqn:Et; [|apply nth_error_None in Et; lia].
    destruct (K k t Et) as (w & x' & p & I' & R' & d & q' & r & Iw & Hx & En & Ep & Lp & CI & ER & Ed & D0 & DR & Ee & Vq' & Er & m & Em & Vr & _).
    rewrite Ee. cbn [e_ohmic fin].
    assert (B : branch_of c t = Ok (w, p)).
    { unfold branch_of. rewrite Iw. cbn [bind]. now rewrite (parallels_nth c w x' Hx), Ep, index_in_nat. }
    rewrite B.
    assert (Lw : (w < List.length (windings c))%nat) by (apply nth_error_Some; congruence).
    destruct (Hw w Lw) as (Hx2 & CI2 & ER2). rewrite Hx in Hx2. injection Hx2 as Ex.
    apply carries_current in CI2. rewrite CI in CI2. injection CI2 as ->.
    rewrite <- Ex in ER2. specialize (ER2 ltac:(lia)). unfold reported in ER2. rewrite ER in ER2. injection ER2 as ->.
    rewrite Vq', Vr. unfold metres, J. rewrite Em, <- Ex.
    destruct (W w x' Hx) as (BP & _). destruct (BP p Lp) as [BPp _].
    assert (DJ : d * I w == I w * R w / branch_ohms c l T x' p).
    { destruct (Qeq_dec (I w) 0) as [Z0|N]; [rewrite (D0 Z0), Z0; field; lra|].
      rewrite <- (DR N). field. lra. }
    rewrite DJ. ring. }
  rewrite TS. clear TS. rewrite (exchange c (fun w p => J w p * J w p * ohm_per_metre (x w) T) l D).
  2:{ intros t It. apply In_nth_error in It as (k & Et).
      destruct (K k t Et) as (w & x' & p & _ & _ & _ & _ & _ & Iw & Hx & _ & Ep & Lp & _).
      exists w, p. unfold branch_of. rewrite Iw. cbn [bind].
      now rewrite (parallels_nth c w x' Hx), Ep, index_in_nat. }
  rewrite Vq, (Qsum_nth _ (mkElement "" None None None)), LW, <- Qsum_map_add.
  apply Qsum_map_ext. intros w Iw. apply in_seq0 in Iw.
  destruct (Hw w Iw) as (Hx & CI & ER). rewrite Hx.
  destruct (W w (x w) Hx) as (BP & I2 & R2 & q2 & CI2 & RW & Ee & V2). rewrite Ee. cbn [e_ohmic fin].
  rewrite V2. apply carries_current in CI. rewrite CI in CI2. injection CI2 as <-.
  unfold each_branch. rewrite <- Qsum_map_add. apply Qsum_map_ext. intros p Ip. apply in_seq0 in Ip.
  destruct RW as (ER2 & _); [lia|]. specialize (ER ltac:(lia)). unfold reported in ER. rewrite ER2 in ER. injection ER as ->.
  destruct (BP p Ip) as [BPp _]. unfold J, branch_ohms in *. cbv zeta. ring.
Qed.

Lemma chosen : forall c op T o l, distinct c -> ohmic_losses c op T = Ok o -> turns c = Some l ->
  exists (I R : nat -> Q) (x : nat -> winding),
  forall w, (w < List.length (windings c))%nat ->
     nth_error (windings c) w = Some (x w) /\ carries op w (I w) /\
     ((0 < w_parallels (x w))%nat -> reported (nth_error (resistance_of_winding o) w) (R w)).
Proof.
  intros c op T o l D H ET.
  destruct (ohmic_core c op T o D H) as (l' & ET' & LT & _ & _ & LW & _ & _ & _ & _ & W & _ & _).
  exists (fun w => match winding_current op w with Ok i => i | _ => 0 end),
    (fun w => match nth_error (resistance_of_winding o) w with Some (Some r) => r | _ => 0 end),
    (fun w => nth w (windings c) (mkWinding "" 0 0 (mkMaterial 0 0 0) 0 false None)).
  intros w Hw. split; [now apply nth_error_nth'|].
  destruct (nth_error (windings c) w) as [x|] eqn:Hx; [|apply nth_error_None in Hx; lia].
  rewrite (nth_error_nth _ _ _ Hx). destruct (W w x Hx) as (_ & I & R & q & CI & RW & _). split.
  - apply carries_current. now rewrite CI.
  - intros Hn. destruct (RW Hn) as (ER & _). unfold reported. now rewrite ER.
Qed.

(** leads left out, everything is dissipated in the turns *)
Theorem C90_ideal : forall c op T o, distinct c -> ohmic_losses c op T = Ok o ->
  real_geometry c = false ->
  exists q qs, total o = Some q /\ map e_ohmic (per_turn o) = map Some qs /\ q == Qsum qs.
Proof.
  intros c op T o D H G.
  destruct (ohmic_core c op T o D H) as (l & ET & _).
  destruct (chosen c op T o l D H ET) as (I & R & x & Hw).
  destruct (C90_turns_and_leads c op T o l I R x D H ET Hw) as (q & qs & A & B & C).
  exists q, qs. split; [exact A|]. split; [exact B|]. rewrite C.
  rewrite (Qsum_map_zero _ _ (seq 0 (List.length (windings c)))); [ring|].
  intros w _. apply Qsum_map_zero. intros p _. cbv zeta. unfold charged_lead, lead_metres. rewrite G.
  destruct (existsb _ _); ring.
Qed.

(** leads of a length that is not negative never make the turns account for more
    than the total *)
Theorem C90_turns_at_most : forall c op T o, distinct c -> ohmic_losses c op T = Ok o ->
  (forall x p, In x (windings c) -> (p < w_parallels x)%nat ->
     0 <= lead_metres c x p /\ 0 <= ohm_per_metre x T) ->
  exists q qs, total o = Some q /\ map e_ohmic (per_turn o) = map Some qs /\ Qsum qs <= q.
Proof.
  intros c op T o D H G.
  destruct (ohmic_core c op T o D H) as (l & ET & _).
  destruct (chosen c op T o l D H ET) as (I & R & x & Hw).
  destruct (C90_turns_and_leads c op T o l I R x D H ET Hw) as (q & qs & A & B & C).
  exists q, qs. split; [exact A|]. split; [exact B|]. rewrite C.
  assert (0 <= Qsum (map (fun w => Qsum (map (fun p =>
        let J := I w * R w / branch_ohms c l T (x w) p in
        J * J * (ohm_per_metre (x w) T * charged_lead c (x w) p)) (seq 0 (w_parallels (x w)))))
        (seq 0 (List.length (windings c))))).
  { apply Qsum_nonneg, Forall_map, Forall_forall. intros w Iw. apply in_seq0 in Iw.
    apply Qsum_nonneg, Forall_map, Forall_forall. intros p Ip. apply in_seq0 in Ip. cbv zeta.
    destruct (Hw w Iw) as (Hx & _). destruct (G (x w) p (nth_error_In _ _ Hx) Ip) as [G1 G2].
    set (J := I w * R w / _). assert (0 <= J * J) by (destruct (Qlt_le_dec J 0); nra).
    assert (0 <= charged_lead c (x w) p) by (unfold charged_lead; destruct (existsb _ _); [exact G1|lra]).
    apply Qmult_le_0_compat; [assumption|]. now apply Qmult_le_0_compat. }
  lra.
Qed.

(** ** C91: the division is the one nature makes, and resistances order *)

(** no other way of dividing the current over the conductors dissipates less *)
Theorem C91_least_dissipation : forall c op T o l w x I (j : nat -> Q),
  distinct c -> ohmic_losses c op T = Ok o -> turns c = Some l ->
  nth_error (windings c) w = Some x -> (0 < w_parallels x)%nat -> carries op w I ->
  Qsum (map j (seq 0 (w_parallels x))) == I ->
  exists q, ohmic_of (nth_error (per_winding o) w) q /\
    q <= Qsum (map (fun p => j p * j p * branch_ohms c l T x p) (seq 0 (w_parallels x))).
Proof.
  intros c op T o l w x I j D H ET Hx Hn CI SJ.
  destruct (C90_winding c op T o l w x I D H ET Hx Hn CI) as (q & R & Eq & _ & ER & PR & Vq & SR).
  exists q. split; [exact Eq|].
  destruct (ohmic_core c op T o D H) as (l' & ET' & _ & _ & _ & _ & _ & _ & _ & _ & W & _ & _).
  rewrite ET in ET'. injection ET' as <-. destruct (W w x Hx) as (BP & _).
  set (b := branch_ohms c l T x) in *. set (ps := seq 0 (w_parallels x)) in *.
  assert (X : Qsum (map (fun p => j p * j p * b p) ps) ==
    q + Qsum (map (fun p => b p * ((j p - I * R / b p) * (j p - I * R / b p))) ps)).
  { rewrite Vq.
    assert (E1 : Qsum (map (fun p => b p * ((j p - I * R / b p) * (j p - I * R / b p))) ps) ==
      Qsum (map (fun p => j p * j p * b p) ps) + Qsum (map (fun p => (- (2) * I * R) * j p) ps)
      + Qsum (map (fun p => (I * I * R * R) * (1 / b p)) ps)).
    { rewrite <- !Qsum_map_add. apply Qsum_map_ext. intros p Ip. apply in_seq0 in Ip.
      destruct (BP p Ip) as [BPp _]. fold b in BPp. field. lra. }
    rewrite E1, !Qsum_map_mul, SJ.
    assert (E2 : (I * I * R * R) * Qsum (map (fun p => 1 / b p) ps) == I * I * R).
    { transitivity (I * I * R * (R * Qsum (map (fun p => 1 / b p) ps))); [ring|]. rewrite SR. ring. }
    rewrite E2. ring. }
  rewrite X. assert (0 <= Qsum (map (fun p => b p * ((j p - I * R / b p) * (j p - I * R / b p))) ps)).
  { apply Qsum_nonneg, Forall_map, Forall_forall. intros p Ip. apply in_seq0 in Ip.
    destruct (BP p Ip) as [BPp _]. fold b in BPp. set (y := j p - _).
    assert (0 <= y * y) by (destruct (Qlt_le_dec y 0); nra). apply Qmult_le_0_compat; lra. }
  lra.
Qed.

Lemma parallel_mono : forall (b b' : nat -> Q) n R R', (0 < n)%nat ->
  (forall p, (p < n)%nat -> 0 < b p /\ b p <= b' p) -> 0 < R' ->
  R * Qsum (map (fun p => 1 / b p) (seq 0 n)) == 1 ->
  R' * Qsum (map (fun p => 1 / b' p) (seq 0 n)) == 1 -> R <= R'.
Proof.
  intros b b' n R R' Hn B PR' S1 S2.
  set (A := Qsum (map (fun p => 1 / b p) (seq 0 n))) in *.
  set (A' := Qsum (map (fun p => 1 / b' p) (seq 0 n))) in *.
  assert (L : A' <= A).
  { apply Qsum_map_le. intros p Ip. apply in_seq0 in Ip. destruct (B p Ip) as [P Q'].
    apply Qdiv_le_iff; [lra|]. assert (E : 1 / b p * b' p == b' p / b p) by (field; lra).
    rewrite E. apply Qle_div_iff; [exact P|]. lra. }
  assert (PA : 0 < A).
  { apply Qsum_map_pos; [intros p Ip; apply in_seq0 in Ip; now apply one_over_pos, B|].
    destruct n; [lia|discriminate]. }
  assert (X : R' * A' <= R' * A) by (rewrite !(Qmult_comm R'); apply Qmult_le_compat_r; lra).
  rewrite S2, <- S1 in X. now apply Qmult_lt_0_le_reg_r in X.
Qed.

(** a winding resists no more than any of its conductors *)
Theorem C91_below_each_conductor : forall c op T o l w x p,
  distinct c -> ohmic_losses c op T = Ok o -> turns c = Some l ->
  nth_error (windings c) w = Some x -> (p < w_parallels x)%nat ->
  exists R, reported (nth_error (resistance_of_winding o) w) R /\
    0 < R /\ R <= branch_ohms c l T x p.
Proof.
  intros c op T o l w x p D H ET Hx Lp.
  destruct (ohmic_core c op T o D H) as (l' & ET' & _ & _ & _ & _ & _ & _ & _ & _ & W & _ & _).
  rewrite ET in ET'. injection ET' as <-. destruct (W w x Hx) as (BP & I & R & q & _ & RW & _).
  destruct RW as (ER & PR & SR); [lia|]. exists R. split; [exact ER|]. split; [exact PR|].
  set (b := branch_ohms c l T x) in *. assert (Pb : 0 < b p) by now apply BP.
  assert (A : 1 / b p <= each_branch (fun p => 1 / b p) (w_parallels x)).
  { unfold each_branch. rewrite <- (Qsum_pick (fun p => 1 / b p) p (w_parallels x) Lp).
    apply Qsum_map_le. intros p0 Ip. apply in_seq0 in Ip.
    destruct (Nat.eqb_spec p0 p) as [->|_]; [lra|]. apply Qlt_le_weak, one_over_pos. now apply BP. }
  set (S' := each_branch _ _) in *.
  assert (X : R * (1 / b p) <= R * S').
  { rewrite !(Qmult_comm R). apply Qmult_le_compat_r; [exact A|lra]. }
  rewrite SR in X. assert (Y : R * (1 / b p) * b p <= 1 * b p) by (apply Qmult_le_compat_r; [exact X|lra]).
  assert (Z0 : R * (1 / b p) * b p == R) by (field; lra). lra.
Qed.

Lemma dc_core : forall c T rs, distinct c -> dc_resistance_per_winding c T = Ok rs ->
  exists l, turns c = Some l /\ forall w x, nth_error (windings c) w = Some x ->
    (forall p, (p < w_parallels x)%nat -> 0 < branch_ohms c l T x p /\ 0 < ohm_per_metre x T) /\
    ((0 < w_parallels x)%nat -> exists R, reported (nth_error rs w) R /\ 0 < R /\
       R * Qsum (map (fun p => 1 / branch_ohms c l T x p) (seq 0 (w_parallels x))) == 1).
Proof.
  intros c T rs D H.
  destruct (turns c) as [l|] eqn:ET; [|unfold dc_resistance_per_winding in H; rewrite ET in H; discriminate].
  (* losses without current use the same resistances *)
  assert (O : exists o, ohmic_losses c [] T = Ok o).
  { pose proof H as H'. unfold dc_resistance_per_winding in H'. rewrite ET in H'.
    step H'. destruct x as [rt s]. cbn [snd] in H'. unfold ohmic_losses. rewrite ET.
    assert (C : forall ws, exists is, winding_currents [] ws = Ok is /\ forall w, nth w is 0 = 0).
    { induction ws as [|w ws (is & A & B)]; [exists []; split; [reflexivity|now intros [|]]|].
      exists (0 :: is). cbn [winding_currents]. unfold winding_current.
      replace (nth_error (@nil (option current)) w) with (@None (option current)) by now destruct w.
      cbn [bind]. rewrite A. cbn [bind]. split; [reflexivity|]. intros [|w']; [reflexivity|apply B]. }
    destruct (C (seq 0 (List.length (windings c)))) as (is & A & B). rewrite A. cbn [bind].
    rewrite E. cbn [bind]. rewrite H'. cbn [bind].
    destruct (branches_ok c T l rt s D E) as [F _].
    assert (TLx : forall b, exists es, turn_losses c is b l rt = Ok es).
    { intros b. clear -F B. induction F as [|t r l rs (w & p & x & len & m & Bt & _) F IH]; [eexists; reflexivity|].
      cbn [turn_losses]. rewrite Bt. cbn [bind fst snd]. rewrite B. cbn [Qeq_bool].
      change (Qeq_bool 0 0) with true. cbn iota. destruct IH as (es & ->). cbn [bind]. eauto. }
    match goal with |- exists o, bind (turn_losses _ _ ?b _ _) _ = _ => destruct (TLx b) as (es & ->) end.
    cbn [bind]. eauto. }
  destruct O as (o & O). pose proof (C90_same_resistance c [] T o D O) as SR. rewrite H in SR. injection SR as ->.
  destruct (ohmic_core c [] T o D O) as (l' & ET' & _ & _ & _ & _ & _ & _ & _ & _ & W & _ & _).
  rewrite ET in ET'. injection ET' as <-. exists l. split; [reflexivity|]. intros w x Hx.
  destruct (W w x Hx) as (BP & I & R & q & _ & RW & _). split; [exact BP|]. intros Hn.
  destruct (RW Hn) as (A & B & C). exists R. auto.
Qed.

(** the same coil with leads left out *)
Definition without_leads (c : coil) : coil :=
  mkCoil (windings c) (turns c) (spaces c) (layers c) (sections c) false.

(** leads never lower the resistance of a winding *)
Theorem C91_leads_never_help : forall c T rs rs' w x,
  distinct c -> dc_resistance_per_winding (without_leads c) T = Ok rs ->
  dc_resistance_per_winding c T = Ok rs' ->
  nth_error (windings c) w = Some x -> (0 < w_parallels x)%nat ->
  (forall p, (p < w_parallels x)%nat -> 0 <= lead_metres c x p) ->
  exists R R', reported (nth_error rs w) R /\ reported (nth_error rs' w) R' /\ R <= R'.
Proof.
  intros c T rs rs' w x D H H' Hx Hn PL.
  destruct (dc_core (without_leads c) T rs D H) as (l & ET & W).
  destruct (dc_core c T rs' D H') as (l' & ET' & W'). cbn [without_leads turns] in ET.
  rewrite ET in ET'. injection ET' as <-.
  destruct (W w x Hx) as (B1 & R1). destruct (W' w x Hx) as (B2 & R2).
  destruct (R1 Hn) as (R & ER & PR & SR). destruct (R2 Hn) as (R' & ER' & PR' & SR').
  exists R, R'. split; [exact ER|]. split; [exact ER'|].
  eapply parallel_mono; [exact Hn| |exact PR'|exact SR|exact SR'].
  intros p Lp. split; [now apply B1|]. destruct (B1 p Lp) as [_ PO]. unfold branch_ohms.
  rewrite !(Qmult_comm (ohm_per_metre x T)). apply Qmult_le_compat_r; [|lra].
  assert (Z0 : charged_lead (without_leads c) x p == 0).
  { unfold charged_lead, lead_metres. cbn [without_leads real_geometry]. destruct (existsb _ _); reflexivity. }
  rewrite Z0. assert (0 <= charged_lead c x p).
  { unfold charged_lead. destruct (existsb _ _); [now apply PL|lra]. } lra.
Qed.

(** a hotter winding of a metal resists no less *)
Theorem C91_hotter : forall c T T' rs rs' w x,
  distinct c -> dc_resistance_per_winding c T = Ok rs -> dc_resistance_per_winding c T' = Ok rs' ->
  nth_error (windings c) w = Some x -> (0 < w_parallels x)%nat ->
  T <= T' -> 0 <= coefficient (w_material x) -> 0 <= reference_value (w_material x) -> 0 < w_area x ->
  exists R R', reported (nth_error rs w) R /\ reported (nth_error rs' w) R' /\ R <= R'.
Proof.
  intros c T T' rs rs' w x D H H' Hx Hn LT Pc Pr Pa.
  destruct (dc_core c T rs D H) as (l & ET & W).
  destruct (dc_core c T' rs' D H') as (l' & ET' & W').
  rewrite ET in ET'. injection ET' as <-.
  destruct (W w x Hx) as (B1 & R1). destruct (W' w x Hx) as (B2 & R2).
  destruct (R1 Hn) as (R & ER & PR & SR). destruct (R2 Hn) as (R' & ER' & PR' & SR').
  exists R, R'. split; [exact ER|]. split; [exact ER'|].
  eapply parallel_mono; [exact Hn| |exact PR'|exact SR|exact SR'].
  intros p Lp. split; [now apply B1|]. destruct (B1 p Lp) as [P1 PO].
  unfold branch_ohms in *. set (m := turn_metres l x p + charged_lead c x p) in *.
  assert (LO : ohm_per_metre x T <= ohm_per_metre x T').
  { unfold ohm_per_metre, Qdiv. apply Qmult_le_compat_r; [|apply Qlt_le_weak; now apply Qinv_lt_0_compat].
    rewrite !(Qmult_comm (reference_value (w_material x))). apply Qmult_le_compat_r; [|exact Pr].
    assert (coefficient (w_material x) * (T - reference_temperature (w_material x))
         <= coefficient (w_material x) * (T' - reference_temperature (w_material x))).
    { rewrite !(Qmult_comm (coefficient (w_material x))). apply Qmult_le_compat_r; [lra|exact Pc]. }
    lra. }
  apply Qmult_le_compat_r; [exact LO|].
  destruct (Qlt_le_dec m 0) as [Nm|Pm]; [exfalso|exact Pm].
  assert (m * ohm_per_metre x T <= 0 * ohm_per_metre x T) by (apply Qmult_le_compat_r; lra). lra.
Qed.

(** ** C92: which coils are refused *)

(** every turn is a turn of a winding of the coil, of one of its conductors, and
    has a length *)
Definition turns_in_place (c : coil) (l : list turn) : Prop :=
  forall t, In t l -> exists x p m, In x (windings c) /\ w_name x = t_winding t /\
    t_parallel t = Z.of_nat p /\ (p < w_parallels x)%nat /\ t_length t = Some m.
(** the wires have a section and a resistivity *)
Definition wires_conduct (c : coil) (T : Q) : Prop :=
  forall x, In x (windings c) -> ~ w_area x == 0 /\ 0 < ohm_per_metre x T.
(** connections are of windings of the coil, and measured *)
Definition leads_in_place (c : coil) : Prop :=
  real_geometry c = true ->
  (forall x, In x (windings c) -> w_planar x = false) /\
  forall s, In s (spaces c) -> s_routed s <> None /\ exists x, In x (windings c) /\ w_name x = s_winding s.
(** each winding's RMS current is known *)
Definition currents_known (c : coil) (op : operating_point) : Prop :=
  forall w, (w < List.length (windings c))%nat -> exists I, carries op w I.

Lemma per_meter_intro : forall x T, ~ w_area x == 0 -> 0 < ohm_per_metre x T ->
  per_meter x T = Ok (Some (ohm_per_metre x T)).
Proof.
  intros x T A P. unfold per_meter, resistivity, ohm_per_metre in *.
  destruct (Qeq_bool (w_area x) 0) eqn:E; [apply Qeq_bool_iff in E; contradiction|].
  destruct (Qle_bool _ 0) eqn:L; [|reflexivity]. apply Qle_bool_iff in L. lra.
Qed.
Lemma in_index : forall c x, distinct c -> In x (windings c) ->
  exists w, nth_error (windings c) w = Some x /\ winding_index c (w_name x) = Ok w.
Proof.
  intros c x D I. apply In_nth_error in I as (w & Ew). exists w. split; [exact Ew|].
  now apply winding_index_nth.
Qed.

Lemma turn_loop_intro : forall c T l s0, distinct c -> turns_in_place c l -> wires_conduct c T ->
  exists rs s, turn_loop c T l s0 = Ok (rs, s) /\
    forall r, In r rs -> exists v, r = Some v.
Proof.
  intros c T l. induction l as [|t l IH]; intros s0 D P C.
  { exists [], s0. split; [reflexivity|intros ? []]. }
  destruct (P t (or_introl eq_refl)) as (x & p & m & Ix & En & Ep & Lp & Em).
  destruct (in_index c x D Ix) as (w & Hx & Iw). rewrite En in Iw.
  destruct (C x Ix) as [A Po]. cbn [turn_loop]. rewrite Iw. cbn [bind]. rewrite Hx.
  unfold turn_resistance. rewrite Em, (per_meter_intro x T A Po). cbn [bind].
  unfold branch_of. rewrite Iw. cbn [bind]. rewrite (parallels_nth c w x Hx), Ep, index_in_nat by exact Lp.
  cbn [bind fst snd escale].
  destruct (IH (eadd_to s0 w p (Some (m * ohm_per_metre x T))) D (fun t' I => P t' (or_intror I)) C)
    as (rs & s & E & F). rewrite E. cbn [bind fst snd].
  eexists _, _. split; [reflexivity|]. intros r [<-|I]; [eauto|auto].
Qed.

Lemma reserve_intro : forall c l cr te, distinct c ->
  (forall s, In s l -> s_routed s <> None /\ exists x, In x (windings c) /\ w_name x = s_winding s) ->
  exists o, reserve c l cr te = Ok o.
Proof.
  intros c l. induction l as [|s l IH]; intros cr te D F; [eexists; reflexivity|].
  destruct (F s (or_introl eq_refl)) as (N & x & Ix & En).
  destruct (in_index c x D Ix) as (w & Hx & Iw). rewrite En in Iw. cbn [reserve]. rewrite Iw. cbn [bind].
  assert (F' := fun s' I => F s' (or_intror I)).
  destruct (index_in _ _); [|now apply IH]. destruct (s_routed s); [|congruence].
  destruct (s_terminal s); now apply IH.
Qed.
Lemma connection_length_intro : forall c, distinct c -> leads_in_place c ->
  exists len, connection_length c = Ok len.
Proof.
  intros c D L. unfold connection_length. destruct (real_geometry c) eqn:G; cbn [negb]; [|eauto].
  destruct (L G) as [P S'].
  replace (existsb w_planar (windings c)) with false.
  2:{ symmetry. destruct (existsb w_planar (windings c)) eqn:E; [|reflexivity].
      apply existsb_exists in E as (x & Ix & Ex). rewrite (P x Ix) in Ex. discriminate. }
  destruct (reserve_intro c (spaces c) (fun _ _ => 0) (fun _ _ => 0) D S') as ([cr te] & E).
  rewrite E. cbn [bind]. eauto.
Qed.
Lemma connection_resistance_intro : forall T len l i,
  (forall x, In x l -> ~ w_area x == 0 /\ 0 < ohm_per_metre x T) ->
  exists rows, connection_resistance T len l i = Ok rows /\
    forall row, In row rows -> forall p, exists v, row p = Some v.
Proof.
  intros T len l. induction l as [|x l IH]; intros i F.
  { exists []. split; [reflexivity|intros ? []]. }
  cbn [connection_resistance]. destruct (F x (or_introl eq_refl)) as [A P].
  destruct (IH (S i) (fun x' I => F x' (or_intror I))) as (rows & E & V).
  destruct (existsb _ _).
  - rewrite (per_meter_intro x T A P). cbn [bind]. rewrite E. cbn [bind]. eexists. split; [reflexivity|].
    intros row [<-|I] p; [cbn [escale]; eauto|now apply V].
  - cbn [bind]. rewrite E. cbn [bind]. eexists. split; [reflexivity|].
    intros row [<-|I] p; [eauto|now apply V].
Qed.
Lemma turn_series_finite : forall c l rs s0 w p,
  (forall r, In r rs -> exists v, r = Some v) -> (exists a, s0 = Some a) ->
  exists v, fold_left (fun a '(t, r) => if belongs c t w p then eadd a r else a) (combine l rs) s0 = Some v.
Proof.
  intros c l rs s0 w p. revert rs s0. induction l as [|t l IH]; intros rs s0 F (a & ->); [simpl; eauto|].
  destruct rs as [|r rs]; [simpl; eauto|]. cbn [combine fold_left]. apply IH; [intros; apply F; now right|].
  destruct (belongs c t w p); [|eauto]. destruct (F r (or_introl eq_refl)) as (v & ->). simpl. eauto.
Qed.
Lemma branches_intro : forall c T l, distinct c -> turns_in_place c l -> wires_conduct c T -> leads_in_place c ->
  exists rs s, branches c T l = Ok (rs, s) /\ forall w p, exists v, s w p = Some v.
Proof.
  intros c T l D P C L. unfold branches.
  destruct (turn_loop_intro c T l no_resistance D P C) as (rs & s & E & F). rewrite E. cbn [bind fst snd].
  destruct (connection_length_intro c D L) as (len & EL). rewrite EL. cbn [bind].
  destruct (connection_resistance_intro T len (windings c) 0 C) as (rows & ER & V). rewrite ER. cbn [bind].
  eexists _, _. split; [reflexivity|]. intros w p. unfold with_leads.
  destruct (turn_loop_ok _ _ _ _ _ _ E) as [_ S0].
  assert (V0 : exists v, s w p = Some v).
  { rewrite S0. apply turn_series_finite; [exact F|]. unfold no_resistance. eauto. }
  destruct V0 as (v & ->).
  destruct (nth_in_or_default w rows (fun _ => Some 0)) as [I|Eq].
  - destruct (V _ I p) as (v' & ->). simpl. eauto.
  - rewrite Eq. simpl. eauto.
Qed.
Lemma resistance_loop_intro : forall s l i,
  (forall k x p, nth_error l k = Some x -> (p < w_parallels x)%nat ->
     exists r, s (i + k)%nat p = Some r /\ 0 < r) ->
  exists rs, resistance_loop s l i = Ok rs.
Proof.
  intros s l. induction l as [|x l IH]; intros i F; [eexists; reflexivity|]. cbn [resistance_loop].
  destruct (conductance_intro (s i) (seq 0 (w_parallels x)) 0) as (g & ->).
  { intros p Ip. apply in_seq0 in Ip. destruct (F 0%nat x p eq_refl Ip) as (r & A & B).
    rewrite Nat.add_0_r in A. eauto. }
  cbn [bind]. destruct (IH (S i)) as (rs & ->).
  { intros k y p Hk Lp. destruct (F (S k) y p Hk Lp) as (r & A & B). rewrite Nat.add_succ_r in A. eauto. }
  cbn [bind]. eauto.
Qed.

(** a coil that is in place and whose conductors all have copper is accepted *)
Theorem C92_accepted : forall c op T l,
  distinct c -> turns c = Some l -> turns_in_place c l -> wires_conduct c T -> leads_in_place c ->
  currents_known c op ->
  (forall x p, In x (windings c) -> (p < w_parallels x)%nat ->
     0 < turn_metres l x p + charged_lead c x p) ->
  (exists o, ohmic_losses c op T = Ok o) /\ exists rs, dc_resistance_per_winding c T = Ok rs.
Proof.
  intros c op T l D ET P C L K B.
  destruct (branches_intro c T l D P C L) as (rs & s & E & V).
  destruct (branches_ok c T l rs s D E) as [F S'].
  assert (PB : forall w x p, nth_error (windings c) w = Some x -> (p < w_parallels x)%nat ->
    exists r, s w p = Some r /\ 0 < r).
  { intros w x p Hx Lp. destruct (V w p) as (v & Ev). exists v. split; [exact Ev|].
    destruct (S' w x p v Hx Lp Ev) as (-> & _). unfold branch_ohms.
    apply Qmult_lt_0_compat; [apply C; eapply nth_error_In; eauto|apply B; [eapply nth_error_In; eauto|exact Lp]]. }
  destruct (resistance_loop_intro s (windings c) 0) as (Rs & ER); [exact PB|].
  split; [|exists Rs; unfold dc_resistance_per_winding; rewrite ET, E; exact ER].
  unfold ohmic_losses. rewrite ET.
  assert (CK : exists is, winding_currents op (seq 0 (List.length (windings c))) = Ok is).
  { assert (G : forall m k, (k + m <= List.length (windings c))%nat -> exists is, winding_currents op (seq k m) = Ok is).
    { induction m as [|m IH]; intros k Hk; [eexists; reflexivity|]. cbn [seq winding_currents].
      destruct (K k) as (I & CI); [lia|]. apply carries_current in CI. rewrite CI. cbn [bind].
      destruct (IH (S k)) as (is & ->); [lia|]. cbn [bind]. eauto. }
    apply G. lia. }
  destruct CK as (is & Eis). rewrite Eis. cbn [bind]. rewrite E. cbn [bind]. rewrite ER. cbn [bind].
  destruct (resistance_loop_ok _ _ _ _ ER) as [_ RL]. cbn [Nat.add] in RL.
  set (b := fun w p => branch_current (nth w is 0) (nth w Rs None) (s w p)).
  assert (TL : forall k, exists es, turn_losses c is b (skipn k l) (skipn k rs) = Ok es).
  { clear E S' ET. intros k. generalize dependent k. 
    assert (G : forall l rs, Forall2 (turn_fact c T) l rs -> exists es, turn_losses c is b l rs = Ok es).
    { clear F P B l rs. intros l rs F. induction F as [|t r l rs (w & p & x & len & m & Bt & Hx & _) F IH]; [eexists; reflexivity|].
      cbn [turn_losses]. rewrite Bt. cbn [bind fst snd].
      assert (exists d, (if Qeq_bool (nth w is 0) 0 then Some 0 else ediv (b w p) (nth w is 0)) = Some d).
      { destruct (Qeq_bool _ 0); [eauto|]. unfold b, branch_current.
        destruct (branch_of_ok _ _ _ _ Bt) as (x' & Hx' & _ & _ & Lp). rewrite Hx in Hx'. injection Hx' as <-.
        destruct (PB w x p Hx Lp) as (q & Eq & Lq). rewrite Eq.
        destruct (RL w x Hx) as (g & G & Eg). rewrite (nth_error_nth _ _ _ Eg).
        apply conductance_ok in G as [Gp G].
        assert (Pg : 0 < g).
        { rewrite G, Qplus_0_l. apply Qsum_map_pos.
          - intros p' Ip. destruct (Gp p' Ip) as (r' & Er & Lr). rewrite Er. now apply one_over_pos.
          - destruct (w_parallels x); [lia|discriminate]. }
        unfold inverse. destruct (Qeq_bool g 0) eqn:Z0; [apply Qeq_bool_iff in Z0; lra|].
        destruct (Qeq_bool q 0) eqn:Z1; [apply Qeq_bool_iff in Z1; lra|]. cbn [ediv]. eauto. }
      destruct H as (d & ->). destruct IH as (es & ->). cbn [bind]. eauto. }
    intros k. apply G. clear -F. revert k. induction F; intros [|k]; cbn [skipn]; auto. }
  destruct (TL 0%nat) as (es & TL0). cbn [skipn] in TL0. rewrite TL0. cbn [bind]. eauto.
Qed.

(** a coil with a conductor that has no copper is refused by both calls, with an
    exception rather than numbers that are not numbers *)
Theorem C92_refused : forall c op T l x p,
  distinct c -> turns c = Some l -> turns_in_place c l -> wires_conduct c T ->
  (forall i, In (Some i) op -> match c_derived i with Some (Ok _) | Some (Throw _) | None => True | _ => False end) ->
  In x (windings c) -> (p < w_parallels x)%nat ->
  turn_metres l x p + charged_lead c x p <= 0 ->
  (exists m, ohmic_losses c op T = Throw m) /\ exists m, dc_resistance_per_winding c T = Throw m.
Proof.
  intros c op T l x p D ET P C O Ix Lp N.
  apply In_nth_error in Ix as (w & Hx).
  assert (NB : ~ 0 < branch_ohms c l T x p).
  { intros B. unfold branch_ohms in B. destruct (C x (nth_error_In _ _ Hx)) as [_ Po].
    assert ((turn_metres l x p + charged_lead c x p) * ohm_per_metre x T <= 0 * ohm_per_metre x T)
      by (apply Qmult_le_compat_r; lra). lra. }
  set (clean := fun A (o : outcome A) => match o with Ok _ | Throw _ => True | _ => False end).
  assert (CB : forall A B (a : outcome A) (f : A -> outcome B),
    clean A a -> (forall y, a = Ok y -> clean B (f y)) -> clean B (bind a f)).
  { intros A B [y|e|e|] f H G; cbn in *; auto. }
  assert (CBR : clean _ (branches c T l)).
  { unfold branches. destruct (turn_loop_intro c T l no_resistance D P C) as (rs & s & E & _). rewrite E.
    cbn [bind]. apply CB.
    - unfold connection_length. destruct (negb _); [exact I|]. destruct (existsb _ _); [exact I|].
      apply CB; [|intros [cr te] _; exact I].
      generalize (fun (_ _ : nat) => 0) at 1 as cr. generalize (fun (_ _ : nat) => 0) as te.
      induction (spaces c) as [|s' sp IH]; intros te cr; [exact I|]. cbn [reserve]. apply CB.
      + unfold winding_index. destruct (index_by_name _ _); exact I.
      + intros i _. destruct (index_in _ _); [|apply IH]. destruct (s_routed s'); [|exact I].
        destruct (s_terminal s'); apply IH.
    - intros len _. apply CB; [|intros ? _; exact I]. generalize 0%nat as i.
      clear. induction (windings c) as [|y ws IH]; intros i; [exact I|]. cbn [connection_resistance].
      assert (PM : match per_meter y T with Ok _ | Throw _ => True | _ => False end).
      { unfold per_meter. destruct (Qeq_bool _ _); [destruct (Qeq_bool _ _); [exact I|destruct (Qlt_bool _ _); exact I]|].
        destruct (Qle_bool _ _); exact I. }
      assert (CB : forall A B (a : outcome A) (f : A -> outcome B),
        clean A a -> (forall y, a = Ok y -> clean B (f y)) -> clean B (bind a f)).
      { intros A B [z|e|e|] f H G; cbn in *; auto. }
      apply CB; [destruct (existsb _ _); [apply CB; [exact PM|intros ? _; exact I]|exact I]|].
      intros row _. apply CB; [apply IH|intros ? _; exact I]. }
  assert (CRL : forall s ws i, clean _ (resistance_loop s ws i)).
  { intros s ws. induction ws as [|y ws IH]; intros i; [exact I|]. cbn [resistance_loop]. apply CB.
    - generalize 0 as a. induction (seq 0 (w_parallels y)) as [|q ps IHp]; intros a; [exact I|]. cbn [conductance].
      destruct (s i q) as [r|]; [|exact I]. destruct (Qlt_bool 0 r); [apply IHp|exact I].
    - intros g _. apply CB; [apply IH|intros ? _; exact I]. }
  assert (CDC : clean _ (dc_resistance_per_winding c T)).
  { unfold dc_resistance_per_winding. rewrite ET. apply CB; [exact CBR|]. intros b _. apply CRL. }
  split.
  - assert (CO : clean _ (ohmic_losses c op T)).
    { unfold ohmic_losses. rewrite ET. apply CB.
      - induction (seq 0 (List.length (windings c))) as [|w' ws IH]; [exact I|]. cbn [winding_currents].
        apply CB; [|intros ? _; apply CB; [exact IH|intros ? _; exact I]].
        unfold winding_current. destruct (nth_error op w') as [[i|]|] eqn:Eo; try exact I.
        destruct (c_rms i); [exact I|]. specialize (O i (nth_error_In _ _ Eo)).
        destruct (c_derived i) as [d|]; [|exact I]. apply CB; [destruct d; exact O|].
        intros [y|] _; exact I.
      - intros is _. apply CB; [exact CBR|]. intros [rs s] EB. apply CB; [apply CRL|]. intros Rs _.
        apply CB; [|intros [es ds] _; exact I].
        destruct (branches_ok c T l rs s D EB) as [F _].
        generalize (fun w0 p0 => branch_current (nth w0 is 0) (nth w0 Rs None) (s w0 p0)) as b. intros b.
        clear -F CB. induction F as [|t r l rs (w & p & y & len & m & Bt & _) F IH]; [exact I|].
        cbn [turn_losses]. rewrite Bt. cbn [bind fst snd].
        destruct (if Qeq_bool (nth w is 0) 0 then _ else _); [|exact I].
        apply CB; [exact IH|]. intros ? _. exact I. }
    destruct (ohmic_losses c op T) as [o|m|m|] eqn:E; [|eauto|destruct CO|destruct CO].
    exfalso. destruct (ohmic_core c op T o D E) as (l' & ET' & _ & _ & _ & _ & _ & _ & _ & _ & W & _ & _).
    rewrite ET in ET'. injection ET' as <-. destruct (W w x Hx) as (BP & _). apply NB. now apply BP.
  - destruct (dc_resistance_per_winding c T) as [o|m|m|] eqn:E; [|eauto|destruct CDC|destruct CDC].
    exfalso. destruct (dc_core c T o D E) as (l' & ET' & W).
    rewrite ET in ET'. injection ET' as <-. destruct (W w x Hx) as (BP & _). apply NB. now apply BP.
Qed.

(** ** C94: leads *)

(** what is charged for leads outside the turns is what the coil records: the
    crossings, and either the lengths given for the winding, shared by its
    conductors, or its terminal runs, never both; nothing in the ideal geometry *)
Theorem C94_lead_lengths : forall c len w x p, distinct c -> connection_length c = Ok len ->
  nth_error (windings c) w = Some x -> (p < w_parallels x)%nat ->
  len w p == lead_metres c x p.
Proof. intros. now apply connection_length_ok. Qed.

(** the lengths given for a winding are charged once, in full, over all its
    conductors *)
Theorem C94_given_charged_once : forall c len w x, distinct c -> connection_length c = Ok len ->
  real_geometry c = true -> nth_error (windings c) w = Some x -> (0 < w_parallels x)%nat ->
  0 < given_metres x ->
  Qsum (map (len w) (seq 0 (w_parallels x))) ==
  given_metres x + Qsum (map (fun p => routed_metres c x p false) (seq 0 (w_parallels x))).
Proof.
  intros c len w x D H G Hx Hn Pg.
  rewrite (Qsum_map_ext _ _ (fun p => given_metres x / inject_Z (Z.of_nat (w_parallels x))
                                      + routed_metres c x p false)).
  - rewrite Qsum_map_add. apply Qplus_comp; [|reflexivity].
    assert (K : forall k n s, Qsum (map (fun _ : nat => k) (seq s n)) == inject_Z (Z.of_nat n) * k).
    { intros k n. induction n as [|n IH]; intros s; cbn [seq map Qsum]; [cbn; ring|].
      rewrite IH, Nat2Z.inj_succ. unfold Z.succ. rewrite inject_Z_plus. cbn. ring. }
    rewrite K. field. intros Z0. change 0 with (inject_Z 0) in Z0. apply (proj1 (inj_eq _ _)) in Z0. lia.
  - intros p Ip. apply in_seq0 in Ip. rewrite (C94_lead_lengths c len w x p D H Hx Ip).
    unfold lead_metres. rewrite G. apply Qlt_bool_iff in Pg. rewrite Pg. ring.
Qed.

(** the ideal geometry has no leads, and a planar coil has no real geometry *)
Theorem C94_ideal_or_planar : forall c,
  (real_geometry c = false -> exists len, connection_length c = Ok len /\ forall w p, len w p == 0) /\
  (real_geometry c = true -> (exists x, In x (windings c) /\ w_planar x = true) ->
     exists m, connection_length c = Throw m).
Proof.
  intros c. unfold connection_length. split; intros G; rewrite G; cbn [negb].
  - eexists. split; [reflexivity|]. intros. reflexivity.
  - intros (x & I & P). replace (existsb w_planar (windings c)) with true; [eauto|].
    symmetry. apply existsb_exists. eauto.
Qed.

(** ** Witnesses *)
Definition copper := mkMaterial (17 # 1000000000) (4 # 1000) 20.
Definition wp := mkWinding "primary" 2 2 copper (1 # 1000000) false None.
Definition ws := mkWinding "secondary" 1 1 copper (2 # 1000000) false (Some [Some (1 # 10); None]).
Definition tp k p len := mkTurn k "primary" p (Some len) (Some "layer 0") (Some "section 0").
Definition ts := mkTurn "s0" "secondary" 0 (Some (3 # 10)) (Some "layer 1") (Some "section 1").
Definition ls := [tp "p0" 0 (1 # 10); tp "p1" 0 (1 # 10); tp "q0" 1 (1 # 10); tp "q1" 1 (3 # 10); ts].
Definition sp := [mkSpace "primary" 1 false (Some (1 # 100)); mkSpace "primary" 0 true (Some (1 # 20));
                  mkSpace "secondary" 0 true (Some (7 # 100))].
Definition ideal := mkCoil [wp; ws] (Some ls) sp ["layer 0"; "layer 1"] ["section 0"; "section 1"] false.
Definition real := mkCoil [wp; ws] (Some ls) sp ["layer 0"; "layer 1"] ["section 0"; "section 1"] true.
Definition amps (i : Q) := Some (mkCurrent (Some i) None (Some ([0; i], [0; 100000]))).
Definition op := [amps 3; amps 5].

Example C89_witness : exists o l,
  distinct ideal /\ ohmic_losses ideal op 20 = Ok o /\ turns ideal = Some l /\
  carries op 0 3 /\ in_branch wp 1 (tp "q1" 1 (3 # 10)) = true /\
  map (fun d => match d with Some q => Qred q | None => 0 end) (divider_of_turn o)
    = [2 # 3; 2 # 3; 1 # 3; 1 # 3; 1] /\
  map (fun d => match d with Some q => Qred q | None => 0 end) (resistance_of_winding o)
    = [17 # 7500; 51 # 20000] /\
  option_map Qred (total o) = Some (1683 # 20000).
Proof.
  eexists _, _. split; [|split; [vm_compute; reflexivity|]].
  - unfold distinct. cbn. repeat constructor; cbn; intuition discriminate.
  - repeat split; try (vm_compute; reflexivity). cbn. now left.
Qed.
Example C91_witness : exists rs rs' rs'',
  dc_resistance_per_winding (without_leads real) 20 = Ok rs /\
  dc_resistance_per_winding real 20 = Ok rs' /\ dc_resistance_per_winding real 100 = Ok rs'' /\
  map (option_map Qred) rs = [Some (17 # 7500); Some (51 # 20000)] /\
  map (option_map Qred) rs' = [Some (697 # 264000); Some (17 # 5000)] /\
  map (option_map Qred) rs'' = [Some (697 # 200000); Some (561 # 125000)] /\
  lead_metres real wp 0 == 1 # 20 /\ lead_metres real wp 1 == 1 # 100 /\
  lead_metres real ws 0 == 1 # 10.
Proof. eexists _, _, _. repeat split; vm_compute; reflexivity. Qed.
Example C92_witness : distinct real /\ turns_in_place real ls /\ wires_conduct real 20 /\
  leads_in_place real /\ currents_known real op /\
  (forall x p, In x (windings real) -> (p < w_parallels x)%nat ->
     0 < turn_metres ls x p + charged_lead real x p).
Proof.
  repeat split.
  - unfold distinct. cbn. repeat constructor; cbn; intuition discriminate.
  - intros t I. cbn in I. destruct I as [<-|[<-|[<-|[<-|[<-|[]]]]]];
      [exists wp, 0%nat|exists wp, 0%nat|exists wp, 1%nat|exists wp, 1%nat|exists ws, 0%nat];
      eexists; cbn; intuition lia.
  - destruct H as [<-|[<-|[]]]; intros E; discriminate E.
  - destruct H as [<-|[<-|[]]]; reflexivity.
  - intros x [<-|[<-|[]]]; reflexivity.
  - destruct H0 as [<-|[<-|[<-|[]]]]; discriminate.
  - destruct H0 as [<-|[<-|[<-|[]]]]; [exists wp|exists wp|exists ws]; cbn; auto.
  - intros [|[|w]] Hw; cbn in Hw; [exists 3|exists 5|lia]; cbn; now left.
  - intros x p [<-|[<-|[]]] Lp; cbn in Lp; destruct p as [|[|p]]; try lia; reflexivity.
Qed.
(** a coil whose second conductor was not wound *)
Definition half := mkCoil [wp; ws] (Some [tp "p0" 0 (1 # 10); tp "p1" 0 (1 # 10); ts]) [] [] [] false.
Example C92_refused_witness :
  turn_metres [tp "p0" 0 (1 # 10); tp "p1" 0 (1 # 10); ts] wp 1 + charged_lead half wp 1 <= 0 /\
  exists m, ohmic_losses half op 20 = Throw m.
Proof. split; [intros E; discriminate E|]. eexists. vm_compute. reflexivity. Qed.

(** ** What is not refused *)

(** the turns the coil declares are not compared with the turns it has: most of
    them may be missing *)
Definition few := mkCoil [mkWinding "primary" 100 1 copper (1 # 1000000) false None]
  (Some [tp "p0" 0 (1 # 10)]) [] [] [] false.
Theorem C92_missing_turns_refuted : exists c op T l x o,
  turns c = Some l /\ In x (windings c) /\
  (List.length (filter (fun t => String.eqb (t_winding t) (w_name x)) l) < w_turns x * w_parallels x)%nat /\
  ohmic_losses c op T = Ok o.
Proof.
  exists few, op, 20, [tp "p0" 0 (1 # 10)], (mkWinding "primary" 100 1 copper (1 # 1000000) false None).
  eexists. split; [reflexivity|]. split; [now left|]. split; [cbn; lia|]. vm_compute. reflexivity.
Qed.

(** with real geometry, a conductor without a single turn is accepted when its
    winding has leads, and takes most of the current *)
Definition dead := mkCoil
  [mkWinding "primary" 2 2 copper (1 # 1000000) false (Some [Some (1 # 50)])]
  (Some [tp "p0" 0 (1 # 10); tp "p1" 0 (1 # 10)]) [] [] [] true.
Theorem C92_conductor_without_turns_refuted : exists c op T l x p o d,
  distinct c /\ turns c = Some l /\ turns_in_place c l /\ In x (windings c) /\ (p < w_parallels x)%nat /\
  filter (in_branch x p) l = [] /\ (0 < w_turns x)%nat /\
  ohmic_losses c op T = Ok o /\ nth_error (divider_of_turn o) 0 = Some (Some d) /\ d < 1 # 10.
Proof.
  exists dead, op, 20, [tp "p0" 0 (1 # 10); tp "p1" 0 (1 # 10)],
    (mkWinding "primary" 2 2 copper (1 # 1000000) false (Some [Some (1 # 50)])), 1%nat.
  eexists _, _.
  split; [unfold distinct; cbn; repeat constructor; cbn; intuition discriminate|].
  split; [reflexivity|]. split.
  { intros t I. exists (mkWinding "primary" 2 2 copper (1 # 1000000) false (Some [Some (1 # 50)])), 0%nat, (1 # 10).
    cbn in I. destruct I as [<-|[<-|[]]]; cbn; intuition lia. }
  split; [now left|]. split; [cbn; lia|]. split; [reflexivity|]. split; [cbn; lia|].
  split; [vm_compute; reflexivity|]. split; reflexivity.
Qed.

(** a turn of a conductor the winding does not have is written out of bounds *)
Definition stray := mkCoil [wp] (Some [tp "p0" 0 (1 # 10); tp "q0" 2 (1 # 10)]) [] [] [] false.
Theorem C92_stray_conductor_refuted : exists c op T m,
  ohmic_losses c op T = UB m /\ dc_resistance_per_winding c T = UB m.
Proof. exists stray, op, 20. eexists. split; vm_compute; reflexivity. Qed.

(** a winding with no conductors gets a resistance that is not a number one can
    write down *)
Definition none := mkCoil [mkWinding "primary" 2 0 copper (1 # 1000000) false None] (Some []) [] [] [] false.
Theorem C92_no_conductors_refuted : exists c T,
  dc_resistance_per_winding c T = Ok [None].
Proof. exists none, 20. reflexivity. Qed.

Print Assumptions C89_equal_drop.
Print Assumptions C89_shares_add_up.
Print Assumptions C90_winding.
Print Assumptions C90_turns_and_leads.
Print Assumptions C90_ideal.
Print Assumptions C91_least_dissipation.
Print Assumptions C91_leads_never_help.
Print Assumptions C91_hotter.
Print Assumptions C92_accepted.
Print Assumptions C92_refused.
Print Assumptions C94_lead_lengths.
Print Assumptions C94_given_charged_once.
