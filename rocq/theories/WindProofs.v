(** Lemmas on the laying of turns. *)
From Coq Require Import ZArith QArith Qround Qabs List Bool String Ascii Lia Lqa Arith DecimalString.
From Verif Require Import Base QAux CoilSplitModel CoilSplitProofs StationModel WindModel TextProofs.
From Verif Require CombinatorModel CombinatorProofs.
Import ListNotations.
Open Scope Q_scope.

(** ** Names *)

Definition no_space (s : string) : Prop := forall a b, s <> (a ++ String " " b)%string.

Lemma uint_no_space d : no_space (NilEmpty.string_of_uint d).
Proof.
  intros a. assert (G : forall a b, NilEmpty.string_of_uint d <> (a ++ String " " b)%string); [|apply G].
  clear a. induction d; intros [|c a] b; cbn; try discriminate; intros E; injection E; intros; subst; eauto; try discriminate;
    eapply IHd; eassumption.
Qed.

Lemma number_no_space n : no_space (CombinatorModel.to_string n).
Proof. apply uint_no_space. Qed.

(** Texts that end in a space and a word without spaces. *)
Lemma last_word u1 u2 d1 d2 : no_space d1 -> no_space d2 ->
  (u1 ++ String " " d1 = u2 ++ String " " d2)%string -> u1 = u2 /\ d1 = d2.
Proof.
  intros N1 N2. revert u2. induction u1 as [|c u1 IH]; intros [|c2 u2] E; cbn in E; injection E; intros.
  - now subst.
  - subst. exfalso. eapply N1. reflexivity.
  - subst. exfalso. eapply N2. reflexivity.
  - subst. destruct (IH u2) as [A B]; [assumption|]. now subst.
Qed.

Lemma append_cancel_r a b s : (a ++ s = b ++ s)%string -> a = b.
Proof.
  revert b. induction a as [|c a IH]; intros [|d b] E; cbn in E; try reflexivity.
  - exfalso. assert (L : String.length s = String.length (String d (b ++ s))) by (rewrite <- E; reflexivity).
    cbn in L. rewrite length_append in L. lia.
  - exfalso. assert (L : String.length (String c (a ++ s)) = String.length s) by (rewrite E; reflexivity).
    cbn in L. rewrite length_append in L. lia.
  - injection E; intros. f_equal; auto.
Qed.

Lemma to_string_inj a b : CombinatorModel.to_string a = CombinatorModel.to_string b -> a = b.
Proof.
  intros E. pose proof (CombinatorProofs.stoul_to_string a) as A. rewrite E, CombinatorProofs.stoul_to_string in A. congruence.
Qed.

Lemma turn_name_inj w1 w2 p1 p2 i1 i2 : turn_name w1 p1 i1 = turn_name w2 p2 i2 -> w1 = w2 /\ p1 = p2 /\ i1 = i2.
Proof.
  unfold turn_name. intros E.
  assert (R : forall w p i, (w ++ " parallel " ++ CombinatorModel.to_string p ++ " turn " ++ CombinatorModel.to_string i)%string =
            ((w ++ " parallel " ++ CombinatorModel.to_string p ++ " turn") ++ String " " (CombinatorModel.to_string i))%string).
  { intros w p i. rewrite !append_assoc. cbn. reflexivity. }
  rewrite !R in E. apply last_word in E; try apply number_no_space. destruct E as [E Ei].
  assert (R2 : forall w p, (w ++ " parallel " ++ CombinatorModel.to_string p ++ " turn")%string =
            (((w ++ " parallel") ++ String " " (CombinatorModel.to_string p)) ++ " turn")%string).
  { intros w p. rewrite !append_assoc. cbn. reflexivity. }
  rewrite !R2 in E. apply append_cancel_r in E. apply last_word in E; try apply number_no_space. destruct E as [E Ep].
  apply append_cancel_r in E. split; [assumption|]. split; now apply to_string_inj.
Qed.

(** ** Counting *)

Notation count p l := (count_occ Nat.eq_dec l p).

Lemma count_repeat p q n : count p (repeat q n) = if Nat.eq_dec q p then n else 0%nat.
Proof.
  induction n; cbn; [destruct (Nat.eq_dec q p); reflexivity|]. destruct (Nat.eq_dec q p); rewrite IHn; reflexivity.
Qed.

Lemma count_concat_repeat p row n : count p (List.concat (repeat row n)) = (n * count p row)%nat.
Proof. induction n; cbn; [reflexivity|]. rewrite count_occ_app, IHn. lia. Qed.

Lemma In_concat_repeat {A} (x : A) row n : In x (List.concat (repeat row n)) -> In x row.
Proof. induction n; cbn; [tauto|]. rewrite in_app_iff. tauto. Qed.

(** ** The order of the turns of a layer *)

Section Lanes.
Variable N : Z.
Hypothesis HN : (0 < N)%Z.

Lemma turns_lanes_spec : forall props ks index, wholes N props ks -> Forall (fun k => 0 <= k)%Z ks ->
  exists order, turns_lanes N props (List.length props) index = Ok order /\
    (forall p, In p order -> (index <= p < index + List.length props)%nat) /\
    (forall p, (index <= p)%nat -> Z.of_nat (count p order) = nth (p - index) ks 0%Z) /\
    Z.of_nat (List.length order) = Zsum ks.
Proof.
  intros props ks index H. revert index. induction H as [|q k props ks Hk H IH]; intros index F.
  - exists []. cbn. split; [reflexivity|]. split; [tauto|]. split; [|reflexivity]. intros p _. destruct (p - index)%nat; reflexivity.
  - inversion F as [|? ? K0 F']; subst. destruct (IH (S index) F') as (order & E & I & C & L).
    cbn [turns_lanes List.length]. rewrite E. cbn [bind]. rewrite (whole_turns_whole N HN q k Hk).
    eexists. split; [reflexivity|]. split; [|split].
    + intros p Hp. apply in_app_iff in Hp. destruct Hp as [Hp|Hp].
      * apply repeat_spec in Hp. lia.
      * specialize (I p Hp). cbn. lia.
    + intros p Hp. rewrite count_occ_app, count_repeat. destruct (Nat.eq_dec index p) as [->|Hn].
      * rewrite Nat.sub_diag. cbn [nth].
        assert (Z0 : count p order = 0%nat).
        { apply count_occ_not_In. intros Hi. specialize (I p Hi). lia. }
        rewrite Z0. lia.
      * specialize (C p ltac:(lia)). replace (p - index)%nat with (S (p - S index)) by lia. cbn [nth]. rewrite <- C. lia.
    + rewrite app_length, repeat_length. cbn [Zsum]. lia.
Qed.

(** Every parallel has [k] turns on the layer or none. *)
Definition rowed (k : Z) (ks : list Z) : Prop := Forall (fun x => x = k \/ x = 0%Z) ks.

Lemma active_whole q k : (N <= 10 ^ 10)%Z -> is_whole N q k -> (0 <= k)%Z -> active q = negb (Z.eqb k 0).
Proof.
  intros HM Hq Hk. unfold active. unfold is_whole in Hq.
  destruct (Z.eqb_spec k 0) as [->|Hne]; cbn [negb].
  - apply Qlt_bool_false.
    assert (Z0 : q == 0) by (rewrite Hq; unfold Qdiv; ring).
    unfold roundFloat. assert (R : qround (q * p10 10) = 0%Z).
    { transitivity (qround (inject_Z 0)); [|apply qround_Z]. apply qround_comp. rewrite Z0. ring. }
    rewrite R. unfold Qdiv. change (inject_Z 0) with 0. lra.
  - apply Qlt_bool_iff. unfold roundFloat.
    assert (P10 : 0 < p10 10) by apply p10_pos.
    apply (Qlt_div_iff _ _ _ P10). rewrite Qmult_0_l. change 0 with (inject_Z 0). apply inj_lt.
    assert (G : inject_Z 1 <= q * p10 10).
    { rewrite Hq. pose proof (NQ N HN) as HNq.
      assert (E : inject_Z k / inject_Z N * p10 10 == inject_Z k * p10 10 / inject_Z N) by (field; lra).
      rewrite E. apply (Qle_div_iff _ _ _ HNq).
      assert (K1 : inject_Z 1 <= inject_Z k) by (apply inj_le; lia).
      assert (NM : inject_Z N <= p10 10) by (change (p10 10) with (inject_Z (10 ^ 10)); apply inj_le; assumption).
      change (inject_Z 1) with 1 in *.
      assert (M : 1 * p10 10 <= inject_Z k * p10 10) by (apply Qmult_le_compat_r; lra). lra. }
    assert (Q1 : (1 <= qround (q * p10 10))%Z).
    { rewrite <- (qround_Z 1). now apply qround_mono. }
    lia.
Qed.

Lemma active_from_spec : forall props ks index, (N <= 10 ^ 10)%Z -> wholes N props ks -> Forall (fun k => 0 <= k)%Z ks ->
  exists row, active_from props (List.length props) index = Ok row /\
    (forall p, In p row -> (index <= p < index + List.length props)%nat) /\
    (forall p, (index <= p)%nat -> count p row = if Z.eqb (nth (p - index) ks 0%Z) 0 then 0%nat else 1%nat).
Proof.
  intros props ks index HM H. revert index. induction H as [|q k props ks Hk H IH]; intros index F.
  - exists []. cbn. split; [reflexivity|]. split; [tauto|]. intros p _. destruct (p - index)%nat; reflexivity.
  - inversion F as [|? ? K0 F']; subst. destruct (IH (S index) F') as (row & E & I & C).
    cbn [active_from List.length]. rewrite E. cbn [bind]. rewrite (active_whole q k HM Hk K0).
    eexists. split; [reflexivity|]. split.
    + intros p Hp. destruct (negb (Z.eqb k 0)); cbn in Hp.
      * destruct Hp as [<-|Hp]; [cbn; lia|]. specialize (I p Hp). lia.
      * specialize (I p Hp). lia.
    + intros p Hp. destruct (Nat.eq_dec index p) as [->|Hn].
      * rewrite Nat.sub_diag. cbn [nth].
        assert (Z0 : count p row = 0%nat).
        { apply count_occ_not_In. intros Hi. specialize (I p Hi). lia. }
        destruct (Z.eqb k 0); cbn [negb]; [assumption|]. cbn [count_occ]. destruct (Nat.eq_dec p p); [|congruence]. lia.
      * specialize (C p ltac:(lia)). replace (p - index)%nat with (S (p - S index)) by lia. cbn [nth].
        destruct (negb (Z.eqb k 0)); [|assumption]. cbn [count_occ]. destruct (Nat.eq_dec index p); [congruence|assumption].
Qed.

Lemma whole_zero_round q k : (N <= 10 ^ 10)%Z -> is_whole N q k -> (0 <= k)%Z ->
  Qeq_bool (roundFloat q 10) 0 = Z.eqb k 0.
Proof.
  intros HM Hq Hk. pose proof (active_whole q k HM Hq Hk) as A. unfold active in A.
  destruct (Z.eqb_spec k 0) as [->|Hne]; cbn [negb] in A.
  - apply Qlt_bool_false in A. apply Qeq_bool_iff.
    assert (Z0 : q == 0) by (unfold is_whole in Hq; rewrite Hq; unfold Qdiv; ring).
    unfold roundFloat. assert (R : qround (q * p10 10) = 0%Z).
    { transitivity (qround (inject_Z 0)); [|apply qround_Z]. apply qround_comp. rewrite Z0. ring. }
    rewrite R. unfold Qdiv. change (inject_Z 0) with 0. ring.
  - apply Qlt_bool_iff in A. destruct (Qeq_bool (roundFloat q 10) 0) eqn:E; [|reflexivity].
    apply Qeq_bool_iff in E. lra.
Qed.

Lemma first_nonzero_spec : forall props ks k, (N <= 10 ^ 10)%Z -> wholes N props ks -> Forall (fun k => 0 <= k)%Z ks ->
  (0 < k)%Z -> rowed k ks -> In k ks ->
  exists q, first_nonzero props = Ok q /\ whole_turns N q = k.
Proof.
  intros props ks k HM H. induction H as [|q j props ks Hj H IH]; intros F K R Hin; [destruct Hin|].
  inversion F as [|? ? J0 F']; inversion R as [|? ? Rj R']; subst. cbn [first_nonzero].
  rewrite (whole_zero_round q j HM Hj J0). destruct (Z.eqb_spec j 0) as [->|Hne].
  - apply IH; try assumption. destruct Hin as [E|Hin]; [lia|assumption].
  - exists q. split; [reflexivity|]. rewrite (whole_turns_whole N HN q j Hj). destruct Rj; lia.
Qed.

Lemma parallels_lanes_spec : forall props ks k, (N <= 10 ^ 10)%Z -> wholes N props ks -> Forall (fun k => 0 <= k)%Z ks ->
  (0 < k)%Z -> rowed k ks -> In k ks ->
  exists order, parallels_lanes N props (List.length props) = Ok order /\
    (forall p, In p order -> (p < List.length props)%nat) /\
    (forall p, Z.of_nat (count p order) = nth p ks 0%Z).
Proof.
  intros props ks k HM H F K R Hin.
  destruct (first_nonzero_spec props ks k HM H F K R Hin) as (q & E & W).
  destruct (active_from_spec props ks 0 HM H F) as (row & E2 & I & C).
  unfold parallels_lanes. rewrite E. cbn [bind]. rewrite W.
  destruct (Z.to_nat k) as [|rows] eqn:Ek; [lia|]. rewrite E2. cbn [bind].
  eexists. split; [reflexivity|]. split.
  - intros p Hp. apply In_concat_repeat in Hp. specialize (I p Hp). lia.
  - intros p. rewrite count_concat_repeat, (C p ltac:(lia)), Nat.sub_0_r. rewrite <- Ek.
    destruct (Z.eqb_spec (nth p ks 0%Z) 0) as [Z0|Hne]; [lia|].
    assert (In (nth p ks 0%Z) ks).
    { destruct (nth_in_or_default p ks 0%Z); [assumption|contradiction]. }
    unfold rowed in R. rewrite Forall_forall in R. destruct (R _ H0) as [Q|Q]; [rewrite Q; lia|contradiction].
Qed.

(** Parallels found equal to a billionth are equal. *)
Lemma side_by_side_rowed : forall props ks, (N < 10 ^ 9)%Z -> wholes N props ks -> Forall (fun k => 0 <= k)%Z ks ->
  side_by_side props = true -> exists k, (0 < k)%Z /\ rowed k ks /\ In k ks.
Proof.
  intros props ks HM H F S0. assert (HM10 : (N <= 10 ^ 10)%Z) by lia.
  pose proof (NQ N HN) as HNq.
  assert (G : forall q, (forall p, In p (filter active props) -> Qabs (p - q) <= 1 / inject_Z 1000000000) ->
    forall k, is_whole N q k -> rowed k ks).
  { intros q. revert F. clear S0. induction H as [|r j props ks Hj H IH]; intros F A k Hk; [constructor|].
    inversion F as [|? ? J0 F']; subst. constructor.
    - destruct (Z.eq_dec j 0); [now right|left].
      assert (Ar : active r = true) by (rewrite (active_whole r j HM10 Hj J0); now apply negb_true_iff, Z.eqb_neq).
      specialize (A r). cbn [filter] in A. rewrite Ar in A. specialize (A (or_introl eq_refl)).
      unfold is_whole in Hj, Hk. rewrite Hj, Hk in A.
      assert (E : inject_Z j / inject_Z N - inject_Z k / inject_Z N == inject_Z (j - k) / inject_Z N).
      { unfold Z.sub. rewrite inject_Z_plus, inject_Z_opp. field. lra. }
      rewrite E in A. apply Qabs_Qle_condition in A. destruct A as [A1 A2].
      apply (Qdiv_le_iff _ _ _ HNq) in A2. apply (Qle_div_iff _ _ _ HNq) in A1.
      assert (M : 1 / inject_Z 1000000000 * inject_Z N < 1).
      { assert (E9 : 1 / inject_Z 1000000000 * inject_Z N == inject_Z N / inject_Z 1000000000) by (field; discriminate).
        rewrite E9. assert (P9 : 0 < inject_Z 1000000000) by reflexivity. apply (Qdiv_lt_iff _ _ _ P9).
        rewrite Qmult_1_l. apply inj_lt. exact HM. }
      assert (B1 : inject_Z (-1) < inject_Z (j - k)) by (change (inject_Z (-1)) with (-1); lra).
      assert (B2 : inject_Z (j - k) < inject_Z 1) by (change (inject_Z 1) with 1; lra).
      rewrite inj_lt in B1, B2. lia.
    - apply IH; [assumption| |assumption]. intros p Hp. apply A. cbn [filter]. destruct (active r); [right|]; assumption. }
  unfold side_by_side in S0. destruct (filter active props) as [|q [|q2 l]] eqn:Ef; try discriminate.
  assert (Hq : exists k, is_whole N q k /\ In k ks /\ (0 < k)%Z).
  { assert (In q (filter active props)) as Hi by (rewrite Ef; now left).
    apply filter_In in Hi. destruct Hi as [Hi Ha]. clear S0 Ef G.
    induction H as [|r j props ks Hj H IH]; [destruct Hi|]. inversion F as [|? ? J0 F']; subst.
    destruct Hi as [<-|Hi].
    - exists j. split; [assumption|]. split; [now left|]. rewrite (active_whole r j HM10 Hj J0) in Ha.
      destruct (Z.eqb_spec j 0); [discriminate|lia].
    - destruct (IH F' Hi) as (k & ? & ? & ?). exists k. split; [assumption|]. split; [now right|assumption]. }
  destruct Hq as (k & Hk & Hin & K). exists k. split; [assumption|]. split; [|assumption].
  apply (G q); [|assumption]. intros p Hp. rewrite forallb_forall in S0. destruct Hp as [<-|Hp].
  - assert (Z0 : q - q == 0) by ring. rewrite Z0. discriminate.
  - apply Qle_bool_iff. now apply S0.
Qed.

End Lanes.

Lemma physical_turns_spec N props ks : (0 < N)%Z -> wholes N props ks -> physical_turns N props (List.length props) = Ok (Zsum ks).
Proof.
  intros HN H. induction H as [|q k props ks Hk H IH]; [reflexivity|]. cbn [physical_turns List.length].
  rewrite IH. cbn [bind Zsum]. now rewrite (whole_turns_whole N HN q k Hk).
Qed.

(** ** Laying the turns *)

Definition of_parallel (p : nat) (t : turn) : bool := Nat.eqb (t_parallel t) p.

Section Place.
Variable length_at : Q -> option Q.
Hypothesis long : forall x, length_at x <> None.
Variables (sec : string) (l : layer) (i : nat) (w : string) (size : Q * Q) (stations : list Q) (axis : nat) (step : Q * Q).

Lemma place_spec : forall order station center counters,
  (stations = [] \/ (station + List.length order <= List.length stations)%nat) ->
  exists ts counters',
    place length_at sec l i w size stations axis step order station center counters = Ok (Some (ts, counters')) /\
    map t_parallel ts = order /\
    Forall (fun t => t_layer t = l_name l /\ t_section t = sec /\ t_winding t = w /\ t_size t = size) ts /\
    (forall p, map t_name (filter (of_parallel p) ts) = map (turn_name w p) (seq (counters i p) (count p order))) /\
    (forall p, counters' i p = counters i p + count p order)%nat /\
    (forall j p, j <> i -> counters' j p = counters j p) /\
    (forall k, (k < List.length order)%nat ->
       match stations with
       | [] => fst (nth k (map t_center ts) (0, 0)) == fst center + inject_Z (Z.of_nat k) * fst step /\
               snd (nth k (map t_center ts) (0, 0)) == snd center + inject_Z (Z.of_nat k) * snd step
       | _ => if Nat.eqb axis 1
              then fst (nth k (map t_center ts) (0, 0)) == fst center + inject_Z (Z.of_nat k) * fst step /\
                   snd (nth k (map t_center ts) (0, 0)) = nth (station + k) stations 0
              else fst (nth k (map t_center ts) (0, 0)) = nth (station + k) stations 0 /\
                   snd (nth k (map t_center ts) (0, 0)) == snd center + inject_Z (Z.of_nat k) * snd step
       end).
Proof.
  induction order as [|p rest IH]; intros station center counters Hs.
  - exists [], counters. cbn [place]. split; [reflexivity|]. split; [reflexivity|]. split; [constructor|].
    split; [reflexivity|]. split; [intros; cbn; lia|]. split; [reflexivity|]. intros k Hk. cbn in Hk. lia.
  - cbn [place].
    set (c := match stations with [] => center | _ => if Nat.eqb axis 1 then (fst center, nth station stations 0)
                                                      else (nth station stations 0, snd center) end).
    assert (T : exists s', take_next_spread_station stations station axis center = Ok (s', c) /\
                (stations = [] \/ s' = S station)).
    { unfold take_next_spread_station, c. destruct stations as [|s0 st] eqn:Es.
      - exists station. split; [reflexivity|now left].
      - rewrite <- Es in *. assert (Hl : (station < List.length stations)%nat).
        { destruct Hs as [Hs|Hs]; [rewrite Hs in Es; discriminate|]. cbn [List.length] in Hs. lia. }
        rewrite (nth_error_nth' stations 0 Hl). exists (S station). split; [reflexivity|now right]. }
    destruct T as (s' & T & Ts). rewrite T. cbn [bind].
    destruct (length_at (fst c)) as [len|] eqn:El; [|now apply long in El].
    set (counters2 := upd counters i (upd (counters i) p (S (counters i p)))).
    destruct (IH s' (fst c + fst step, snd c + snd step) counters2) as (ts & c' & E & Hp & Ha & Hn & Hc & Hc2 & Hg).
    { destruct Ts as [Ts|Ts]; [now left|]. destruct Hs as [Hs|Hs]; [now left|right]. cbn [List.length] in Hs. lia. }
    rewrite E. cbn [bind]. eexists. eexists. split; [reflexivity|].
    assert (U1 : forall q, counters2 i q = if Nat.eqb q p then S (counters i p) else counters i q).
    { intros q. unfold counters2. rewrite upd_same. unfold upd. reflexivity. }
    assert (U2 : forall j q, j <> i -> counters2 j q = counters j q).
    { intros j q Hj. unfold counters2. now rewrite upd_other by assumption. }
    split; [|split; [|split; [|split; [|split]]]].
    + cbn. now rewrite Hp.
    + constructor; [cbn; auto|assumption].
    + intros q. cbn [filter]. unfold of_parallel at 1. cbn [t_parallel].
      cbn [count_occ]. rewrite (Nat.eqb_sym p q). destruct (Nat.eq_dec p q) as [->|Hne].
      * rewrite Nat.eqb_refl. cbn [map seq t_name]. rewrite Hn, U1, Nat.eqb_refl. reflexivity.
      * destruct (Nat.eqb_spec q p); [congruence|]. rewrite Hn, U1. destruct (Nat.eqb_spec q p); [congruence|]. reflexivity.
    + intros q. rewrite Hc, U1. cbn [count_occ]. destruct (Nat.eq_dec p q) as [->|Hne].
      * rewrite Nat.eqb_refl. lia.
      * destruct (Nat.eqb_spec q p); [congruence|]. reflexivity.
    + intros j q Hj. rewrite Hc2, U2 by assumption. reflexivity.
    + intros k Hk. destruct k as [|k].
      * cbn [map nth t_center]. change (inject_Z (Z.of_nat 0)) with 0. unfold c.
        destruct stations; [split; ring|]. rewrite Nat.add_0_r. destruct (Nat.eqb axis 1); cbn [fst snd]; split; try ring; reflexivity.
      * cbn [map nth]. cbn [List.length] in Hk. specialize (Hg k ltac:(lia)).
        assert (Ek : inject_Z (Z.of_nat (S k)) == inject_Z (Z.of_nat k) + 1).
        { replace (Z.of_nat (S k)) with (Z.of_nat k + 1)%Z by lia. rewrite inject_Z_plus. reflexivity. }
        unfold c in Hg. destruct stations as [|s0 st] eqn:Es.
        -- cbn [fst snd] in Hg. destruct Hg as [G1 G2]. rewrite G1, G2, Ek. split; ring.
        -- rewrite <- Es in *. destruct Ts as [Ts|Ts]; [rewrite Ts in Es; discriminate|]. subst s'.
           replace (station + S k)%nat with (S station + k)%nat by lia.
           destruct (Nat.eqb axis 1); cbn [fst snd] in Hg; destruct Hg as [G1 G2].
           ++ split; [rewrite G1, Ek; ring|exact G2].
           ++ split; [exact G1|rewrite G2, Ek; ring].
Qed.

End Place.

(** ** Windings *)

Lemma winding_by_name_from_Ok : forall ws i name, In name (map w_name ws) ->
  exists k w, winding_by_name_from i ws name = Ok (i + k, w)%nat /\ nth_error ws k = Some w /\ w_name w = name.
Proof.
  induction ws as [|v ws IH]; intros i name H; [destruct H|]. cbn [winding_by_name_from].
  destruct (String.eqb_spec (w_name v) name) as [E|E].
  - exists 0%nat, v. rewrite Nat.add_0_r. auto.
  - destruct H as [H|H]; [congruence|]. destruct (IH (S i) name H) as (k & w & E1 & E2 & E3).
    exists (S k), w. split; [|auto]. rewrite E1. do 2 f_equal. lia.
Qed.

Lemma winding_by_name_nth : forall ws k w, NoDup (map w_name ws) -> nth_error ws k = Some w ->
  winding_by_name ws (w_name w) = Ok (k, w).
Proof.
  intros ws k w ND H. unfold winding_by_name.
  assert (G : forall ws i k, NoDup (map w_name ws) -> nth_error ws k = Some w ->
            winding_by_name_from i ws (w_name w) = Ok (i + k, w)%nat).
  { clear. induction ws as [|v ws IH]; intros i k ND H; [destruct k; discriminate|]. cbn [winding_by_name_from].
    inversion ND as [|? ? N1 N2]; subst. destruct k as [|k]; cbn in H.
    - injection H as ->. rewrite String.eqb_refl. do 2 f_equal. lia.
    - destruct (String.eqb_spec (w_name v) (w_name w)) as [E|E].
      + exfalso. apply N1. rewrite E. apply in_map. eapply nth_error_In. eassumption.
      + rewrite (IH (S i) k N2 H). do 2 f_equal. lia. }
  apply (G ws 0%nat k ND H).
Qed.

(** ** Distinct names *)

Lemma NoDup_by_key {A K B : Type} (f : A -> B) (key : A -> K) (keyb : K -> A -> bool) (l : list A) :
  (forall k x, keyb k x = true <-> key x = k) ->
  (forall x y, In x l -> In y l -> f x = f y -> key x = key y) ->
  (forall k, NoDup (map f (filter (keyb k) l))) ->
  NoDup (map f l).
Proof.
  intros HK. induction l as [|a l IH]; intros Hf Hn; [constructor|]. cbn. constructor.
  - intros Hin. apply in_map_iff in Hin. destruct Hin as (b & Eb & Hb).
    assert (Ek : key b = key a) by (apply Hf; cbn; auto).
    specialize (Hn (key a)). cbn in Hn.
    assert (Hb1 : keyb (key a) a = true) by now apply HK. rewrite Hb1 in Hn. cbn in Hn. inversion Hn as [|? ? N1 N2]; subst.
    apply N1. rewrite <- Eb. apply in_map. apply filter_In. split; [assumption|]. now apply HK.
  - apply IH.
    + intros x y Hx Hy. apply Hf; now right.
    + intros k. specialize (Hn k). cbn in Hn. destruct (keyb k a); cbn in Hn; [now inversion Hn|assumption].
Qed.

(** ** Turns that do not fit *)

(** Giving every turn a length changes nothing but the refusals. *)
Definition longer (length_at : Q -> option Q) : Q -> option Q :=
  fun x => match length_at x with Some y => Some y | None => Some 0 end.

Lemma place_longer length_at sec l i w size stations axis step : forall order station center counters,
  place length_at sec l i w size stations axis step order station center counters = Ok None \/
  place length_at sec l i w size stations axis step order station center counters =
  place (longer length_at) sec l i w size stations axis step order station center counters.
Proof.
  induction order as [|p rest IH]; intros station center counters; [right; reflexivity|]. cbn [place].
  destruct (take_next_spread_station stations station axis center) as [[s' c]|m|m|] eqn:T; cbn [bind];
    [|right; reflexivity|right; reflexivity|right; reflexivity].
  unfold longer at 1. destruct (length_at (fst c)) as [len|]; [|now left].
  destruct (IH s' (fst c + fst step, snd c + snd step) (upd counters i (upd (counters i) p (S (counters i p))))) as [E|E];
    rewrite E; cbn [bind]; [now left|now right].
Qed.

Definition longer_env (e : turn_env) : turn_env :=
  mkTurnEnv (te_windings e) (te_real e) (te_planar_layers e) (te_order e) (fun s => longer (te_length e s)) (te_pitch e) (te_entrance e).

Lemma turns_of_layer_longer e st l :
  turns_of_layer e st l = Ok None \/ turns_of_layer e st l = turns_of_layer (longer_env e) st l.
Proof.
  unfold turns_of_layer. destruct (l_partials l) as [|[name props] [|]]; try (right; reflexivity).
  cbn [longer_env te_windings te_real te_length te_pitch].
  destruct (winding_by_name (te_windings e) name) as [[i w]|m|m|]; cbn [bind]; try (right; reflexivity).
  destruct (physical_turns _ _ _) as [n|m|m|]; cbn [bind]; try (right; reflexivity).
  destruct (value (l_alignment l)) as [a|m|m|]; cbn [bind]; try (right; reflexivity).
  destruct (value (l_section l)) as [s|m|m|]; cbn [bind]; try (right; reflexivity).
  destruct (layer_start _ _ _ _) as [[[c0 s0] st0] axis].
  change (starts_at_top (longer_env e) st l s name (w_parallels w) n) with (starts_at_top e st l s name (w_parallels w) n).
  destruct (starts_at_top _ _ _ _ _ _ _) as [top st'].
  match goal with |- context [if top then ?a else ?b] => destruct (if top then a else b) as [[c1 s1] st1] end.
  destruct (lanes _ _ _ _ _) as [order|m|m|]; cbn [bind]; try (right; reflexivity).
  match goal with |- context [bind (place (te_length e s) ?s2 ?l2 ?i2 ?w2 ?sz ?sts ?ax ?stp ?o ?k ?cc ?cn) _] =>
    destruct (place_longer (te_length e s) s2 l2 i2 w2 sz sts ax stp o k cc cn) as [E|E] end.
  - left. rewrite E. reflexivity.
  - right. rewrite E. reflexivity.
Qed.

Lemma turns_from_longer e : forall layers st,
  turns_from e st layers = Ok None \/ turns_from e st layers = turns_from (longer_env e) st layers.
Proof.
  induction layers as [|l layers IH]; intros st; [now right|]. cbn [turns_from].
  destruct (is_conduction (l_type l)); [|apply IH].
  destruct (turns_of_layer_longer e st l) as [E|E]; rewrite E; [now left|].
  destruct (turns_of_layer (longer_env e) st l) as [[[ts st']|]|m|m|]; cbn [bind]; try (right; reflexivity).
  destruct (IH st') as [E2|E2]; rewrite E2; [now left|now right].
Qed.

Definition longer_round (e : round_env) : round_env :=
  mkRoundEnv (re_windings e) (re_real e) (re_order e) (re_overlapping e) (re_window e) (re_angle e) (re_corridor e)
             (longer (re_length e)).

Lemma round_turns_of_layer_longer e c o l :
  round_turns_of_layer e c o l = Ok None \/ round_turns_of_layer e c o l = round_turns_of_layer (longer_round e) c o l.
Proof.
  unfold round_turns_of_layer. destruct (l_partials l) as [|[name props] [|]]; try (right; reflexivity).
  cbn [longer_round re_windings re_real re_order re_overlapping re_window re_angle re_corridor re_length].
  destruct (winding_by_name (re_windings e) name) as [[i w]|m|m|]; cbn [bind]; try (right; reflexivity).
  destruct (physical_turns _ _ _) as [n|m|m|]; cbn [bind]; try (right; reflexivity).
  destruct (value (l_alignment l)) as [a|m|m|]; cbn [bind]; try (right; reflexivity).
  destruct (re_angle e _ _) as [wa|]; [|now left].
  match goal with |- context [if (?x || ?y)%bool then _ else _] => destruct (x || y)%bool; [now left|] end.
  destruct (negb _); [now right|].
  match goal with |- context [if re_real e then ?a else ?b] => destruct (if re_real e then a else b) as [ctr dim] end.
  match goal with |- context [match a with INNER_OR_TOP => ?a1 | OUTER_OR_BOTTOM => ?a2 | SPREAD => ?a3 | CENTERED => ?a4 end] =>
    destruct (match a with INNER_OR_TOP => a1 | OUTER_OR_BOTTOM => a2 | SPREAD => a3 | CENTERED => a4 end) as [an inc] end.
  match goal with |- context [if (?b1 && ?b2)%bool then ?x else ?y] => destruct (if (b1 && b2)%bool then x else y) as [an2 inc2] end.
  destruct (value (l_section l)) as [s|m|m|]; cbn [bind]; try (right; reflexivity).
  match goal with |- context [match re_order e s with ORDER_U => ?x | ORDER_Z => ?y end] =>
    set (back := match re_order e s with ORDER_U => x | ORDER_Z => y end) end.
  match goal with |- context [let '(_, _) := (if back then ?x else ?y) in _] => destruct (if back then x else y) as [an3 inc3] end.
  destruct (lanes _ _ _ _ _) as [order|m|m|]; cbn [bind]; try (right; reflexivity).
  match goal with |- context [bind (place (re_length e) ?s2 ?l2 ?i2 ?w2 ?sz ?sts ?ax ?stp ?o ?k ?cc ?cn) _] =>
    destruct (place_longer (re_length e) s2 l2 i2 w2 sz sts ax stp o k cc cn) as [E|E] end.
  - left. rewrite E. reflexivity.
  - right. rewrite E. reflexivity.
Qed.

Lemma round_turns_from_longer e : forall layers c o,
  round_turns_from e c o layers = Ok None \/ round_turns_from e c o layers = round_turns_from (longer_round e) c o layers.
Proof.
  induction layers as [|l layers IH]; intros c o; [now right|]. cbn [round_turns_from].
  destruct (is_conduction (l_type l)); [|apply IH].
  destruct (round_turns_of_layer_longer e c o l) as [E|E]; rewrite E; [now left|].
  destruct (round_turns_of_layer (longer_round e) c o l) as [[[[ts c'] o']|]|m|m|]; cbn [bind]; try (right; reflexivity).
  destruct (IH c' o') as [E2|E2]; rewrite E2; [now left|now right].
Qed.
