(** C03, C70: every turn is laid once, is numbered in order and keeps clear of the others of its layer. *)
From Coq Require Import ZArith QArith Qround Qabs List Bool String Lia Lqa Arith FinFun.
From Verif Require Import Base QAux UtilsNumProofs CoilSplitModel CoilSplitProofs CoilSplitProperties StationModel StationProperties WindModel WindProofs.
Import ListNotations.
Open Scope Q_scope.

(** * Vocabulary *)

(** The turns of one parallel of one winding, in the order they are listed. *)
Definition turns_of (w : string) (p : nat) (ts : list turn) : list turn :=
  filter (fun t => String.eqb (t_winding t) w && Nat.eqb (t_parallel t) p)%bool ts.

Definition conduction (layers : list layer) : list layer := filter (fun l => is_conduction (l_type l)) layers.

(** How much of parallel [p] of winding [w] a layer holds, and all the layers together. *)
Definition share_of (w : string) (p : nat) (l : layer) : Q :=
  match l_partials l with
  | [(n, props)] => if String.eqb n w then nth p props 0 else 0
  | _ => 0
  end.
Definition share (w : string) (p : nat) (layers : list layer) : Q := Qsum (map (share_of w p) (conduction layers)).

(** All the parallels that have turns on the layer have the same number of them. *)
Definition even (N : Z) (props : list Q) : Prop :=
  exists k, (0 < k)%Z /\ Exists (fun q => q * inject_Z N == inject_Z k) props /\
    Forall (fun q => q == 0 \/ q * inject_Z N == inject_Z k) props.

(** A conduction layer that can be wound: it holds whole turns of a single winding of the coil, and it is laid
    parallel by parallel unless its parallels have the same number of turns. *)
Definition windable (windings : list winding) (l : layer) : Prop :=
  exists w props a s, In w windings /\ l_partials l = [(w_name w, props)] /\
    List.length props = w_parallels w /\ Forall (whole (w_turns w)) props /\
    l_alignment l = Some a /\ l_section l = Some s /\
    (l_style l = Some WIND_BY_CONSECUTIVE_PARALLELS -> even (w_turns w) props).

(** The turns [b] are those of layer [l]. *)
Definition laid_on (windings : list winding) (l : layer) (b : list turn) : Prop :=
  exists w, In w windings /\
    (forall t, In t b -> t_layer t = l_name l /\ l_section l = Some (t_section t) /\ t_winding t = w_name w /\
                         (t_parallel t < w_parallels w)%nat) /\
    (forall p, inject_Z (Z.of_nat (List.length (turns_of (w_name w) p b))) ==
               inject_Z (w_turns w) * share_of (w_name w) p l).

(** Windings a coil can have: distinct names, and a sane number of turns. *)
Definition sane (windings : list winding) : Prop :=
  NoDup (map w_name windings) /\ Forall (fun w => 0 < w_turns w < 10 ^ 9)%Z windings.

(** * Proofs *)

Definition nkey (t : turn) : string * nat := (t_winding t, t_parallel t).

Definition block_ok (windings : list winding) (l : layer) (b : list turn) (c c' : nat -> nat -> nat) : Prop :=
  exists i w props ks, nth_error windings i = Some w /\ l_partials l = [(w_name w, props)] /\
    List.length props = w_parallels w /\ wholes (w_turns w) props ks /\
    (forall t, In t b -> t_layer t = l_name l /\ l_section l = Some (t_section t) /\ t_winding t = w_name w /\
                         (t_parallel t < w_parallels w)%nat) /\
    (forall p, exists n, Z.of_nat n = nth p ks 0%Z /\
       map t_name (filter (of_parallel p) b) = map (turn_name (w_name w) p) (seq (c i p) n) /\ c' i p = (c i p + n)%nat) /\
    (forall j p, j <> i -> c' j p = c j p).

Inductive chain (windings : list winding) : (nat -> nat -> nat) -> list layer -> list (list turn) -> Prop :=
| chain_nil c : chain windings c [] []
| chain_cons c c' l b ls bs : block_ok windings l b c c' -> chain windings c' ls bs -> chain windings c (l :: ls) (b :: bs).

Lemma turns_of_block w p b : (forall t, In t b -> t_winding t = w) -> turns_of w p b = filter (of_parallel p) b.
Proof.
  intros H. unfold turns_of, of_parallel. apply filter_ext_in. intros t Ht. rewrite (H t Ht), String.eqb_refl. reflexivity.
Qed.

Lemma turns_of_other w v p b : v <> w -> (forall t, In t b -> t_winding t = v) -> turns_of w p b = [].
Proof.
  intros Hne H. unfold turns_of. induction b as [|t b IH]; [reflexivity|]. cbn [filter].
  rewrite (H t (or_introl eq_refl)). destruct (String.eqb_spec v w); [contradiction|]. cbn [andb].
  apply IH. intros; apply H; now right.
Qed.

Lemma turns_of_app w p a b : turns_of w p (a ++ b) = (turns_of w p a ++ turns_of w p b)%list.
Proof. apply filter_app. Qed.

Lemma whole_share N props ks p : (0 < N)%Z -> wholes N props ks ->
  inject_Z N * nth p props 0 == inject_Z (nth p ks 0%Z).
Proof.
  intros HN H. pose proof (wholes_nth N HN props ks p H) as E. unfold is_whole in E. rewrite E.
  pose proof (NQ N HN). field. lra.
Qed.

Lemma chain_names windings c ls bs : sane windings -> chain windings c ls bs ->
  forall i w p, nth_error windings i = Some w ->
  exists n, map t_name (turns_of (w_name w) p (List.concat bs)) = map (turn_name (w_name w) p) (seq (c i p) n) /\
    inject_Z (Z.of_nat n) == inject_Z (w_turns w) * Qsum (map (share_of (w_name w) p) ls).
Proof.
  intros [ND HT] H. induction H as [c|c c' l b ls bs B H IH]; intros i w p Hi.
  - exists 0%nat. cbn. split; [reflexivity|]. change (inject_Z 0) with 0. ring.
  - destruct (IH i w p Hi) as (n & En & Es).
    destruct B as (k & v & props & ks & Hk & Hl & HP & Hw & Ht & Hp & Hc). cbn [List.concat map Qsum].
    rewrite turns_of_app, map_app.
    assert (Sh : share_of (w_name w) p l = if String.eqb (w_name v) (w_name w) then nth p props 0 else 0).
    { unfold share_of. rewrite Hl. reflexivity. }
    rewrite Sh. destruct (Nat.eq_dec k i) as [->|Hne].
    + assert (v = w) by congruence. subst v. rewrite String.eqb_refl.
      destruct (Hp p) as (m & Em & Enm & Ec). rewrite turns_of_block by (intros t Hti; now apply Ht).
      rewrite Enm, En, Ec. exists (m + n)%nat. split.
      * now rewrite seq_app, map_app.
      * rewrite Nat2Z.inj_add, inject_Z_plus, Es, Em.
        assert (HN : (0 < w_turns w)%Z) by (rewrite Forall_forall in HT; apply HT; eapply nth_error_In; eassumption).
        rewrite <- (whole_share (w_turns w) props ks p HN Hw). ring.
    + assert (Hnm : w_name v <> w_name w).
      { intros E. apply Hne. rewrite NoDup_nth_error in ND. apply ND.
        - rewrite map_length. apply nth_error_Some. congruence.
        - rewrite !nth_error_map, Hk, Hi. cbn. now rewrite E. }
      destruct (String.eqb_spec (w_name v) (w_name w)); [contradiction|].
      rewrite (turns_of_other (w_name w) (w_name v)) by (try assumption; intros t Hti; now apply Ht).
      rewrite (Hc i p) in En by (intros E; now apply Hne). exists n. split; [exact En|]. rewrite Es. ring.
Qed.

Lemma chain_turns windings c ls bs : chain windings c ls bs ->
  forall t, In t (List.concat bs) -> exists w k, In w windings /\ t_winding t = w_name w /\
     (t_parallel t < w_parallels w)%nat /\ t_name t = turn_name (w_name w) (t_parallel t) k.
Proof.
  intros H. induction H as [|c c' l b ls bs B H IH]; intros t Ht; [destruct Ht|]. cbn in Ht. apply in_app_iff in Ht.
  destruct Ht as [Ht|Ht]; [|auto].
  destruct B as (k & v & props & ks & Hk & Hl & HP & Hw & Hall & Hp & Hc).
  destruct (Hall t Ht) as (_ & _ & Hv & Hlt). destruct (Hp (t_parallel t)) as (n & _ & En & _).
  assert (Hin : In (t_name t) (map t_name (filter (of_parallel (t_parallel t)) b))).
  { apply in_map. apply filter_In. split; [assumption|]. unfold of_parallel. apply Nat.eqb_refl. }
  rewrite En in Hin. apply in_map_iff in Hin. destruct Hin as (m & Em & _).
  exists v, m. split; [eapply nth_error_In; eassumption|]. auto.
Qed.

Lemma chain_distinct windings c ls bs : sane windings -> chain windings c ls bs -> NoDup (map t_name (List.concat bs)).
Proof.
  intros HS H.
  apply (NoDup_by_key t_name nkey (fun k t => String.eqb (t_winding t) (fst k) && Nat.eqb (t_parallel t) (snd k))%bool).
  - intros [k1 k2] t. unfold nkey. cbn. rewrite andb_true_iff, String.eqb_eq, Nat.eqb_eq. split.
    + intros [-> ->]. reflexivity.
    + now injection 1.
  - intros x y Hx Hy E. destruct (chain_turns _ _ _ _ H x Hx) as (w1 & k1 & _ & W1 & _ & N1).
    destruct (chain_turns _ _ _ _ H y Hy) as (w2 & k2 & _ & W2 & _ & N2). unfold nkey.
    rewrite N1, N2 in E. apply turn_name_inj in E. destruct E as (E1 & E2 & _). congruence.
  - intros [kw kp]. cbn [fst snd]. change (NoDup (map t_name (turns_of kw kp (List.concat bs)))).
    destruct (in_dec string_dec kw (map w_name windings)) as [Hin|Hout].
    + apply in_map_iff in Hin. destruct Hin as (w & <- & Hin). apply In_nth_error in Hin. destruct Hin as (i & Hi).
      destruct (chain_names _ _ _ _ HS H i w kp Hi) as (n & En & _). rewrite En.
      apply FinFun.Injective_map_NoDup; [|apply seq_NoDup]. intros a b E. now apply turn_name_inj in E.
    + assert (E : turns_of kw kp (List.concat bs) = []); [|rewrite E; constructor].
      destruct (turns_of kw kp (List.concat bs)) as [|t r] eqn:E; [reflexivity|exfalso].
      assert (Ht : In t (turns_of kw kp (List.concat bs))) by (rewrite E; now left).
      apply filter_In in Ht. destruct Ht as [Ht Hb]. apply andb_true_iff in Hb. destruct Hb as [Hb _]. apply String.eqb_eq in Hb.
      destruct (chain_turns _ _ _ _ H t Ht) as (w & k & Hw & W & _). apply Hout. rewrite <- Hb, W. now apply in_map.
Qed.

Lemma chain_laid windings c ls bs : sane windings -> chain windings c ls bs -> Forall2 (laid_on windings) ls bs.
Proof.
  intros HS H. induction H as [|c c' l b ls bs B H IH]; constructor; [|assumption].
  destruct B as (k & v & props & ks & Hk & Hl & HP & Hw & Hall & Hp & Hc). exists v.
  assert (Hv : In v windings) by (eapply nth_error_In; eassumption). split; [assumption|]. split; [assumption|].
  intros p. rewrite turns_of_block by (intros t Ht; now apply Hall). destruct (Hp p) as (n & En & Em & _).
  assert (L : List.length (filter (of_parallel p) b) = n).
  { pose proof (f_equal (@List.length _) Em) as L. now rewrite !map_length, seq_length in L. }
  rewrite L, En. unfold share_of. rewrite Hl, String.eqb_refl.
  destruct HS as [_ HT]. rewrite Forall_forall in HT. symmetry. apply whole_share; [apply HT|]; assumption.
Qed.

(** The order in which a windable layer is laid. *)
Lemma even_rowed N props ks : (0 < N)%Z -> wholes N props ks -> even N props ->
  exists k, (0 < k)%Z /\ rowed k ks /\ In k ks.
Proof.
  intros HN Hw (k & K & E & F). pose proof (NQ N HN) as HNq. exists k. split; [assumption|].
  assert (Eq : forall q j, is_whole N q j -> q * inject_Z N == inject_Z j).
  { intros q j H. unfold is_whole in H. rewrite H. field. lra. }
  split.
  - clear E. unfold rowed. induction Hw as [|q j props ks Hj Hw IH]; constructor; inversion F as [|? ? F1 F2]; subst.
    + pose proof (Eq q j Hj) as Q1. destruct F1 as [F1|F1].
      * right. rewrite F1 in Q1. rewrite Qmult_0_l in Q1. change 0 with (inject_Z 0) in Q1. rewrite inj_eq in Q1. lia.
      * left. rewrite F1 in Q1. rewrite inj_eq in Q1. lia.
    + now apply IH.
  - clear F. induction Hw as [|q j props ks Hj Hw IH]; inversion E as [? ? E1|? ? E1]; subst.
    + left. pose proof (Eq q j Hj) as Q1. rewrite E1 in Q1. rewrite inj_eq in Q1. lia.
    + right. now apply IH.
Qed.

Lemma Zsum_decrease l i : (i < List.length l)%nat -> Zsum (decrease_at l i) = (Zsum l - 1)%Z.
Proof.
  revert i. induction l as [|a l IH]; intros i Hi; [cbn in Hi; lia|]. destruct i; cbn.
  - lia.
  - rewrite IH by (cbn in Hi; lia). lia.
Qed.

Lemma length_counts : forall order ks, (forall p, In p order -> (p < List.length ks)%nat) ->
  (forall p, (p < List.length ks)%nat -> Z.of_nat (count_occ Nat.eq_dec order p) = nth p ks 0%Z) ->
  Z.of_nat (List.length order) = Zsum ks.
Proof.
  induction order as [|x order IH]; intros ks HI HC.
  - cbn. symmetry. apply Zsum_all_zero. apply Forall_forall. intros k Hk. apply In_nth with (d := 0%Z) in Hk.
    destruct Hk as (p & Hp & <-). rewrite <- HC by assumption. reflexivity.
  - assert (Hx : (x < List.length ks)%nat) by (apply HI; now left).
    specialize (IH (decrease_at ks x)). rewrite decrease_length in IH.
    rewrite Zsum_decrease in IH by assumption. cbn [List.length]. rewrite Nat2Z.inj_succ, IH.
    + lia.
    + intros p Hp. apply HI. now right.
    + intros p Hp. rewrite decrease_nth by assumption. specialize (HC p Hp). cbn [count_occ] in HC.
      destruct (Nat.eq_dec x p) as [->|Hn].
      * rewrite Nat.eqb_refl. lia.
      * destruct (Nat.eqb_spec p x); [congruence|]. lia.
Qed.

Lemma lanes_spec real style N props ks : (0 < N < 10 ^ 9)%Z -> wholes N props ks -> Forall (fun k => 0 <= k)%Z ks ->
  (style = WIND_BY_CONSECUTIVE_PARALLELS -> even N props) ->
  exists order, lanes real style N props (List.length props) = Ok order /\
    (forall p, In p order -> (p < List.length props)%nat) /\
    (forall p, Z.of_nat (count_occ Nat.eq_dec order p) = nth p ks 0%Z) /\
    Z.of_nat (List.length order) = Zsum ks.
Proof.
  intros [HN HM] Hw F Hev.
  assert (Lks : List.length props = List.length ks) by (eapply wholes_length; eassumption).
  assert (Par : (exists k, (0 < k)%Z /\ rowed k ks /\ In k ks) ->
    exists order, parallels_lanes N props (List.length props) = Ok order /\
    (forall p, In p order -> (p < List.length props)%nat) /\
    (forall p, Z.of_nat (count_occ Nat.eq_dec order p) = nth p ks 0%Z) /\
    Z.of_nat (List.length order) = Zsum ks).
  { intros (k & K & R & I). destruct (parallels_lanes_spec N HN props ks k ltac:(lia) Hw F K R I) as (order & E & I1 & C).
    exists order. split; [assumption|]. split; [assumption|]. split; [assumption|].
    apply length_counts; [rewrite <- Lks; assumption|]. intros; apply C. }
  unfold lanes. destruct style.
  - destruct (real && side_by_side props)%bool eqn:B.
    + apply Par. apply andb_true_iff in B. destruct B as [_ B].
      eapply side_by_side_rowed; eassumption.
    + destruct (turns_lanes_spec N HN props ks 0 Hw F) as (order & E & I & C & L).
      exists order. split; [exact E|]. split; [intros p Hp; specialize (I p Hp); lia|]. split; [|assumption].
      intros p. specialize (C p ltac:(lia)). now rewrite Nat.sub_0_r in C.
  - apply Par. eapply even_rowed; try eassumption. now apply Hev.
Qed.

Lemma bundle_pos style props : (1 <= get_layer_bundle_size style props)%Z.
Proof.
  unfold get_layer_bundle_size. destruct style as [[]|]; try lia.
  match goal with |- context [(0 <? ?x)%Z] => destruct (Z.ltb_spec 0 x) end; lia.
Qed.

(** What a layer's stations are good for. *)
Definition roomy (size : Q * Q) (n : nat) (r : (Q * Q) * (Q * Q) * list Q * nat) (o : orientation) : Prop :=
  let '(center, step, stations, axis) := r in
  let pitch := if is_overlapping o then snd size else fst size in
  (stations <> [] -> axis = if is_overlapping o then 1%nat else 0%nat) /\
  (if is_overlapping o then fst step == 0 else snd step == 0) /\
  match stations with
  | [] => (if is_overlapping o then snd step else fst step) == pitch \/
          (if is_overlapping o then snd step else fst step) == - pitch \/ n = 0%nat
  | _ => fst step == 0 /\ snd step == 0 /\ List.length stations = n /\
         ((forall i j, (i <= j < n)%nat -> inject_Z (Z.of_nat (j - i)) * pitch <= nth j stations 0 - nth i stations 0) \/
          (forall i j, (i <= j < n)%nat -> inject_Z (Z.of_nat (j - i)) * pitch <= nth i stations 0 - nth j stations 0))
  end.

Lemma stations_room c L w n b : 0 < w -> (1 <= b)%Z ->
  let st := compute_spread_turn_stations c L w (Z.of_nat n) b in
  List.length st = n /\
  forall i j, (i <= j < n)%nat -> inject_Z (Z.of_nat (j - i)) * w <= nth j st 0 - nth i st 0.
Proof.
  intros Hw Hb st. assert (Eb : b = Z.of_nat (Z.to_nat b)) by lia. unfold st. rewrite Eb. split; [apply station_length|].
  intros i j Hij. pose proof (stations_apart c L w n (Z.to_nat b) ltac:(lia) Hw (j - i)%nat i ltac:(lia)) as A.
  unfold position in A. replace (i + (j - i))%nat with j in A by lia. lra.
Qed.

Lemma rev_room st n pitch : List.length st = n ->
  (forall i j, (i <= j < n)%nat -> inject_Z (Z.of_nat (j - i)) * pitch <= nth j st 0 - nth i st 0) ->
  forall i j, (i <= j < n)%nat -> inject_Z (Z.of_nat (j - i)) * pitch <= nth i (rev st) 0 - nth j (rev st) 0.
Proof.
  intros L H i j Hij. rewrite !rev_nth by lia. rewrite L.
  specialize (H (n - S j)%nat (n - S i)%nat ltac:(lia)). replace (n - S i - (n - S j))%nat with (j - i)%nat in H by lia. exact H.
Qed.

Lemma layer_start_roomy a l n size : 0 < fst size -> 0 < snd size ->
  roomy size n (layer_start a l (Z.of_nat n) size) (l_orientation l).
Proof.
  intros H1 H2. unfold layer_start. destruct (l_center l) as [cx cy], (l_size l) as [sx sy], size as [w h].
  cbn [fst snd] in H1, H2. set (b := get_layer_bundle_size _ _). assert (B : (1 <= b)%Z) by apply bundle_pos.
  destruct (l_orientation l); cbn [is_overlapping]; destruct a; unfold roomy; cbn [is_overlapping fst snd];
    try (split; [congruence|]; split; [reflexivity|]; left; reflexivity);
    (split; [reflexivity|]; split; [reflexivity|]).
  - destruct (stations_room cy sy h n b H2 B) as [L R]. set (st := compute_spread_turn_stations _ _ _ _ _) in *.
    destruct (rev st) as [|x r] eqn:E.
    + right; right. apply (f_equal (@List.length Q)) in E. rewrite rev_length in E. cbn in E. lia.
    + rewrite <- E. split; [reflexivity|]. split; [reflexivity|]. split; [now rewrite rev_length|]. right. now apply rev_room.
  - destruct (stations_room cx sx w n b H1 B) as [L R]. set (st := compute_spread_turn_stations _ _ _ _ _) in *.
    destruct st as [|x r] eqn:E.
    + right; right. cbn in L. lia.
    + rewrite <- E in *. split; [reflexivity|]. split; [reflexivity|]. split; [assumption|]. now left.
Qed.

(** No two turns of a layer overlap: along the layer two of them are at least as many wires apart as there are
    steps between them, and across it they are level. *)
Definition apart (size : Q * Q) (o : orientation) (b : list turn) : Prop :=
  forall i j, (i < j < List.length b)%nat ->
    let a := nth i (map t_center b) (0, 0) in let c := nth j (map t_center b) (0, 0) in
    if is_overlapping o
    then fst a == fst c /\ inject_Z (Z.of_nat (j - i)) * snd size <= Qabs (snd a - snd c)
    else snd a == snd c /\ inject_Z (Z.of_nat (j - i)) * fst size <= Qabs (fst a - fst c).

Lemma Qabs_ge x y : y <= x \/ y <= - x -> y <= Qabs x.
Proof.
  intros [H|H]; [pose proof (Qle_Qabs x); lra|]. pose proof (Qle_Qabs (- x)) as P. rewrite Qabs_opp in P. lra.
Qed.

(** The turns of one layer. *)
Lemma layer_block e st l : sane (te_windings e) -> (forall s x, te_length e s x <> None) ->
  (forall w, In w (te_windings e) -> 0 < w_width w /\ 0 < te_pitch e l (w_height w)) ->
  windable (te_windings e) l ->
  exists b st', turns_of_layer e st l = Ok (Some (b, st')) /\
    block_ok (te_windings e) l b (ts_counters st) (ts_counters st') /\
    exists w, In w (te_windings e) /\ (forall t, In t b -> t_winding t = w_name w) /\
      apart (w_width w, te_pitch e l (w_height w)) (l_orientation l) b.
Proof.
  intros HS HL HW (w & props & a & s & Hin & Hl & HP & Hwh & Ha & Hsec & Hev).
  destruct HS as [ND HT]. rewrite Forall_forall in HT. specialize (HT w Hin) as HN.
  assert (HN0 : (0 < w_turns w)%Z) by lia.
  destruct (whole_counts (w_turns w) props HN0 Hwh) as (ks & Hw & Hk).
  apply In_nth_error in Hin as Hi. destruct Hi as (i & Hi).
  unfold turns_of_layer. rewrite Hl. rewrite (winding_by_name_nth _ i w ND Hi). cbn [bind].
  rewrite <- HP. rewrite (physical_turns_spec (w_turns w) props ks HN0 Hw). cbn [bind]. rewrite Ha, Hsec. cbn [bind value].
  set (size := (w_width w, te_pitch e l (w_height w))).
  assert (Sz : 0 < fst size /\ 0 < snd size) by (destruct (HW w Hin); now split). destruct Sz as [S1 S2].
  set (style := match l_style l with Some s0 => s0 | None => WIND_BY_CONSECUTIVE_TURNS end).
  destruct (lanes_spec (te_real e) style (w_turns w) props ks ltac:(lia) Hw Hk) as (order & EO & OI & OC & OL).
  { intros Es. apply Hev. unfold style in Es. destruct (l_style l); [now subst|discriminate]. }
  set (n := List.length order) in *.
  pose proof (layer_start_roomy a l n size S1 S2) as RM.
  rewrite <- OL. destruct (layer_start a l (Z.of_nat n) size) as [[[center step] stations] axis] eqn:LS.
  destruct (starts_at_top e st l s (w_name w) (List.length props) (Z.of_nat n)) as [top st'] eqn:ST.
  assert (Cst : ts_counters st' = ts_counters st).
  { unfold starts_at_top in ST. injection ST as _ <-. reflexivity. }
  set (tri := if top then _ else _).
  assert (RM2 : let '(c2, s2, st2) := tri in roomy size n (c2, s2, st2, axis) (l_orientation l)).
  { unfold tri. destruct top; [exact RM|]. unfold roomy in *. destruct RM as (R1 & R2 & R3).
    destruct stations as [|x r] eqn:Es; cbn [rev].
    - split; [assumption|]. split.
      + destruct (l_orientation l); cbn [is_overlapping fst snd] in *; rewrite R2; ring.
      + destruct (l_orientation l); cbn [is_overlapping fst snd] in *; destruct R3 as [R3|[R3|R3]]; auto;
          [right; left|left|right; left|left]; rewrite R3; ring.
    - destruct R3 as (R3 & R4 & R5 & R6).
      destruct (rev r ++ [x])%list as [|y q] eqn:Er; [destruct (rev r); discriminate|]. rewrite <- Er.
      change (rev r ++ [x])%list with (rev (x :: r)).
      split; [intros _; apply R1; discriminate|]. split.
      { destruct (l_orientation l); cbn [is_overlapping fst snd] in *; rewrite R2; ring. }
      cbn [fst snd]. split; [rewrite R3; ring|]. split; [rewrite R4; ring|].
      split; [rewrite rev_length; exact R5|].
      destruct R6 as [R6|R6].
      + right. now apply rev_room.
      + left. intros i0 j0 Hij. rewrite !rev_nth by lia. rewrite R5.
        specialize (R6 (n - S j0)%nat (n - S i0)%nat ltac:(lia)).
        replace (n - S i0 - (n - S j0))%nat with (j0 - i0)%nat in R6 by lia. exact R6. }
  destruct tri as [[c2 s2] st2]. cbn [bind].
  rewrite EO. cbn [bind].
  destruct (place_spec (te_length e s) (HL s) s l i (w_name w) size st2 axis (fst s2, - snd s2) order 0 c2 (ts_counters st'))
    as (ts & c' & E & Hpar & Hall & Hnm & Hc1 & Hc2 & Hg).
  { unfold roomy in RM2. destruct st2 as [|x r]; [now left|right]. destruct RM2 as (_ & _ & _ & _ & L & _). cbn [Nat.add].
    fold n. lia. }
  rewrite E. cbn [bind]. eexists. eexists. split; [reflexivity|]. split.
  - exists i, w, props, ks. split; [assumption|]. split; [assumption|]. split; [assumption|]. split; [assumption|].
    rewrite Forall_forall in Hall. split; [|split].
    + intros t Ht. destruct (Hall t Ht) as (A1 & A2 & A3 & _). split; [assumption|]. split; [now rewrite A2|].
      split; [assumption|]. rewrite <- HP. apply OI. rewrite <- Hpar. now apply in_map.
    + intros p. exists (count_occ Nat.eq_dec order p). split; [apply OC|]. cbn [ts_counters]. rewrite <- Cst. split; [apply Hnm|apply Hc1].
    + intros j p Hj. cbn [ts_counters]. rewrite <- Cst. now apply Hc2.
  - exists w. split; [assumption|]. split.
    { intros t Ht. rewrite Forall_forall in Hall. now apply Hall. }
    assert (LT : List.length ts = n) by (unfold n; rewrite <- Hpar, map_length; reflexivity).
    intros k1 k2 Hk12. rewrite LT in Hk12. cbn zeta.
    pose proof (Hg k1 ltac:(lia)) as G1. pose proof (Hg k2 ltac:(lia)) as G2. clear Hg.
    set (a1 := nth k1 (map t_center ts) (0, 0)) in *. set (a2 := nth k2 (map t_center ts) (0, 0)) in *.
    assert (Ed : inject_Z (Z.of_nat (k2 - k1)) == inject_Z (Z.of_nat k2) - inject_Z (Z.of_nat k1)).
    { rewrite Nat2Z.inj_sub by lia. unfold Z.sub. rewrite inject_Z_plus, inject_Z_opp. ring. }
    assert (Ep : 0 <= inject_Z (Z.of_nat (k2 - k1))) by (change 0 with (inject_Z 0); apply inj_le; lia).
    unfold roomy, size in RM2. destruct RM2 as (R1 & R2 & R3).
    destruct st2 as [|x r] eqn:Es.
    + destruct (l_orientation l); cbn [is_overlapping fst snd] in *; destruct G1 as [G1 G1'], G2 as [G2 G2'].
      * split; [rewrite G1, G2, R2; ring|]. apply Qabs_ge.
        destruct R3 as [R3|[R3|R3]]; [left|right|lia]; rewrite G1', G2', R3, Ed; lra.
      * split; [rewrite G1', G2', R2; ring|]. apply Qabs_ge.
        destruct R3 as [R3|[R3|R3]]; [right|left|lia]; rewrite G1, G2, R3, Ed; lra.
    + rewrite <- Es in *. destruct R3 as (R3 & R4 & R5 & R6). rewrite R1 in G1, G2 by congruence. rewrite Es in G1, G2. cbn [Nat.add] in *.
      destruct (l_orientation l); cbn [is_overlapping fst snd Nat.eqb] in *; destruct G1 as [G1 G1'], G2 as [G2 G2'].
      * split; [rewrite G1, G2, R3; ring|]. apply Qabs_ge. rewrite G1', G2', <- Es.
        destruct R6 as [R6|R6]; specialize (R6 k1 k2 ltac:(lia)); [right|left]; lra.
      * split; [rewrite G1', G2', R4; ring|]. apply Qabs_ge. rewrite G1, G2, <- Es.
        destruct R6 as [R6|R6]; specialize (R6 k1 k2 ltac:(lia)); [right|left]; lra.
Qed.

Lemma layers_blocks e : sane (te_windings e) -> (forall s x, te_length e s x <> None) ->
  forall layers st,
  (forall l w, In l (conduction layers) -> In w (te_windings e) -> 0 < w_width w /\ 0 < te_pitch e l (w_height w)) ->
  Forall (windable (te_windings e)) (conduction layers) ->
  exists bs, turns_from e st layers = Ok (Some (List.concat bs)) /\
    chain (te_windings e) (ts_counters st) (conduction layers) bs /\
    Forall2 (fun l b => exists w, In w (te_windings e) /\ (forall t, In t b -> t_winding t = w_name w) /\
               apart (w_width w, te_pitch e l (w_height w)) (l_orientation l) b) (conduction layers) bs.
Proof.
  intros HS HL. induction layers as [|l layers IH]; intros st HW HF.
  - exists []. cbn. split; [reflexivity|]. split; constructor.
  - cbn [turns_from conduction filter] in *. destruct (is_conduction (l_type l)).
    + inversion HF as [|? ? F1 F2]; subst.
      destruct (layer_block e st l HS HL) as (b & st' & E & B & A); [|assumption|].
      { intros w Hw. apply HW; [now left|assumption]. }
      destruct (IH st') as (bs & E2 & C & A2); [|assumption|].
      { intros l' w Hl Hw. apply HW; [now right|assumption]. }
      rewrite E. cbn [bind]. rewrite E2. cbn [bind]. exists (b :: bs). split; [reflexivity|]. split.
      * econstructor; eassumption.
      * constructor; assumption.
    + apply IH; assumption.
Qed.

(** The turns of one layer of a toroid: all at one depth, one wire's angle apart or more when they fit. *)
Definition apart_in_angle (wireAngle : Q) (b : list turn) : Prop :=
  forall i j, (i < j < List.length b)%nat ->
    let a := nth i (map t_center b) (0, 0) in let c := nth j (map t_center b) (0, 0) in
    fst a == fst c /\ inject_Z (Z.of_nat (j - i)) * (wireAngle - 1 / inject_Z 2000000000) <= Qabs (snd a - snd c).

(** The angle of the wire on a layer, as the code takes it, and the room the layer has. *)
Definition wire_angle (e : round_env) (w : winding) (l : layer) : option Q :=
  re_angle e (w_height w) (match w_wire w with RECTANGULAR => re_window e - fst (l_center l) - w_width w / 2
                                             | _ => re_window e - fst (l_center l) end).
Definition arc (e : round_env) (l : layer) (wireAngle : Q) : Q :=
  if re_real e then snd (re_corridor e l wireAngle) else snd (l_size l).

Lemma round9_ge x y : y <= x -> y - 1 / inject_Z 2000000000 <= roundFloat x 9.
Proof.
  intros H. pose proof (roundFloat_near x 9) as B. apply Qabs_Qle_condition in B. destruct B as [B _].
  assert (E : 1 / inject_Z 2000000000 == (1 # 2) / p10 9) by reflexivity. rewrite E. lra.
Qed.

Lemma round_block e c o l : sane (re_windings e) -> (forall x, re_length e x <> None) ->
  windable (re_windings e) l -> l_orientation l = OVERLAPPING ->
  round_turns_of_layer e c o l = Ok None \/
  exists b c' o', round_turns_of_layer e c o l = Ok (Some (b, c', o')) /\
    block_ok (re_windings e) l b c c' /\
    exists w angle, In w (re_windings e) /\ (forall t, In t b -> t_winding t = w_name w) /\
      wire_angle e w l = Some angle /\
      (0 <= angle -> inject_Z (Z.of_nat (List.length b)) * angle <= arc e l angle -> apart_in_angle angle b).
Proof.
  intros HS HL (w & props & a & s & Hin & Hl & HP & Hwh & Ha & Hsec & Hev) HO.
  destruct HS as [ND HT]. rewrite Forall_forall in HT. specialize (HT w Hin) as HN.
  assert (HN0 : (0 < w_turns w)%Z) by lia.
  destruct (whole_counts (w_turns w) props HN0 Hwh) as (ks & Hw & Hk).
  apply In_nth_error in Hin as Hi. destruct Hi as (i & Hi).
  unfold round_turns_of_layer. rewrite Hl. rewrite (winding_by_name_nth _ i w ND Hi). cbn [bind].
  rewrite <- HP. rewrite (physical_turns_spec (w_turns w) props ks HN0 Hw). cbn [bind]. rewrite Ha, Hsec, HO. cbn [bind value is_overlapping negb].
  fold (wire_angle e w l). destruct (wire_angle e w l) as [angle|] eqn:WA; [|now left].
  match goal with |- context [if (?x || ?y)%bool then _ else _] => destruct (x || y)%bool; [now left|right] end.
  set (style := match l_style l with Some s0 => s0 | None => WIND_BY_CONSECUTIVE_TURNS end).
  destruct (lanes_spec (re_real e) style (w_turns w) props ks ltac:(lia) Hw Hk) as (order & EO & OI & OC & OL).
  { intros Es. apply Hev. unfold style in Es. destruct (l_style l); [now subst|discriminate]. }
  set (n := List.length order) in *. rewrite <- OL.
  assert (AR : arc e l angle = snd (if re_real e then re_corridor e l angle else (snd (l_center l), snd (l_size l)))).
  { unfold arc. now destruct (re_real e). }
  match goal with |- context [if re_real e then ?a else ?b] => destruct (if re_real e then a else b) as [ctr dim] eqn:CD end.
  cbn [snd] in AR.
  match goal with |- context [match a with INNER_OR_TOP => ?a1 | OUTER_OR_BOTTOM => ?a2 | SPREAD => ?a3 | CENTERED => ?a4 end] =>
    destruct (match a with INNER_OR_TOP => a1 | OUTER_OR_BOTTOM => a2 | SPREAD => a3 | CENTERED => a4 end) as [an inc] eqn:EI end.
  assert (I1 : (0 < n)%nat -> inject_Z (Z.of_nat n) * angle <= dim -> angle - 1 / inject_Z 2000000000 <= inc).
  { intros Hn Hfit. assert (Hnq : 0 < inject_Z (Z.of_nat n)) by (change 0 with (inject_Z 0); apply inj_lt; lia).
    destruct a; cbn zeta in EI; injection EI as <- <-; try (assert (0 < 1 / inject_Z 2000000000) by reflexivity; lra).
    apply round9_ge. apply (Qle_div_iff _ _ _ Hnq). lra. }
  match goal with |- context [if (?b1 && ?b2)%bool then ?x else ?y] => destruct (if (b1 && b2)%bool then x else y) as [an2 inc2] eqn:EI2 end.
  assert (I2 : (0 < n)%nat -> inject_Z (Z.of_nat n) * angle <= dim -> angle - 1 / inject_Z 2000000000 <= inc2).
  { intros Hn Hfit. specialize (I1 Hn Hfit). destruct (re_real e && re_overlapping e)%bool; [|congruence].
    cbn zeta in EI2. destruct (Qle_bool angle _) eqn:B; [|congruence].
    injection EI2 as _ <-. apply Qle_bool_iff in B. assert (0 < 1 / inject_Z 2000000000) by reflexivity. lra. }
  match goal with |- context [match re_order e s with ORDER_U => ?x | ORDER_Z => ?y end] =>
    set (back := match re_order e s with ORDER_U => x | ORDER_Z => y end) end.
  match goal with |- context [let '(_, _) := (if back then ?x else ?y) in _] => destruct (if back then x else y) as [an3 inc3] eqn:EI3 end.
  assert (I3 : inc3 = inc2 \/ inc3 = - inc2) by (destruct back; injection EI3 as _ <-; auto).
  rewrite EO. cbn [bind].
  destruct (place_spec (re_length e) HL s l i (w_name w) (w_width w, w_height w) [] 0 (0, inc3) order 0
              (if back then roundFloat (roundFloat (fst (l_center l)) 9) 9 else roundFloat (fst (l_center l)) 9, an3) c)
    as (ts & c' & E & Hpar & Hall & Hnm & Hc1 & Hc2 & Hg); [now left|].
  rewrite E. cbn [bind]. do 3 eexists. split; [reflexivity|]. split.
  - exists i, w, props, ks. split; [assumption|]. split; [assumption|]. split; [assumption|]. split; [assumption|].
    rewrite Forall_forall in Hall. split; [|split].
    + intros t Ht. destruct (Hall t Ht) as (A1 & A2 & A3 & _). split; [assumption|]. split; [now rewrite A2|].
      split; [assumption|]. rewrite <- HP. apply OI. rewrite <- Hpar. now apply in_map.
    + intros p. exists (count_occ Nat.eq_dec order p). split; [apply OC|]. split; [apply Hnm|apply Hc1].
    + intros j p Hj. now apply Hc2.
  - exists w, angle. split; [assumption|]. split.
    { intros t Ht. rewrite Forall_forall in Hall. now apply Hall. }
    split; [exact WA|]. intros Hpos Hfit.
    assert (LT : List.length ts = n) by (unfold n; rewrite <- Hpar, map_length; reflexivity).
    intros k1 k2 Hk12. rewrite LT in Hk12, Hfit. cbn zeta. rewrite AR in Hfit.
    pose proof (Hg k1 ltac:(fold n; lia)) as [G1 G1']. pose proof (Hg k2 ltac:(fold n; lia)) as [G2 G2']. clear Hg.
    cbn [fst snd] in *. split; [rewrite G1, G2; ring|].
    specialize (I2 ltac:(lia) Hfit).
    assert (Ed : inject_Z (Z.of_nat (k2 - k1)) == inject_Z (Z.of_nat k2) - inject_Z (Z.of_nat k1)).
    { rewrite Nat2Z.inj_sub by lia. unfold Z.sub. rewrite inject_Z_plus, inject_Z_opp. ring. }
    assert (Ep : 0 <= inject_Z (Z.of_nat (k2 - k1))) by (change 0 with (inject_Z 0); apply inj_le; lia).
    assert (M : inject_Z (Z.of_nat (k2 - k1)) * (angle - 1 / inject_Z 2000000000) <= inject_Z (Z.of_nat (k2 - k1)) * inc2).
    { rewrite !(Qmult_comm (inject_Z (Z.of_nat (k2 - k1)))). now apply Qmult_le_compat_r. }
    eapply Qle_trans; [exact M|]. apply Qabs_ge. rewrite G1', G2', Ed.
    destruct I3 as [->| ->]; [right|left]; lra.
Qed.

Lemma round_layers_blocks e : sane (re_windings e) -> (forall x, re_length e x <> None) ->
  forall layers c o,
  Forall (fun l => windable (re_windings e) l /\ l_orientation l = OVERLAPPING) (conduction layers) ->
  round_turns_from e c o layers = Ok None \/
  exists bs, round_turns_from e c o layers = Ok (Some (List.concat bs)) /\
    chain (re_windings e) c (conduction layers) bs /\
    Forall2 (fun l b => exists w angle, In w (re_windings e) /\ (forall t, In t b -> t_winding t = w_name w) /\
      wire_angle e w l = Some angle /\
      (0 <= angle -> inject_Z (Z.of_nat (List.length b)) * angle <= arc e l angle -> apart_in_angle angle b)) (conduction layers) bs.
Proof.
  intros HS HL. induction layers as [|l layers IH]; intros c o HF.
  - right. exists []. cbn. split; [reflexivity|]. split; constructor.
  - cbn [round_turns_from conduction filter] in *. destruct (is_conduction (l_type l)); [|now apply IH].
    inversion HF as [|? ? [F1 F1'] F2]; subst.
    destruct (round_block e c o l HS HL F1 F1') as [E|(b & c' & o' & E & B & A)]; rewrite E; cbn [bind]; [now left|].
    destruct (IH c' o' F2) as [E2|(bs & E2 & C & A2)]; rewrite E2; cbn [bind]; [now left|right].
    exists (b :: bs). split; [reflexivity|]. split; [econstructor; eassumption|now constructor].
Qed.

(** What winding the turns of a coil is to achieve: the turns of each parallel are numbered 0, 1, 2, … in the
    order they are laid, they are as many as the layers allot it, no two turns of the coil have the same name,
    and the turns come layer after layer, each with what it was allotted. *)
Definition well_wound (windings : list winding) (layers : list layer) (ts : list turn) : Prop :=
  (forall w p, In w windings -> exists n,
     map t_name (turns_of (w_name w) p ts) = map (turn_name (w_name w) p) (seq 0 n) /\
     inject_Z (Z.of_nat n) == inject_Z (w_turns w) * share (w_name w) p layers) /\
  NoDup (map t_name ts) /\
  exists blocks, ts = List.concat blocks /\ Forall2 (laid_on windings) (conduction layers) blocks.

Lemma chain_well_wound windings layers bs : sane windings -> chain windings (fun _ _ => 0%nat) (conduction layers) bs ->
  well_wound windings layers (List.concat bs).
Proof.
  intros HS C. split; [|split].
  - intros w p Hw. apply In_nth_error in Hw. destruct Hw as (i & Hi).
    destruct (chain_names _ _ _ _ HS C i w p Hi) as (n & En & Es). exists n. split; assumption.
  - eapply chain_distinct; eassumption.
  - exists bs. split; [reflexivity|]. eapply chain_laid; eassumption.
Qed.

(** * Theorems *)

(** Whatever the layers of a coil, as long as each holds whole turns of one winding and is wound parallel by
    parallel or has its parallels in equal numbers: winding the turns either is refused, leaving none, or lays every
    turn once. *)
Theorem C03_rectangular_all_or_nothing : forall e layers,
  sane (te_windings e) ->
  (forall l w, In l layers -> In w (te_windings e) -> 0 < w_width w /\ 0 < te_pitch e l (w_height w)) ->
  Forall (windable (te_windings e)) (conduction layers) ->
  wind_by_rectangular_turns e layers = Ok None \/
  exists ts, wind_by_rectangular_turns e layers = Ok (Some ts) /\ well_wound (te_windings e) layers ts.
Proof.
  intros e layers HS HW HF. unfold wind_by_rectangular_turns. destruct (_ && _)%bool; [now left|].
  destruct (turns_from_longer e layers start) as [E|E]; rewrite E; [now left|right].
  destruct (layers_blocks (longer_env e) HS) with (layers := layers) (st := start) as (bs & E2 & C & _).
  { intros s x. cbn. unfold longer. destruct (te_length e s x); discriminate. }
  { intros l w Hl. apply HW. apply filter_In in Hl. now destruct Hl. }
  { assumption. }
  exists (List.concat bs). split; [assumption|]. now apply chain_well_wound.
Qed.

(** It is refused only for a planar coil of too many layers or a turn of no length. *)
Theorem C03_turns_laid_once : forall e layers,
  sane (te_windings e) ->
  (forall s x, te_length e s x <> None) ->
  (forall l w, In l layers -> In w (te_windings e) -> 0 < w_width w /\ 0 < te_pitch e l (w_height w)) ->
  (forall w, In w (te_windings e) -> w_wire w = PLANAR -> (List.length (conduction layers) <= te_planar_layers e)%nat) ->
  Forall (windable (te_windings e)) (conduction layers) ->
  exists ts, wind_by_rectangular_turns e layers = Ok (Some ts) /\ well_wound (te_windings e) layers ts.
Proof.
  intros e layers HS HL HW HPl HF.
  destruct (layers_blocks e HS HL layers start) as (bs & E & C & _); [|assumption|].
  { intros l w Hl. apply HW. apply filter_In in Hl. now destruct Hl. }
  exists (List.concat bs). split; [|now apply chain_well_wound].
  unfold wind_by_rectangular_turns.
  destruct (existsb _ (te_windings e) && _)%bool eqn:B; [exfalso|exact E].
  apply andb_true_iff in B. destruct B as [B1 B2]. apply existsb_exists in B1. destruct B1 as (w & Hw & B1).
  destruct (w_wire w) eqn:Ew; try discriminate. apply Nat.ltb_lt in B2. specialize (HPl w Hw Ew).
  unfold conduction in HPl. lia.
Qed.

(** The same on a toroid. *)
Theorem C03_toroid_all_or_nothing : forall e layers,
  sane (re_windings e) ->
  Forall (fun l => windable (re_windings e) l /\ l_orientation l = OVERLAPPING) (conduction layers) ->
  wind_by_round_turns e layers = Ok None \/
  exists ts, wind_by_round_turns e layers = Ok (Some ts) /\ well_wound (re_windings e) layers ts.
Proof.
  intros e layers HS HF. unfold wind_by_round_turns. destruct (existsb _ _); [now left|].
  destruct (round_turns_from_longer e layers (fun _ _ => 0%nat) (fun _ => 0%nat)) as [E|E]; rewrite E; [now left|].
  destruct (round_layers_blocks (longer_round e) HS) with (layers := layers) (c := fun _ : nat => fun _ : nat => 0%nat) (o := fun _ : string => 0%nat)
    as [E2|(bs & E2 & C & _)].
  { intros x. cbn. unfold longer. destruct (re_length e x); discriminate. }
  { assumption. }
  { now left. }
  right. exists (List.concat bs). split; [assumption|]. now apply chain_well_wound.
Qed.

(** C70: no two turns of a layer overlap, whatever the alignment and the order. *)
Theorem C70_turns_apart : forall e layers,
  sane (te_windings e) ->
  (forall s x, te_length e s x <> None) ->
  (forall l w, In l layers -> In w (te_windings e) -> 0 < w_width w /\ 0 < te_pitch e l (w_height w)) ->
  (forall w, In w (te_windings e) -> w_wire w = PLANAR -> (List.length (conduction layers) <= te_planar_layers e)%nat) ->
  Forall (windable (te_windings e)) (conduction layers) ->
  exists blocks, wind_by_rectangular_turns e layers = Ok (Some (List.concat blocks)) /\
    Forall2 (laid_on (te_windings e)) (conduction layers) blocks /\
    Forall2 (fun l b => exists w, In w (te_windings e) /\ (forall t, In t b -> t_winding t = w_name w) /\
               apart (w_width w, te_pitch e l (w_height w)) (l_orientation l) b) (conduction layers) blocks.
Proof.
  intros e layers HS HL HW HPl HF.
  destruct (layers_blocks e HS HL layers start) as (bs & E & C & A); [|assumption|].
  { intros l w Hl. apply HW. apply filter_In in Hl. now destruct Hl. }
  exists bs. split; [|split; [eapply chain_laid; eassumption|assumption]].
  unfold wind_by_rectangular_turns.
  destruct (existsb _ (te_windings e) && _)%bool eqn:B; [exfalso|exact E].
  apply andb_true_iff in B. destruct B as [B1 B2]. apply existsb_exists in B1. destruct B1 as (w & Hw & B1).
  destruct (w_wire w) eqn:Ew; try discriminate. apply Nat.ltb_lt in B2. specialize (HPl w Hw Ew).
  unfold conduction in HPl. lia.
Qed.

(** On a toroid the turns of a layer are all at one depth and, if the layer has room for them, at least the angle
    of the wire apart, to within half a billionth of a degree. *)
Theorem C70_toroid_turns_apart : forall e layers ts,
  sane (re_windings e) ->
  (forall x, re_length e x <> None) ->
  Forall (fun l => windable (re_windings e) l /\ l_orientation l = OVERLAPPING) (conduction layers) ->
  wind_by_round_turns e layers = Ok (Some ts) ->
  exists blocks, ts = List.concat blocks /\
    Forall2 (laid_on (re_windings e)) (conduction layers) blocks /\
    Forall2 (fun l b => exists w angle, In w (re_windings e) /\ (forall t, In t b -> t_winding t = w_name w) /\
      wire_angle e w l = Some angle /\
      (0 <= angle -> inject_Z (Z.of_nat (List.length b)) * angle <= arc e l angle -> apart_in_angle angle b)) (conduction layers) blocks.
Proof.
  intros e layers ts HS HL HF H. unfold wind_by_round_turns in H. destruct (existsb _ _); [discriminate|].
  destruct (round_layers_blocks e HS HL layers (fun _ _ => 0%nat) (fun _ => 0%nat) HF) as [E2|(bs & E2 & C & A)]; [congruence|].
  rewrite E2 in H. injection H as <-. exists bs. split; [reflexivity|]. split; [eapply chain_laid; eassumption|assumption].
Qed.

Print Assumptions C03_rectangular_all_or_nothing.
Print Assumptions C03_turns_laid_once.
Print Assumptions C03_toroid_all_or_nothing.
Print Assumptions C70_turns_apart.
Print Assumptions C70_toroid_turns_apart.
