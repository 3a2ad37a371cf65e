(** C71: the layers of a section share out its turns and lie one against the other. *)
From Coq Require Import ZArith QArith Qround Qabs List Bool String Lia Lqa Arith.
From Verif Require Import Base QAux UtilsNumProofs CoilSplitModel CoilSplitProofs CoilSplitProperties StationModel WindModel WindProofs WindProperties WindLayerProofs.
Import ListNotations.
Open Scope Q_scope.

(** * Vocabulary *)

(** A conduction section that layers can be wound in: whole turns of a single winding, at least one, no number of layers
    asked for, and room for the wire in one direction at least. *)
Definition layable (windings : list winding) (s : section) : Prop :=
  exists w props, In w windings /\ sized w /\ s_partials s = [(w_name w, props)] /\
    List.length props = w_parallels w /\ Forall (whole (w_turns w)) props /\ 0 < Qsum props /\
    inject_Z (w_turns w) * Qsum props < 20000000000 /\
    s_number_layers s = None /\ 0 <= fst (s_size s) /\ 0 <= snd (s_size s) /\
    (w_width w <= fst (s_size s) \/ w_height w <= snd (s_size s)).

(** How much of parallel [p] of winding [w] a section holds. *)
Definition section_share_of (w : string) (p : nat) (s : section) : Q :=
  match s_partials s with
  | [(n, props)] => if String.eqb n w then nth p props 0 else 0
  | _ => 0
  end.

(** The insulation between layers is not conduction. *)
Definition insulated (e : layer_env) : Prop :=
  (forall i t, le_interlayer e i = Some t -> is_conduction (l_type t) = false) /\
  (forall i j ts, le_intersection e i j = Some ts -> Forall (fun t => is_conduction (l_type t) = false) ts).

(** The layers [ls] are those of section [s]: named after it in order, with whole turns of its winding and none without a
    turn, sharing out the section's turns exactly, and stacked one against the other to within a nanometre. *)
Definition layered (windings : list winding) (s : section) (ls : list layer) : Prop :=
  Forall (fun l => l_section l = Some (s_name s)) ls /\
  map l_name (conduction ls) = map (layer_name (s_name s)) (seq 0 (List.length (conduction ls))) /\
  conduction ls <> [] /\
  (exists w, In w windings /\ Forall (fun l => exists props, l_partials l = [(w_name w, props)] /\
      List.length props = w_parallels w /\ Forall (whole (w_turns w)) props /\ 0 < Qsum props) (conduction ls)) /\
  (forall w p, share w p ls == section_share_of w p s) /\
  stacked (s_layers s) ls.

(** * Proofs *)

Lemma layers_exists_max ks : ks <> [] -> Forall (fun k => 0 <= k)%Z ks -> exists p, (p < List.length ks)%nat /\
  (Zsum ks <= Z.of_nat (List.length ks) * nth p ks 0)%Z /\ (nth p ks 0 <= Zsum ks)%Z.
Proof.
  induction ks as [|k ks IH]; intros H F; [congruence|]. inversion F as [|? ? F1 F2]; subst.
  pose proof (Zsum_nonneg _ F2) as NN.
  destruct ks as [|k2 ks]; [exists 0%nat; cbn [List.length nth Zsum]; change (Z.of_nat 1) with 1%Z; lia|].
  destruct (IH ltac:(discriminate) F2) as (p & Hp & Hs & Hm).
  set (r := k2 :: ks) in *. change (List.length (k :: r)) with (S (List.length r)). change (Zsum (k :: r)) with (k + Zsum r)%Z.
  rewrite Nat2Z.inj_succ. set (L := Z.of_nat (List.length r)) in *. assert (0 <= L)%Z by (unfold L; lia).
  destruct (Z.le_gt_cases k (nth p r 0%Z)).
  - exists (S p). cbn [nth]. split; [lia|]. split; [|lia]. rewrite Z.mul_succ_l. lia.
  - exists 0%nat. cbn [nth]. split; [lia|]. split; [|lia]. rewrite Z.mul_succ_l. nia.
Qed.

Lemma conduction_app a b : conduction (a ++ b) = (conduction a ++ conduction b)%list.
Proof. apply filter_app. Qed.

Lemma share_app w p a b : share w p (a ++ b) == share w p a + share w p b.
Proof. unfold share. rewrite conduction_app, map_app, Qsum_app. reflexivity. Qed.

Lemma zero_not_empty N o ts : (0 < N)%Z -> wholes N (snd o) ts -> (0 < Zsum ts)%Z -> Forall (fun t => 0 <= t)%Z ts -> empty_slot o = false.
Proof.
  intros HN Hw Hs Hp. pose proof (NQ N HN). unfold empty_slot. destruct (forallb _ _) eqn:B; [exfalso|reflexivity].
  rewrite forallb_forall in B. assert (Zsum ts = 0)%Z; [|lia]. apply Zsum_all_zero. clear Hs Hp. destruct o as [ph l]. cbn [snd] in *.
  induction Hw as [|q t l ts Ht Hw IH]; constructor; [|apply IH; intros; apply B; now right].
  specialize (B q (or_introl eq_refl)). apply Qeq_bool_iff in B. unfold is_whole in Ht. rewrite B in Ht.
  assert (E : inject_Z t == 0) by (setoid_replace (inject_Z t) with (inject_Z t / inject_Z N * inject_Z N) by (field; lra); rewrite <- Ht; ring).
  change 0 with (inject_Z 0) in E. now rewrite inj_eq in E.
Qed.

Lemma holds_shares s w style a size w' p : forall ls out index count,
  List.length out = count ->
  Forall2 (holds s w style a size) ls (combine (seq index count) out) ->
  Qsum (map (share_of w' p) ls) == (if String.eqb (w_name w) w' then held p out else 0).
Proof.
  induction ls as [|l ls IH]; intros out index count HL H.
  - destruct out as [|o out]; [cbn; destruct (String.eqb _ _); reflexivity|]. subst count. cbn in H. inversion H.
  - destruct out as [|o out]; [subst count; cbn in H; inversion H|]. subst count. cbn in H. inversion H as [|? ? ? ? H1 H2]; subst.
    cbn [map Qsum]. rewrite (IH out (S index) (List.length out) eq_refl H2).
    destruct H1 as (_ & _ & _ & E & _). unfold share_of, held. cbn [snd fst] in E. rewrite E. cbn [map Qsum].
    destruct (String.eqb (w_name w) w'); [reflexivity|ring].
Qed.

Lemma holds_names s w style a size : forall ls out index count,
  List.length out = count ->
  Forall2 (holds s w style a size) ls (combine (seq index count) out) ->
  map l_name ls = map (layer_name (s_name s)) (seq index (List.length ls)).
Proof.
  induction ls as [|l ls IH]; intros out index count HL H; [reflexivity|].
  destruct out as [|o out]; [subst count; cbn in H; inversion H|]. subst count. cbn in H. inversion H as [|? ? ? ? H1 H2]; subst.
  cbn [map List.length seq]. rewrite (IH out (S index) (List.length out) eq_refl H2). destruct H1 as (E & _). cbn in E. now rewrite E.
Qed.

Lemma holds_each {A B C : Type} (P : A -> nat * B -> Prop) (Q0 : B -> C) : forall (ls : list A) (out : list B) index count,
  List.length out = count -> Forall2 P ls (combine (seq index count) out) ->
  forall l, In l ls -> exists i o, P l (i, o) /\ In o out.
Proof.
  induction ls as [|l0 ls IH]; intros out index count HL H l Hl; [destruct Hl|].
  destruct out as [|o out]; [subst count; cbn in H; inversion H|]. subst count. cbn in H. inversion H as [|? ? ? ? H1 H2]; subst.
  destruct Hl as [<-|Hl].
  - exists index, o. split; [assumption|now left].
  - destruct (IH out (S index) (List.length out) eq_refl H2 l Hl) as (i & o' & H3 & H4). exists i, o'. split; [assumption|now right].
Qed.

Lemma Qsum_wholes_pos N props ks : (0 < N)%Z -> wholes N props ks -> 0 < Qsum props -> (0 < Zsum ks)%Z.
Proof.
  intros HN Hw H. pose proof (NQ N HN). pose proof (Qsum_wholes N _ _ HN Hw) as E. rewrite <- inj_lt. change (inject_Z 0) with 0. rewrite <- E.
  setoid_replace 0 with (inject_Z N * 0) by ring. now apply Qmult_lt_l.
Qed.

Lemma section_layers e s : sane (le_windings e) -> insulated e -> layable (le_windings e) s ->
  exists ls, layers_of_section e s = Ok ls /\ layered (le_windings e) s ls /\
    (le_real e = false ->
     (s_style s = Some WIND_BY_CONSECUTIVE_TURNS \/
      (exists w props, In w (le_windings e) /\ s_partials s = [(w_name w, props)] /\ even (w_turns w) props)) ->
     Forall (windable (le_windings e)) (conduction ls)) /\
    Forall (fun l => l_orientation l = s_layers s) (conduction ls).
Proof.
  intros [ND HT] [HI _] (w & props & Hin & Hsz & Hp & HP & Hwh & Hpos & Hbig & Hno & S1 & S2 & Hroom).
  rewrite Forall_forall in HT. specialize (HT w Hin) as HN. assert (HN0 : (0 < w_turns w)%Z) by lia.
  destruct (whole_counts (w_turns w) props HN0 Hwh) as (ks & Hw & Hk).
  apply In_nth_error in Hin as Hi. destruct Hi as (i & Hi).
  unfold layers_of_section. rewrite Hp. rewrite (winding_by_name_nth _ i w ND Hi). cbn [bind].
  assert (PT : WindModel.physical_turns (w_turns w) props (w_parallels w) = Ok (Zsum ks)).
  { rewrite <- HP. now apply physical_turns_spec. }
  cbn zeta. rewrite PT. cbn [bind].
  destruct (layer_room_ok (le_one_turn e) w (s_layers s) (s_size s) Hsz S1 S2 Hroom) as (fitting & per & size & ER & Hf & Hper & Hor).
  rewrite ER. cbn [bind]. rewrite Hno.
  pose proof (wholes_length _ _ _ Hw) as HL.
  pose proof (Qsum_wholes_pos _ _ _ HN0 Hw Hpos) as Hphys.
  assert (Hks : ks <> []) by (intros ->; cbn in Hphys; lia).
  destruct (layers_exists_max ks Hks Hk) as (pm & Hpm & Hmax & Hmax2).
  assert (HP1 : (1 <= Z.of_nat (w_parallels w))%Z) by (rewrite <- HP, HL; destruct ks; [congruence|cbn; lia]).
  rewrite <- HL, HP in Hmax.
  destruct (number_of_layers_ok (le_overflow e) fitting per (Zsum ks) (Z.of_nat (w_parallels w)) (nth pm ks 0%Z))
    as (n0 & EN & Hn0 & Hc0); try assumption; try lia.
  rewrite EN. cbn [bind].
  destruct (more_layers_ok (s_style s) (w_turns w) (Z.of_nat (w_parallels w)) fitting per (Zsum ks) n0 (nth pm ks 0%Z))
    as (n & EM & Hn & Hc); try assumption; try lia.
  rewrite EM. cbn [bind].
  destruct (style_of_layers_ok (le_real e) (s_style s) (le_override e i) (w_turns w) (Z.of_nat (w_parallels w)) per n ltac:(lia))
    as (st & ES & Hst & Hst2).
  rewrite ES. cbn [bind].
  rewrite <- HP, firstn_all.
  assert (Hbigz : (Zsum ks < 2 * 10 ^ 10)%Z).
  { rewrite (Qsum_wholes _ _ _ HN0 Hw) in Hbig. change 20000000000 with (inject_Z 20000000000) in Hbig. rewrite inj_lt in Hbig. exact Hbig. }
  set (slots := Z.to_nat n). assert (Esl : Z.of_nat slots = n) by (unfold slots; lia).
  destruct (split_none_spec (w_turns w) HN0 (repeat (1, None) slots) 0 slots props ks st)
    as (out & final & tss & kf & E & Ho & Hl & Hfin & Hkf & Hlf & Hcc & Hz); try assumption.
  { now rewrite repeat_length. }
  { clear. induction slots; cbn; constructor; [|assumption]. cbn. split; [lra|reflexivity]. }
  assert (Lo : List.length out = slots).
  { clear -E. revert E. generalize 0%nat as idx, slots at 1 as m. revert props out.
    induction slots as [|k IH]; intros props out idx m E; cbn in E.
    - injection E as <- _. reflexivity.
    - destruct (get_parallels_proportions _ _ _ _ _ _ _) as [[ph pr]| | |]; try discriminate. cbn [bind] in E.
      destruct (split_slots (S idx) _ _ _ _ _) as [[o f]| | |] eqn:E2; try discriminate. cbn [bind] in E. injection E as <- <-.
      cbn. f_equal. eapply IH. eassumption. }
  pose proof (split_balanced (w_turns w) HN0 slots 0 slots props ks st out final eq_refl ltac:(lia) Hw Hk E) as B.
  assert (Hne : Forall (fun o => empty_slot o = false /\ exists ts, wholes (w_turns w) (snd o) ts /\ List.length ts = List.length ks /\ Forall (fun t => 0 <= t)%Z ts /\ (0 < Zsum ts)%Z) out).
  { apply Forall_forall. intros o Ho1.
    assert (T : exists ts, slot_got (w_turns w) o ts /\ List.length ts = List.length ks).
    { clear -Ho Hl Ho1. induction Ho as [|o' ts out tss G Ho IH]; [destruct Ho1|]. inversion Hl; subst.
      destruct Ho1 as [<-|Ho1]; [eauto|auto]. }
    destruct T as (ts & (A1 & A2 & A3) & A4).
    assert (Hsum : (0 < Zsum ts)%Z).
    { destruct st.
      - rewrite Forall_forall in B. specialize (B o Ho1). rewrite Esl in B. rewrite <- A3.
        assert (1 <= Zsum ks / n)%Z by (apply Z.div_le_lower_bound; lia). lia.
      - rewrite Forall_forall in B. specialize (B o Ho1 pm). rewrite Esl in B.
        assert (1 <= nth pm ks 0 / n)%Z by (apply Z.div_le_lower_bound; [lia|]; specialize (Hc (Hst eq_refl)); lia).
        unfold turns_in in B. rewrite (whole_turns_whole _ HN0 _ _ (wholes_nth _ HN0 _ _ pm A1)) in B.
        assert (G : (nth pm ts 0 <= Zsum ts)%Z); [|lia].
        clear -A2. revert pm. induction A2 as [|t ts Ht A2 IH]; intros pm; destruct pm; cbn; try lia.
        + pose proof (Zsum_nonneg _ A2). lia.
        + specialize (IH pm). lia. }
    split; [exact (zero_not_empty (w_turns w) o ts HN0 A1 Hsum A2)|]. exists ts. auto. }
  destruct (layer_loop_spec s w (le_interlayer e i) st (le_alignment e (s_name s)) slots size) with
    (count := slots) (index := 0%nat) (rem := props) (out := out) (final := final)
    (center := first_layer_center (le_alignment e (s_name s)) s n size)
    as (ls & EL & HH & ST & SE & HD).
  { intros t Ht. now apply (HI i). }
  { exact E. }
  { eapply Forall_impl; [|exact Hne]. now intros o [? _]. }
  exists ls. split; [exact EL|]. split; [|split].
  - split; [assumption|]. split; [eapply holds_names; [exact Lo|exact HH]|]. split.
    { intros E0. rewrite E0 in HH. destruct out as [|o out]; [cbn in Lo; lia|]. rewrite <- Lo in HH. cbn in HH. inversion HH. }
    split.
    { exists w. split; [assumption|]. apply Forall_forall. intros l Hl0.
      destruct (holds_each (C := unit) _ (fun _ => tt) _ _ _ _ Lo HH l Hl0) as (j & o & Hh & Ho1).
      rewrite Forall_forall in Hne. destruct (Hne o Ho1) as (_ & ts & A1 & A2 & A3 & A4).
      exists (snd o). destruct Hh as (_ & _ & _ & Eh & _). split; [exact Eh|]. split.
      - rewrite (wholes_length _ _ _ A1), A2, <- HL. exact HP.
      - split; [eapply wholes_whole; eassumption|].
        pose proof (Qsum_wholes _ _ _ HN0 A1) as Eq. rewrite <- inj_lt in A4. change (inject_Z 0) with 0 in A4. rewrite <- Eq in A4.
        pose proof (NQ _ HN0). setoid_replace 0 with (inject_Z (w_turns w) * 0) in A4 by ring. now apply Qmult_lt_l in A4. }
    split; [|assumption].
    intros w' p. unfold share. rewrite (holds_shares s w st _ size w' p _ _ _ _ Lo HH). unfold section_share_of. rewrite Hp.
    destruct (String.eqb (w_name w) w'); [|reflexivity].
    apply (got_held (w_turns w) props ks out tss kf p); try assumption; [apply Hcc|].
    apply (Hz (1, None)).
    + destruct slots as [|k] eqn:Eq; [lia|discriminate].
    + destruct slots as [|k] eqn:Eq; [lia|]. clear. induction k; [cbn; lra|exact IHk].
  - intros Hreal Hev. apply Forall_forall. intros l Hl0.
    destruct (holds_each (C := unit) _ (fun _ => tt) _ _ _ _ Lo HH l Hl0) as (j & o & Hh & Ho1).
    pose proof Hne as Hne2. rewrite Forall_forall in Hne2. destruct (Hne2 o Ho1) as (Hemp & ts & A1 & A2 & A3 & A4).
    destruct Hh as (H1 & H2 & H3 & H4 & H5 & H6 & H7 & H8). cbn [fst snd] in *.
    exists w, (snd o), (le_alignment e (s_name s)), (s_name s). split; [assumption|]. split; [assumption|].
    split; [rewrite (wholes_length _ _ _ A1), A2, <- HL; exact HP|]. split; [eapply wholes_whole; eassumption|].
    split; [assumption|]. split; [assumption|]. rewrite H6. intros Es. injection Es as Es.
    destruct Hev as [Hev|(w2 & props2 & Hin2 & Hp2 & Hev)].
    { rewrite (Hst2 Hreal Hev) in Es. discriminate. }
    injection Hp2 as En <-.
    assert (w2 = w).
    { apply In_nth_error in Hin2. destruct Hin2 as (i2 & Hi2). pose proof (winding_by_name_nth _ _ _ ND Hi2) as X1.
      pose proof (winding_by_name_nth _ _ _ ND Hi) as X2. congruence. }
    subst w2. subst st.
    destruct (even_rowed _ _ _ HN0 Hw Hev) as (k & Hk1 & Hk2 & _).
    pose proof (split_rowed (w_turns w) HN0 slots 0 slots props ks k out final eq_refl ltac:(lia) Hw Hk Hk2 E) as R.
    rewrite Forall_forall in R. destruct (R o Ho1) as (ts' & j' & R1 & R2).
    assert (ts' = ts) by (rewrite <- (wholes_map _ HN0 _ _ R1), <- (wholes_map _ HN0 _ _ A1); reflexivity). subst ts'.
    eapply nonzero_even; eassumption.
  - apply Forall_forall. intros l Hl0.
    destruct (holds_each (C := unit) _ (fun _ => tt) _ _ _ _ Lo HH l Hl0) as (j & o & Hh & Ho1). apply Hh.
Qed.

(** * Theorems *)

(** A section that can be wound is: it gets one layer or more, none without turns, and together they hold each parallel's
    turns exactly. *)
Theorem C71_section_in_layers : forall e s,
  sane (le_windings e) -> insulated e -> layable (le_windings e) s ->
  exists ls, layers_of_section e s = Ok ls /\ layered (le_windings e) s ls.
Proof.
  intros e s HS HI HL. destruct (section_layers e s HS HI HL) as (ls & E & L & _). eauto.
Qed.

Print Assumptions C71_section_in_layers.
