(** Lemmas on the winding of layers. *)
From Coq Require Import ZArith QArith Qround Qabs List Bool String Lia Lqa Arith.
From Verif Require Import Base QAux UtilsNumProofs CoilSplitModel CoilSplitProofs CoilSplitProperties StationModel WindModel WindProofs WindProperties.
Import ListNotations.
Open Scope Q_scope.

(** ** Splitting *)

Lemma cdiv_0 s : (1 <= s)%Z -> cdiv 0 s = 0%Z.
Proof. intros. rewrite cdiv_Z by lia. apply Z.div_small. lia. Qed.

(** Parallels with equal turns keep equal turns in every slot. *)
Lemma split_rowed N (HN : (0 < N)%Z) : forall n slotIndex slots rem ks k out final,
  (slotIndex + n = slots)%nat -> (Z.of_nat slots < 2 * 10 ^ 10)%Z ->
  wholes N rem ks -> Forall (fun k => 0 <= k)%Z ks -> rowed k ks ->
  split_slots slotIndex slots N rem WIND_BY_CONSECUTIVE_PARALLELS (repeat (1, None) n) = Ok (out, final) ->
  Forall (fun o => exists ts j, wholes N (snd o) ts /\ rowed j ts) out.
Proof.
  induction n as [|n IH]; intros slotIndex slots rem ks k out final Hlen Hbig Hw Hk R E.
  - cbn in E. injection E as <- <-. constructor.
  - destruct (slot_even N HN slotIndex slots rem ks WIND_BY_CONSECUTIVE_PARALLELS) as (phys & props & ts & E1 & Hp & Hb & Hph & Hst);
      try assumption; [lia|].
    cbn [repeat split_slots] in E. rewrite E1 in E. cbn [bind] in E.
    destruct (split_slots (S slotIndex) slots N _ _ (repeat (1, None) n)) as [[out' fin']| | |] eqn:E2; try discriminate.
    cbn [bind] in E. injection E as <- <-.
    set (s := Z.of_nat (slots - slotIndex)) in *. assert (Hs1 : (1 <= s)%Z) by (unfold s; lia).
    assert (Rt : rowed (cdiv k s) ts).
    { rewrite Hst. unfold rowed in *. clear -R Hs1. induction R as [|x ks Hx R IH]; cbn [map]; constructor; [|assumption].
      destruct Hx as [->| ->]; [now left|]. right. now apply cdiv_0. }
    constructor.
    + exists ts, (cdiv k s). split; assumption.
    + eapply (IH (S slotIndex) slots _ (zsub ks ts) (k - cdiv k s)%Z); try eassumption; try lia.
      * now apply sub_wholes.
      * now apply sub_nonneg.
      * rewrite Hst. unfold rowed, zsub. clear -R Hs1. induction R as [|x ks Hx R IH]; cbn [map combine]; constructor; [|assumption].
        destruct Hx as [->| ->]; [now left|]. right. rewrite cdiv_0 by assumption. lia.
Qed.

Lemma nonzero_even N props ts j : (0 < N)%Z -> wholes N props ts -> Forall (fun t => 0 <= t)%Z ts -> rowed j ts ->
  forallb (fun q => Qeq_bool q 0) props = false -> even N props.
Proof.
  intros HN Hw Hp R Hz. pose proof (NQ N HN) as HNq.
  assert (Eq : forall q j, is_whole N q j -> q * inject_Z N == inject_Z j).
  { intros q i H. unfold is_whole in H. rewrite H. field. lra. }
  assert (G : Exists (fun q => q * inject_Z N == inject_Z j) props /\ (0 < j)%Z).
  { induction Hw as [|q t props ts Ht Hw IH]; cbn in Hz; [discriminate|].
    inversion Hp as [|? ? P1 P2]; inversion R as [|? ? R1 R2]; subst.
    destruct (Qeq_bool q 0) eqn:B; cbn in Hz.
    - destruct (IH P2 R2 Hz) as [A1 A2]. split; [now right|assumption].
    - apply Qeq_bool_neq in B. specialize (Eq q t Ht). destruct R1 as [->| ->].
      + split; [now left|]. destruct (Z.eq_dec j 0) as [->|]; [exfalso|lia]. apply B.
        change (inject_Z 0) with 0 in Eq. apply Qmult_integral in Eq. destruct Eq; [assumption|lra].
      + exfalso. apply B. change (inject_Z 0) with 0 in Eq. apply Qmult_integral in Eq. destruct Eq; [assumption|lra]. }
  destruct G as [G1 G2]. exists j. split; [assumption|]. split; [assumption|]. clear G1 Hz Hp.
  induction Hw as [|q t props ts Ht Hw IH]; constructor; inversion R as [|? ? R1 R2]; subst; [|auto].
  specialize (Eq q t Ht). destruct R1 as [->| ->]; [now right|left].
  change (inject_Z 0) with 0 in Eq. apply Qmult_integral in Eq. destruct Eq; [assumption|lra].
Qed.

(** ** Stacking *)

(** Thickness of a layer across the stack, and where it is. *)
Definition thickness (o : orientation) (l : layer) : Q := if is_overlapping o then fst (l_size l) else snd (l_size l).
Definition along (o : orientation) (c : Q * Q) : Q := if is_overlapping o then fst c else snd c.
Definition across (o : orientation) (c : Q * Q) : Q := if is_overlapping o then snd c else fst c.

(** [b] lies against [a], outwards or downwards, to within a nanometre. *)
Definition against (o : orientation) (a b : layer) : Prop :=
  across o (l_center b) = across o (l_center a) /\
  let gap := if is_overlapping o then along o (l_center b) - along o (l_center a)
             else along o (l_center a) - along o (l_center b) in
  Qabs (gap - (thickness o a / 2 + thickness o b / 2)) <= 1 / inject_Z 1000000000.

Fixpoint stacked (o : orientation) (l : list layer) : Prop :=
  match l with
  | a :: ((b :: _) as r) => against o a b /\ stacked o r
  | _ => True
  end.

Lemma half_nm x : Qabs (roundFloat x 9 - x) <= 1 / inject_Z 2000000000.
Proof. apply roundFloat_near. Qed.

Lemma step_across o d c : across o (step_layer o d c) = across o c.
Proof. unfold across, step_layer. now destruct o. Qed.

Lemma step_along o d c :
  Qabs ((if is_overlapping o then along o (step_layer o d c) - along o c else along o c - along o (step_layer o d c)) - d)
  <= 1 / inject_Z 2000000000.
Proof.
  unfold along, step_layer. destruct o; cbn [is_overlapping fst snd].
  - pose proof (half_nm (fst c + d)) as H. setoid_replace (roundFloat (fst c + d) 9 - fst c - d) with (roundFloat (fst c + d) 9 - (fst c + d)) by ring.
    exact H.
  - pose proof (half_nm (snd c - d)) as H. rewrite <- Qabs_opp in H.
    setoid_replace (snd c - roundFloat (snd c - d) 9 - d) with (- (roundFloat (snd c - d) 9 - (snd c - d))) by ring. exact H.
Qed.

Lemma against_steps o a b d1 d2 : l_center b = step_layer o d2 (step_layer o d1 (l_center a)) ->
  d1 == thickness o a / 2 -> d2 == thickness o b / 2 -> against o a b.
Proof.
  intros E H1 H2. unfold against. rewrite E. split; [now rewrite !step_across|]. cbn zeta.
  pose proof (step_along o d1 (l_center a)) as A1. pose proof (step_along o d2 (step_layer o d1 (l_center a))) as A2.
  set (c1 := step_layer o d1 (l_center a)) in *. set (c2 := step_layer o d2 c1) in *. clearbody c1 c2. clear E.
  assert (S1 : 1 / inject_Z 1000000000 == 1 / inject_Z 2000000000 + 1 / inject_Z 2000000000) by reflexivity.
  rewrite S1. apply Qabs_Qle_condition in A1, A2. apply Qabs_Qle_condition.
  destruct o; cbn [is_overlapping] in *; lra.
Qed.

(** ** The layers of a section *)

(** Layer [l] is layer [i] of section [s] and holds what slot [o] got. *)
Definition holds (s : section) (w : winding) (style : winding_style) (a : alignment) (size : Q * Q)
  (l : layer) (io : nat * (Z * list Q)) : Prop :=
  l_name l = layer_name (s_name s) (fst io) /\ l_section l = Some (s_name s) /\ l_type l = CONDUCTION /\
  l_partials l = [(w_name w, snd (snd io))] /\ l_orientation l = s_layers s /\ l_style l = Some style /\
  l_alignment l = Some a /\ l_size l = size.

Definition empty_slot (o : Z * list Q) : bool := forallb (fun q => Qeq_bool q 0) (snd o).

Lemma layer_loop_spec s w sheet style a slots size :
  (forall t, sheet = Some t -> is_conduction (l_type t) = false) ->
  forall count index rem center out final,
  split_slots index slots (w_turns w) rem style (repeat (1, None) count) = Ok (out, final) ->
  Forall (fun o => empty_slot o = false) out ->
  exists ls, layer_loop s w sheet style a slots size count index rem center = Ok ls /\
    Forall2 (holds s w style a size) (conduction ls) (combine (seq index count) out) /\
    stacked (s_layers s) ls /\ Forall (fun l => l_section l = Some (s_name s)) ls /\
    (count <> 0%nat -> exists l r, ls = l :: r /\ l_center l = center /\ l_size l = size).
Proof.
  intros Hsheet. induction count as [|count IH]; intros index rem center out final E Hne.
  - cbn in E. injection E as <- <-. exists []. cbn. split; [reflexivity|]. split; [constructor|]. split; [exact I|]. split; [constructor|]. congruence.
  - cbn [repeat split_slots] in E.
    destruct (get_parallels_proportions index slots (w_turns w) rem style 1 None) as [[phys props]| | |] eqn:G; try discriminate.
    cbn [bind] in E.
    destruct (split_slots (S index) slots (w_turns w) _ style (repeat (1, None) count)) as [[out' fin']| | |] eqn:E2; try discriminate.
    cbn [bind] in E. injection E as <- <-. inversion Hne as [|? ? H1 H2]; subst. unfold empty_slot in H1. cbn [snd] in H1.
    cbn [layer_loop]. rewrite G. cbn [bind snd]. rewrite H1.
    set (l := mkLayer (layer_name (s_name s) index) (Some (s_name s)) CONDUCTION [(w_name w, props)] (s_layers s) (Some style) (Some a) center size).
    destruct count as [|count'].
    + cbn in E2. injection E2 as <- <-. exists [l]. split; [reflexivity|]. split.
      { cbn. constructor; [|constructor]. repeat split; reflexivity. }
      split; [exact I|]. split; [constructor; [reflexivity|constructor]|]. intros _. exists l, []. split; [reflexivity|]. split; reflexivity.
    + set (half := (if is_overlapping (s_layers s) then fst size else snd size) / 2).
      set (c1 := step_layer (s_layers s) half center).
      assert (Hl2 : half == thickness (s_layers s) l / 2) by reflexivity.
      destruct sheet as [t|].
      * set (th := if is_overlapping (l_orientation t) then fst (l_size t) else snd (l_size t)).
        set (c2 := step_layer (s_layers s) (th / 2) c1).
        set (sh := mkLayer (sheet_name (s_name s) index) (Some (s_name s)) (l_type t) (l_partials t) (s_layers s)
                     (l_style t) (l_alignment t) c2 (if is_overlapping (s_layers s) then (th, snd size) else (fst size, th))).
        destruct (IH (S index) (map (fun '(x, y) => x - y) (combine rem props))
                    (step_layer (s_layers s) half (step_layer (s_layers s) (th / 2) c2)) out' fin' E2 H2)
          as (ls & EL & HH & ST & SE & HD).
        rewrite EL. cbn [bind]. exists (l :: sh :: ls). split; [reflexivity|].
        destruct (HD ltac:(discriminate)) as (l0 & r & Er & Ec & Es).
        assert (Hth : th / 2 == thickness (s_layers s) sh / 2).
        { unfold sh, thickness. cbn. destruct (s_layers s); reflexivity. }
        split; [|split; [|split]].
        -- cbn [conduction filter is_conduction l_type]. cbn [filter l l_type is_conduction].
           change (l_type sh) with (l_type t). rewrite (Hsheet t eq_refl). cbn [seq combine].
           constructor; [repeat split; reflexivity|exact HH].
        -- rewrite Er in ST |- *. cbn [stacked]. split; [|split].
           ++ eapply against_steps; [reflexivity|exact Hl2|exact Hth].
           ++ eapply against_steps; [|exact Hth|]; [rewrite Ec; reflexivity|].
              unfold thickness. rewrite Es. reflexivity.
           ++ exact ST.
        -- constructor; [reflexivity|]. constructor; [reflexivity|assumption].
        -- intros _. exists l, (sh :: ls). split; [reflexivity|]. split; reflexivity.
      * destruct (IH (S index) (map (fun '(x, y) => x - y) (combine rem props)) (step_layer (s_layers s) half c1) out' fin' E2 H2)
          as (ls & EL & HH & ST & SE & HD).
        rewrite EL. cbn [bind]. exists (l :: ls). split; [reflexivity|].
        destruct (HD ltac:(discriminate)) as (l0 & r & Er & Ec & Es).
        split; [|split; [|split]].
        -- cbn [conduction filter l l_type is_conduction]. cbn [seq combine].
           constructor; [repeat split; reflexivity|exact HH].
        -- rewrite Er in ST |- *. cbn [stacked]. split; [|exact ST].
           eapply against_steps; [rewrite Ec; reflexivity|exact Hl2|]. unfold thickness. rewrite Es. reflexivity.
        -- constructor; [reflexivity|assumption].
        -- intros _. exists l, ls. split; [reflexivity|]. split; reflexivity.
Qed.

(** ** How many layers *)

Lemma quotient_ok a b : 0 <= a -> 0 < b -> exists z, quotient a b = Ok z /\ (0 <= z)%Z /\ (b <= a -> (1 <= z)%Z).
Proof.
  intros Ha Hb. unfold quotient. destruct (Qeq_bool b 0) eqn:B; [apply Qeq_bool_iff in B; lra|].
  assert (Hd : 0 <= a / b) by (apply (Qle_div_iff _ _ _ Hb); lra).
  destruct (Qlt_bool (a / b) 0) eqn:C; [apply Qlt_bool_iff in C; lra|].
  exists (Qfloor (a / b)). split; [reflexivity|]. split.
  - change 0%Z with (Qfloor 0). now apply Qfloor_resp_le.
  - intros H. change 1%Z with (Qfloor 1). apply Qfloor_resp_le. apply (Qle_div_iff _ _ _ Hb). lra.
Qed.

Definition sized (w : winding) : Prop :=
  0 < w_width w /\ 0 < w_height w /\ (w_wire w = ROUND \/ w_wire w = LITZ -> w_width w == w_height w).

Lemma layer_room_ok one w o size : sized w -> 0 <= fst size -> 0 <= snd size ->
  (w_width w <= fst size \/ w_height w <= snd size) ->
  exists fitting per sz, layer_room one w o size = Ok (fitting, per, sz) /\ (0 <= fitting)%Z /\ (0 <= per)%Z /\
    (1 <= fitting \/ 1 <= per)%Z.
Proof.
  intros (W & H & R) S1 S2 F. unfold layer_room.
  set (round := match w_wire w with ROUND | LITZ => true | _ => false end).
  assert (HH : 0 < (if round then w_width w else w_height w) /\ (if round then w_width w else w_height w) == w_height w).
  { unfold round. destruct (w_wire w); split; try assumption; try reflexivity; apply R; auto. }
  destruct HH as [HH EH].
  assert (Hh : w_height w <= snd size -> (if round then w_width w else w_height w) <= snd size) by (intros; lra).
  destruct (quotient_ok (fst size) (w_width w) S1 W) as (z1 & Q1 & P1 & G1).
  destruct (quotient_ok (snd size) _ S2 HH) as (z2 & Q2 & P2 & G2).
  destruct (is_overlapping o).
  - rewrite Q1. cbn [bind].
    assert (T : exists z, (match w_wire w with FOIL => Ok 1%Z | _ => quotient (snd size) (if round then w_width w else w_height w) end) = Ok z
              /\ (0 <= z)%Z /\ (w_height w <= snd size -> (1 <= z)%Z)).
    { destruct (w_wire w) eqn:Ew; try (exists z2; split; [exact Q2|]; split; [assumption|]; intros; apply G2; now apply Hh).
      exists 1%Z. split; [reflexivity|]. split; [lia|intros; lia]. }
    destruct T as (z & T & T1 & T2). rewrite T. cbn [bind]. do 3 eexists. split; [reflexivity|]. split; [assumption|]. split; [assumption|].
    destruct F; [left; now apply G1|right; now apply T2].
  - rewrite Q2. cbn [bind].
    assert (T : exists z, (match w_wire w with RECTANGULAR => if one then Ok 1%Z else quotient (fst size) (w_width w)
                                             | _ => quotient (fst size) (w_width w) end) = Ok z
              /\ (0 <= z)%Z /\ (w_width w <= fst size -> (1 <= z)%Z)).
    { destruct (w_wire w); try (exists z1; split; [exact Q1|]; split; assumption).
      destruct one; [exists 1%Z; split; [reflexivity|]; split; [lia|intros; lia]|exists z1; split; [exact Q1|]; split; assumption]. }
    destruct T as (z & T & T1 & T2). rewrite T. cbn [bind]. do 3 eexists. split; [reflexivity|]. split; [assumption|]. split; [assumption|].
    destruct F; [right; now apply T2|left; now apply G2, Hh].
Qed.

Lemma ceil_le_iff x z : (Qceiling x <= z)%Z <-> x <= inject_Z z.
Proof.
  split.
  - intros H. eapply Qle_trans; [apply Qle_ceiling|]. now apply inj_le.
  - intros H. rewrite <- (Qceiling_Z z). now apply Qceiling_resp_le.
Qed.
Lemma ceil_pos x : 0 < x -> (1 <= Qceiling x)%Z.
Proof.
  intros H. assert (C : inject_Z 0 < inject_Z (Qceiling x)).
  { eapply Qlt_le_trans; [exact H|]. apply Qle_ceiling. }
  rewrite inj_lt in C. lia.
Qed.

(** Without a number of layers asked for: at least one, at most one for each turn, and with room for a turn of each
    parallel on a layer, at most one for each turn of the longest parallel. *)
Lemma number_of_layers_ok overflow fitting per physical P kmax :
  (0 <= fitting)%Z -> (0 <= per)%Z -> (1 <= fitting \/ 1 <= per)%Z -> (1 <= physical)%Z -> (physical <= P * kmax)%Z -> (1 <= P)%Z ->
  exists n, number_of_layers overflow None fitting per physical = Ok n /\ (1 <= n <= physical)%Z /\ (P <= per -> n <= kmax)%Z.
Proof.
  intros Hf Hp Hor Hph Hk HP. unfold number_of_layers.
  assert (PQ : 0 < inject_Z physical) by (change 0 with (inject_Z 0); apply inj_lt; lia).
  assert (C : (1 <= per)%Z -> (1 <= Qceiling (inject_Z physical / inject_Z per))%Z /\
              (P <= per -> Qceiling (inject_Z physical / inject_Z per) <= kmax)%Z).
  { intros H1. assert (RQ : 0 < inject_Z per) by (change 0 with (inject_Z 0); apply inj_lt; lia). split.
    - apply ceil_pos. apply (Qlt_div_iff _ _ _ RQ). lra.
    - intros H2. apply ceil_le_iff. apply (Qdiv_le_iff _ _ _ RQ). rewrite <- inject_Z_mult. apply inj_le. nia. }
  destruct (Z.eqb_spec fitting 0) as [->|F0]; destruct (Z.eqb_spec per 0) as [->|P0]; cbn [bind]; [lia| | |].
  - destruct (C ltac:(lia)) as [C1 C2]. eexists. split; [reflexivity|]. split; [lia|]. intros H. specialize (C2 H). lia.
  - eexists. split; [reflexivity|]. split; [lia|]. lia.
  - destruct (C ltac:(lia)) as [C1 C2]. cbn zeta. eexists. split; [reflexivity|].
    split; [destruct overflow; lia|]. intros H. specialize (C2 H). destruct overflow; lia.
Qed.

Lemma choose_layer_style_ok override N P n : (1 <= n)%Z -> exists st, choose_layer_style override N P n = Ok st.
Proof.
  intros Hn. unfold choose_layer_style. destruct (_ && _)%bool; [eauto|]. destruct override; [eauto|].
  destruct (Z.eqb_spec N n); [eauto|]. destruct (Z.eqb_spec P n); [eauto|]. destruct (Z.eqb_spec n 0); [lia|].
  repeat match goal with |- context [if ?b then _ else _] => destruct b; eauto end.
Qed.

Lemma more_layers_ok style N P fitting per physical n kmax :
  (0 <= fitting)%Z -> (0 <= per)%Z -> (1 <= physical)%Z -> (physical <= P * kmax)%Z -> (kmax <= physical)%Z -> (1 <= P)%Z ->
  (1 <= n <= physical)%Z -> (P <= per -> n <= kmax)%Z ->
  exists n', more_layers_for_rows None style N P fitting per physical n = Ok n' /\ (1 <= n' <= physical)%Z /\ (P <= per -> n' <= kmax)%Z.
Proof.
  intros Hf Hp Hph Hk Hkm HP Hn Hc. unfold more_layers_for_rows.
  destruct (_ && _)%bool; [|exists n; auto].
  assert (T : exists st, (match style with Some s => Ok s | None => choose_layer_style None N P n end) = Ok st).
  { destruct style; [eauto|]. apply choose_layer_style_ok. lia. }
  destruct T as (st & T). rewrite T. cbn [bind]. destruct st; [exists n; auto|].
  destruct (Z.ltb_spec 0 (per / P)) as [R|R]; [|exists n; auto].
  cbn zeta. set (pp := Qceiling (inject_Z physical / inject_Z P - 1 / inject_Z 1000000000)).
  destruct (_ <? _)%Z; [|exists n; auto].
  set (m := Qceiling (inject_Z pp / inject_Z (per / P) - 1 / inject_Z 1000000000)).
  assert (PQ : 0 < inject_Z P) by (change 0 with (inject_Z 0); apply inj_lt; lia).
  assert (RQ : 0 < inject_Z (per / P)) by (change 0 with (inject_Z 0); apply inj_lt; lia).
  assert (T9 : 0 < 1 / inject_Z 1000000000) by reflexivity.
  assert (Hpp : (pp <= kmax)%Z).
  { unfold pp. apply ceil_le_iff. assert (inject_Z physical / inject_Z P <= inject_Z kmax); [|lra].
    apply (Qdiv_le_iff _ _ _ PQ). rewrite <- inject_Z_mult. apply inj_le. nia. }
  assert (Hk0 : (1 <= kmax)%Z) by nia.
  assert (Hm : (m <= kmax)%Z).
  { unfold m. apply ceil_le_iff. assert (inject_Z pp / inject_Z (per / P) <= inject_Z kmax); [|lra].
    apply (Qdiv_le_iff _ _ _ RQ). rewrite <- inject_Z_mult. apply inj_le. nia. }
  clearbody m pp. assert (Hper : (P <= per)%Z).
  { destruct (Z.le_gt_cases P per) as [|G]; [assumption|]. rewrite Z.div_small in R by lia. lia. }
  specialize (Hc Hper).
  destruct (Z.ltb_spec 0 fitting); eexists; (split; [reflexivity|]); split; lia.
Qed.

Lemma style_of_layers_ok real style override N P per n : (1 <= n)%Z ->
  exists st, style_of_layers real style override N P per n = Ok st /\
    (st = WIND_BY_CONSECUTIVE_PARALLELS -> (P <= per)%Z) /\
    (real = false -> style = Some WIND_BY_CONSECUTIVE_TURNS -> st = WIND_BY_CONSECUTIVE_TURNS).
Proof.
  intros Hn. unfold style_of_layers.
  assert (T : exists st, (match style with Some s => Ok s | None => choose_layer_style override N P n end) = Ok st /\
     (style = Some WIND_BY_CONSECUTIVE_TURNS -> st = WIND_BY_CONSECUTIVE_TURNS)).
  { destruct style as [s|]; [exists s; split; [reflexivity|congruence]|]. destruct (choose_layer_style_ok override N P n Hn) as (st & E).
    exists st. split; [exact E|discriminate]. }
  destruct T as (st & T & T2). rewrite T. cbn [bind]. eexists. split; [reflexivity|]. split.
  - intros H. destruct (real && (1 <? P)%Z)%bool; [|destruct st; [discriminate|]]; destruct (Z.ltb_spec per P); try discriminate; assumption.
  - intros -> H. cbn [andb]. now rewrite (T2 H).
Qed.
